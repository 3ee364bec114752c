(** Rounding to digits and the diversity test in double precision. *)
From Coq Require Import Qabs Lqa Setoid Qround.
From Verif Require Import Base M_Values M_Ops M_Pick M_Weights M_Corr M_Float M_Double M_DoubleProb M_DoubleRound
  SpecWeights SpecFloat SpecDouble SpecRound SpecCorr P_Support P_Round P_Pick P_Float P_Double P_DoublePct P_Induce.
Open Scope Q_scope.

Lemma ten_pos d : (0 <= d)%Z -> 0 < ten d.
Proof. intros H. unfold ten. change 0 with (inject_Z 0). rewrite <- Zlt_Qlt. apply Z.pow_pos_nonneg; lia. Qed.
Lemma rint_mono x y : x <= y -> (round_half_even x <= round_half_even y)%Z.
Proof. apply round_half_even_mono. Qed.
Lemma mul_mono x y c : 0 <= c -> x <= y -> dmul x c <= dmul y c.
Proof. intros C L. rewrite !dmul_eq. apply rnd_mono. now apply Qmult_le_compat_r. Qed.
Lemma div_mono x y c : 0 < c -> x <= y -> ddiv x c <= ddiv y c.
Proof. intros C L. rewrite !ddiv_eq. apply rnd_mono. unfold Qdiv. apply Qmult_le_compat_r; auto. apply Qinv_le_0_compat. lra. Qed.
Lemma fl_round_mono x y d : x <= y -> fl_np_round x d <= fl_np_round y d.
Proof.
  intros L. unfold fl_np_round. destruct (0 <=? d)%Z eqn:E.
  - apply Z.leb_le in E. pose proof (ten_pos d E). apply div_mono; auto. apply (proj2 (inject_Z_le _ _)), rint_mono, mul_mono; auto. lra.
  - apply Z.leb_gt in E. pose proof (ten_pos (- d) ltac:(lia)). apply mul_mono; [lra|]. apply (proj2 (inject_Z_le _ _)), rint_mono, div_mono; auto.
Qed.
Lemma rint_near x k : Qabs (x - inject_Z k) < 1#2 -> round_half_even x = k.
Proof.
  intros H. pose proof (nearest_integer x k) as N. pose proof (Qle_lt_trans _ _ _ N H) as N'.
  apply Qabs_Qlt_condition in H, N'. set (j := round_half_even x) in *.
  assert (A : inject_Z j < inject_Z k + 1) by lra. assert (B : inject_Z k < inject_Z j + 1) by lra.
  change 1 with (inject_Z 1) in A, B. rewrite <- inject_Z_plus, <- Zlt_Qlt in A, B. lia.
Qed.
Lemma small_u : 0 < double_u /\ double_u <= 1#16. Proof. split; [reflexivity|vm_compute; discriminate]. Qed.
(** Two roundings of an integer that is not too large stay close to it. *)
Lemma twice_close q c k : 0 < c -> q * c == inject_Z k -> (Z.abs k <= 2 ^ 50)%Z -> round_half_even (rnd (rnd q * c)) = k.
Proof.
  intros C E K. apply rint_near. destruct small_u as [U U1]. set (u := double_u) in *.
  pose proof (rnd_error q) as E1. pose proof (rnd_error (rnd q * c)) as E2. fold u in E1, E2.
  assert (AK : Qabs (inject_Z k) <= inject_Z (2 ^ 50)).
  { apply Qabs_Qle_condition. change (- inject_Z (2 ^ 50)) with (inject_Z (- 2 ^ 50)). rewrite <- !Zle_Qle. lia. }
  assert (QC : Qabs q * c == Qabs (inject_Z k)) by (rewrite <- E, Qabs_Qmult, (Qabs_pos c) by lra; reflexivity).
  assert (A1 : Qabs (rnd q * c - inject_Z k) <= u * Qabs (inject_Z k)).
  { rewrite <- E at 1. setoid_replace (rnd q * c - q * c) with ((rnd q - q) * c) by ring. rewrite Qabs_Qmult, (Qabs_pos c) by lra.
    rewrite <- QC, Qmult_assoc. apply Qmult_le_compat_r; [auto|lra]. }
  set (A := Qabs (inject_Z k)) in *. assert (A0 : 0 <= A) by apply Qabs_nonneg.
  assert (UA : u * A <= 1#8). { assert (u * inject_Z (2 ^ 50) == 1#8) by reflexivity. rewrite <- H. rewrite !(Qmult_comm u). apply Qmult_le_compat_r; lra. }
  assert (A2 : Qabs (rnd q * c) <= A + u * A).
  { setoid_replace (rnd q * c) with (inject_Z k + (rnd q * c - inject_Z k)) by ring. eapply Qle_trans; [apply Qabs_triangle|]. fold A. lra. }
  assert (A3 : Qabs (rnd (rnd q * c) - inject_Z k) <= u * (A + u * A) + u * A).
  { setoid_replace (rnd (rnd q * c) - inject_Z k) with ((rnd (rnd q * c) - rnd q * c) + (rnd q * c - inject_Z k)) by ring.
    eapply Qle_trans; [apply Qabs_triangle|]. apply Qplus_le_compat; auto. eapply Qle_trans; [apply E2|]. rewrite !(Qmult_comm u). apply Qmult_le_compat_r; lra. }
  assert (0 <= u * A) by nra. assert (u * (u * A) <= (1#16) * (u * A)) by (apply Qmult_le_compat_r; lra). lra.
Qed.
Lemma ten_pow10 d : (0 <= d)%Z -> ten d == pow10 d.
Proof. intros D. unfold ten, pow10. rewrite Zpower_Qpower by auto. reflexivity. Qed.
Lemma fl_round_eq x d : fl_np_round x d == rnd (inject_Z (round_half_even (rnd (x * pow10 d))) / pow10 d).
Proof.
  unfold fl_np_round. destruct (0 <=? d)%Z eqn:E.
  - apply Z.leb_le in E. rewrite ddiv_eq. rewrite (rint_compat (dmul x (ten d)) (rnd (x * pow10 d))).
    + apply rnd_compat. now rewrite ten_pow10.
    + rewrite dmul_eq. apply rnd_compat. now rewrite ten_pow10.
  - apply Z.leb_gt in E. assert (T : ten (- d) == / pow10 d) by (rewrite ten_pow10 by lia; unfold pow10; apply Qpower_opp).
    pose proof (pow10_pos d) as P.
    rewrite dmul_eq. rewrite (rint_compat (ddiv x (ten (- d))) (rnd (x * pow10 d))).
    + apply rnd_compat. now rewrite T.
    + rewrite ddiv_eq. apply rnd_compat. rewrite T. field. lra.
Qed.
(** The doubles nearest to multiples of 10^-d stay as they are. *)
Lemma fl_round_fixed d k : (Z.abs k <= 2 ^ 50)%Z ->
  fl_np_round (rnd (inject_Z k / pow10 d)) d == rnd (inject_Z k / pow10 d).
Proof.
  intros K. pose proof (pow10_pos d) as T. rewrite fl_round_eq. rewrite (twice_close _ _ k); auto; [reflexivity|]. field. lra.
Qed.
Lemma fl_round_error x d :
  Qabs (fl_np_round x d - x) <= (1 + double_u) * ((1#2) / pow10 d) + 3 * double_u * Qabs x.
Proof.
  pose proof (pow10_pos d) as T. rewrite fl_round_eq. set (c := pow10 d) in *.
  destruct small_u as [U U1]. set (u := double_u) in *.
  pose proof (rnd_error (x * c)) as E1. fold u in E1. rewrite Qabs_Qmult, (Qabs_pos c) in E1 by lra.
  set (m := rnd (x * c)) in *. set (k := round_half_even m).
  assert (E2 : Qabs (m - inject_Z k) <= 1#2).
  { destruct (round_half_even_spec m) as (k' & Ek & N & _). fold k in Ek. rewrite Ek. exact N. }
  pose proof (rnd_error (inject_Z k / c)) as E3. fold u in E3.
  assert (I : 0 < / c) by now apply Qinv_lt_0_compat.
  assert (E4 : Qabs (inject_Z k / c - x) <= (1#2) / c + u * Qabs x).
  { setoid_replace (inject_Z k / c - x) with (- (m - inject_Z k) / c + (m - x * c) / c) by (field; lra).
    eapply Qle_trans; [apply Qabs_triangle|]. apply Qplus_le_compat.
    - unfold Qdiv. rewrite Qabs_Qmult, Qabs_opp, (Qabs_pos (/ c)) by lra. apply Qmult_le_compat_r; [auto|lra].
    - unfold Qdiv. rewrite Qabs_Qmult, (Qabs_pos (/ c)) by lra.
      setoid_replace (u * Qabs x) with (u * (Qabs x * c) * / c) by (field; lra). apply Qmult_le_compat_r; [auto|lra]. }
  set (h := (1#2) / c) in *. assert (H0 : 0 <= h) by (unfold h, Qdiv; nra).
  assert (AX : 0 <= Qabs x) by apply Qabs_nonneg.
  assert (E5 : Qabs (inject_Z k / c) <= Qabs x + (h + u * Qabs x)).
  { setoid_replace (inject_Z k / c) with (x + (inject_Z k / c - x)) by ring. eapply Qle_trans; [apply Qabs_triangle|]. lra. }
  setoid_replace (rnd (inject_Z k / c) - x) with ((rnd (inject_Z k / c) - inject_Z k / c) + (inject_Z k / c - x)) by ring.
  eapply Qle_trans; [apply Qabs_triangle|].
  assert (E6 : u * Qabs (inject_Z k / c) <= u * (Qabs x + (h + u * Qabs x))) by (rewrite !(Qmult_comm u); apply Qmult_le_compat_r; lra).
  assert (UX : 0 <= u * Qabs x) by nra. assert (UUX : u * (u * Qabs x) <= (1#16) * (u * Qabs x)) by (apply Qmult_le_compat_r; lra).
  lra.
Qed.
(** 2.675 as a double is below 2.675, yet becomes 2.68. *)
Lemma fl_round_not_nearest : exists x d k k', is_double x /\ fl_np_round x d == rnd (inject_Z k / pow10 d) /\
  Qabs (inject_Z k' / pow10 d - x) < Qabs (inject_Z k / pow10 d - x).
Proof.
  exists (3011782250804019 # 1125899906842624), 2%Z, 268%Z, 267%Z. split; [|split; vm_compute; reflexivity].
  exists 3011782250804019%Z, (-50)%Z. split; [lia|reflexivity].
Qed.
Lemma one_in_back k : (0 < k <= 2 ^ 50)%Z -> fl_one_in (rnd (1 / inject_Z k)) 0 == inject_Z k.
Proof.
  intros K. unfold fl_one_in, fl_np_round. change (0 <=? 0)%Z with true. cbv iota. change (ten 0) with 1.
  rewrite ddiv_eq.
  assert (E : round_half_even (dmul (ddiv 1 (rnd (1 / inject_Z k))) 1) = k).
  { rewrite (rint_compat _ (rnd (1 / rnd (1 / inject_Z k)))).
    2: { rewrite dmul_eq. rewrite (rnd_compat _ (ddiv 1 (rnd (1 / inject_Z k)))) by ring. rewrite rnd_exact; [apply ddiv_eq|].
         eapply is_double_compat; [symmetry; apply ddiv_eq|apply rnd_double]. }
    apply rint_near. destruct small_u as [U U1]. set (u := double_u) in *.
    assert (KP : 0 < inject_Z k) by (change 0 with (inject_Z 0); rewrite <- Zlt_Qlt; lia).
    assert (KB : inject_Z k <= inject_Z (2 ^ 50)) by (rewrite <- Zle_Qle; lia).
    set (x := inject_Z k) in *. assert (I : 0 < 1 / x) by (unfold Qdiv; rewrite Qmult_1_l; now apply Qinv_lt_0_compat).
    pose proof (rnd_up (1 / x) ltac:(lra)) as R1. pose proof (rnd_down (1 / x) ltac:(lra)) as R2. fold u in R1, R2. set (y := rnd (1 / x)) in *.
    assert (Y : 0 < y) by (apply Qlt_le_trans with (2 := R2); apply Qmult_lt_0_compat; lra).
    assert (XI : 1 / x * x == 1) by (field; lra).
    assert (B1 : 1 / y <= (1 + 2 * u) * x).
    { apply Qle_shift_div_r; auto. apply Qle_trans with ((1 + 2 * u) * x * ((1 - u) * (1 / x))).
      - setoid_replace ((1 + 2 * u) * x * ((1 - u) * (1 / x))) with ((1 + 2 * u) * (1 - u) * (1 / x * x)) by ring. rewrite XI. vm_compute. discriminate.
      - rewrite !(Qmult_comm ((1 + 2 * u) * x)). apply Qmult_le_compat_r; auto. apply Qmult_le_0_compat; lra. }
    assert (B2 : (1 - u) * x <= 1 / y).
    { apply Qle_shift_div_l; auto. apply Qle_trans with ((1 - u) * x * ((1 + u) * (1 / x))).
      - rewrite !(Qmult_comm ((1 - u) * x)). apply Qmult_le_compat_r; auto. apply Qmult_le_0_compat; lra.
      - setoid_replace ((1 - u) * x * ((1 + u) * (1 / x))) with ((1 - u) * (1 + u) * (1 / x * x)) by ring. rewrite XI. vm_compute. discriminate. }
    assert (P : 0 <= 1 / y) by (unfold Qdiv; rewrite Qmult_1_l; apply Qlt_le_weak, Qinv_lt_0_compat; auto).
    pose proof (rnd_up (1 / y) P) as R3. pose proof (rnd_down (1 / y) P) as R4. fold u in R3, R4.
    assert (UX : u * x <= 1#8). { assert (u * inject_Z (2 ^ 50) == 1#8) by reflexivity. rewrite <- H, !(Qmult_comm u). apply Qmult_le_compat_r; lra. }
    assert (0 <= u * x) by nra. assert (u * (u * x) <= (1#16) * (u * x)) by (apply Qmult_le_compat_r; lra).
    assert (u * (1 / y) <= u * ((1 + 2 * u) * x)) by (rewrite !(Qmult_comm u); apply Qmult_le_compat_r; lra).
    apply Qabs_Qlt_condition. split; lra. }
  rewrite E. rewrite (rnd_compat _ (inject_Z k)) by field. apply rnd_exact, is_double_int. lia.
Qed.

(** The test unique / n >= 0.7 is exact. *)
Lemma ratio_test a n : (0 <= a <= n)%Z -> (0 < n <= 2 ^ 49)%Z ->
  Qle_bool (Qred (rnd (7#10))) (ddiv (inject_Z a) (inject_Z n)) = (7 * n <=? 10 * a)%Z.
Proof.
  intros A N. assert (NP : 0 < inject_Z n) by (change 0 with (inject_Z 0); rewrite <- Zlt_Qlt; lia).
  assert (A0 : 0 <= inject_Z a) by (change 0 with (inject_Z 0); rewrite <- Zle_Qle; lia).
  apply eq_true_iff_eq. rewrite Qle_bool_iff, Z.leb_le, Qred_correct, ddiv_eq. split.
  - intros H. apply Z.le_ngt. intros L. apply (Qle_not_lt _ _ H). clear H.
    assert (L' : inject_Z (10 * a + 1) <= inject_Z (7 * n)) by (rewrite <- Zle_Qle; lia).
    rewrite inject_Z_plus, !inject_Z_mult in L'. change (inject_Z 1) with 1 in L'. change (inject_Z 10) with 10 in L'. change (inject_Z 7) with 7 in L'.
    assert (NB : inject_Z n <= inject_Z (2 ^ 49)) by (rewrite <- Zle_Qle; lia).
    set (x := inject_Z a) in *. set (y := inject_Z n) in *.
    assert (Q0 : 0 <= x / y) by (apply Qle_shift_div_l; lra).
    pose proof (rnd_up (x / y) Q0) as R1. apply Qle_lt_trans with (1 := R1).
    assert (Q1 : x / y <= (7#10) - (1#10) / y).
    { apply Qle_shift_div_r; auto. setoid_replace (((7#10) - (1#10) / y) * y) with ((7#10) * y - (1#10)) by (field; lra). lra. }
    assert (Q2 : (1#10) / inject_Z (2 ^ 49) <= (1#10) / y).
    { apply Qle_shift_div_l; auto. apply Qle_trans with ((1#10) / inject_Z (2 ^ 49) * inject_Z (2 ^ 49)); [|vm_compute; discriminate].
      rewrite !(Qmult_comm ((1#10) / inject_Z (2 ^ 49))). apply Qmult_le_compat_r; auto. vm_compute. discriminate. }
    apply Qle_lt_trans with ((1 + double_u) * ((7#10) - (1#10) / inject_Z (2 ^ 49))); [|vm_compute; reflexivity].
    rewrite !(Qmult_comm (1 + double_u)). apply Qmult_le_compat_r; [lra|discriminate].
  - intros H. apply rnd_mono. apply Qle_shift_div_l; auto. assert (L' : inject_Z (7 * n) <= inject_Z (10 * a)) by (rewrite <- Zle_Qle; lia).
    rewrite !inject_Z_mult in L'. change (inject_Z 10) with 10 in L'. change (inject_Z 7) with 7 in L'. lra.
Qed.
Lemma fl_diverse_exact min_u col : col <> [] -> (Z.of_nat (length col) <= 2 ^ 49)%Z ->
  (fl_diverse min_u col = true <-> enough min_u col).
Proof.
  intros NE L. assert (P : (1 <= length col)%nat) by (destruct col; simpl; [congruence|lia]).
  unfold fl_diverse. cbv zeta. rewrite np_unique_distinct.
  assert (D : (distinct col <= length col)%nat).
  { unfold distinct. rewrite <- (map_length Qred col). apply NoDup_incl_length; [apply NoDup_nodup|]. intros x I. now apply nodup_In in I. }
  rewrite ratio_test by lia. unfold enough. rewrite andb_true_iff, !Z.leb_le. split; intros [X Y]; split; auto; lia.
Qed.
