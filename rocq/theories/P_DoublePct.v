(** Percentiles in double precision. *)
From Coq Require Import Qabs Lqa Setoid Qround Sorted Permutation.
From Verif Require Import Base M_Values M_Ops M_Pick M_Weights M_Percentiles M_Float M_Double M_DoubleProb M_DoublePct
  SpecWeights SpecFloat SpecDouble SpecRound SpecPercentiles P_Support P_Ops2 P_Round P_Pick P_Float P_Double P_Percentiles.
Open Scope Q_scope.

Lemma dadd_eq a b : dadd a b == rnd (a + b). Proof. apply Qred_correct. Qed.
Lemma dsub_eq a b : dsub a b == rnd (a - b). Proof. apply Qred_correct. Qed.
Lemma dmul_eq a b : dmul a b == rnd (a * b). Proof. apply Qred_correct. Qed.
Lemma ddiv_eq a b : ddiv a b == rnd (a / b). Proof. apply Qred_correct. Qed.
Lemma half_double q : is_double q -> is_double (q / 2).
Proof.
  intros (m & e & M & E). exists m, (e - 1)%Z. split; auto. rewrite E. change (Qpower 2 e) with (pow2 e). change (Qpower 2 (e - 1)) with (pow2 (e - 1)).
  unfold Z.sub. rewrite pow2_plus. change (pow2 (- (1))) with (1#2). change (/ 2) with (1#2) || unfold Qdiv. change (/ 2) with (1#2). ring.
Qed.

(** A double below one half is at least one step below. *)
Lemma below_half t : is_double t -> t < 1#2 -> t <= (1#2) - pow2 (-54).
Proof.
  intros D L. destruct (Qlt_le_dec t (1#4)) as [H|H].
  { assert (pow2 (-54) <= 1#4) by (vm_compute; discriminate). lra. }
  assert (E : last_digit t = (-54)%Z).
  { apply last_digit_unique; [exact H|exact L]. }
  pose proof (rnd_exact t D) as R. destruct (rnd_cases t) as [[Z _]|[[P Q]|[N _]]]; try lra.
  rewrite Q, rnd_pos_eq, E in R by lra. set (k := round_half_even (t * pow2 (- -54))) in *.
  assert (K : (k <= 2 ^ 53 - 1)%Z).
  { apply Z.lt_succ_r. change (Z.succ (2 ^ 53 - 1)) with (2 ^ 53)%Z. apply Z.nle_gt. intros G.
    apply (proj2 (inject_Z_le _ _)) in G. assert (inject_Z (2 ^ 53) * pow2 (-54) == 1#2) by reflexivity.
    pose proof (Qmult_le_compat_r _ _ (pow2 (-54)) G (Qlt_le_weak _ _ (pow2_pos _))). lra. }
  apply (proj2 (inject_Z_le _ _)) in K.
  pose proof (Qmult_le_compat_r _ _ (pow2 (-54)) K (Qlt_le_weak _ _ (pow2_pos _))) as M.
  assert (inject_Z (2 ^ 53 - 1) * pow2 (-54) == (1#2) - pow2 (-54)) by reflexivity. lra.
Qed.

(** Less than half of a rounded difference, rounded, leaves room for the other half. *)
Lemma half_room g t : 0 <= g -> is_double t -> 0 <= t -> t < 1#2 ->
  rnd (rnd g * t) <= g - rnd g / 2.
Proof.
  intros G Dt T0 T1. set (d := rnd g).
  assert (H2 : forall x, x / 2 == (1#2) * x) by (intros; unfold Qdiv; change (/ 2) with (1#2); ring).
  assert (D0 : 0 <= d) by now apply rnd_sign.
  assert (Dd : is_double d) by apply rnd_double.
  destruct (Qlt_le_dec g d) as [L|L].
  2: { apply Qle_trans with (d / 2); [|rewrite H2; lra].
       rewrite <- (rnd_exact (d / 2)) by now apply half_double. apply rnd_mono. rewrite H2. nra. }
  (* d is rounded up *)
  assert (GP : 0 < g). { destruct (Qlt_le_dec 0 g); auto. assert (E : g == 0) by lra. unfold d in L. rewrite (rnd_compat g 0 E) in L. change (rnd 0) with 0 in L. lra. }
  assert (Ed : d = inject_Z (round_half_even (g * pow2 (- last_digit g))) * pow2 (last_digit g)).
  { unfold d. destruct (rnd_cases g) as [[Z _]|[[_ ->]|[N _]]]; try lra. now apply rnd_pos_eq. }
  set (e := last_digit g) in *. set (k := round_half_even (g * pow2 (- e))) in *.
  pose proof (pow2_pos e) as PE. pose proof (pow2_pos (- e)) as PM. pose proof (pow2_opp e) as PO.
  destruct (k_range g GP) as [K1 K2]. fold e in K1, K2. fold k in K1, K2.
  assert (Sc : g == (g * pow2 (- e)) * pow2 e) by (rewrite <- Qmult_assoc, PO; ring).
  destruct (scaled_range g GP) as [S1 S2]. fold e in S1, S2.
  assert (K3 : (2 ^ 52 < k)%Z).
  { apply Z.le_lteq in K1 as [K1|K1]; auto. exfalso. rewrite Ed, <- K1 in L. rewrite Sc in L.
    pose proof (Qmult_le_compat_r _ _ (pow2 e) S1 (Qlt_le_weak _ _ PE)). lra. }
  assert (Err : d - g <= (1#2) * pow2 e).
  { rewrite Ed, Sc. destruct (round_half_even_spec (g * pow2 (- e))) as (k' & Ek & N & _). fold k in Ek.
    assert (N' : Qabs (g * pow2 (- e) - inject_Z k) <= 1#2) by (rewrite Ek; exact N).
    apply Qabs_Qle_condition in N'. setoid_replace (inject_Z k * pow2 e - g * pow2 (- e) * pow2 e) with ((inject_Z k - g * pow2 (- e)) * pow2 e) by ring.
    apply Qmult_le_compat_r; lra. }
  set (f := (e - 1)%Z). assert (Ef : pow2 e == 2 * pow2 f). { unfold f. replace e with (1 + (e - 1))%Z at 1 by lia. rewrite pow2_plus. reflexivity. }
  pose proof (pow2_pos f) as PF.
  assert (Goal' : rnd (d * t) <= inject_Z (k - 1) * pow2 f).
  { assert (Z0 : is_double (inject_Z (k - 1) * pow2 f)) by (exists (k - 1)%Z, f; split; [lia|reflexivity]).
    destruct (Qlt_le_dec (d * t) (inject_Z (k - 1) * pow2 f)) as [Q|Q].
    { rewrite <- (rnd_exact _ Z0). apply rnd_mono. lra. }
    assert (KP : inject_Z (2 ^ 52) <= inject_Z (k - 1)) by (apply (proj2 (inject_Z_le _ _)); lia).
    assert (LD : last_digit (d * t) = f).
    { apply last_digit_unique.
      - rewrite Z.add_comm, pow2_plus, (pow2_Z 52) by lia. pose proof (Qmult_le_compat_r _ _ (pow2 f) KP (Qlt_le_weak _ _ PF)). lra.
      - rewrite Z.add_comm, pow2_plus, (pow2_Z 53) by lia.
        assert (KQ : inject_Z k <= inject_Z (2 ^ 53)) by (apply (proj2 (inject_Z_le _ _)); lia).
        pose proof (Qmult_le_compat_r _ _ (pow2 f) KQ (Qlt_le_weak _ _ PF)).
        assert (0 < d) by lra. assert (d * t < (1#2) * d) by (rewrite (Qmult_comm d t); apply Qmult_lt_r; auto).
        assert (E2 : (1#2) * d == inject_Z k * pow2 f) by (rewrite Ed, Ef; ring). lra. }
    assert (DP : 0 < d * t).
    { assert (0 < inject_Z (k - 1) * pow2 f); [|lra]. apply Qmult_lt_0_compat; auto. apply Qlt_le_trans with (2 := KP). reflexivity. }
    destruct (rnd_cases (d * t)) as [[Z _]|[[_ ->]|[N _]]]; try lra.
    rewrite rnd_pos_eq, LD by auto. apply Qmult_le_compat_r; [|lra]. apply (proj2 (inject_Z_le _ _)).
    set (r := round_half_even (d * t * pow2 (- f))).
    assert (X : d * t * pow2 (- f) < inject_Z k - (1#2)).
    { pose proof (pow2_opp f) as PO'. pose proof (pow2_pos (- f)) as PM'.
      pose proof (below_half t Dt T1) as BH.
      assert (KK : inject_Z (2 ^ 52) < inject_Z k) by (rewrite <- Zlt_Qlt; lia).
      assert (E3 : d * pow2 (- f) == 2 * inject_Z k).
      { rewrite Ed, Ef. setoid_replace (inject_Z k * (2 * pow2 f) * pow2 (- f)) with (2 * inject_Z k * (pow2 (- f) * pow2 f)) by ring. rewrite PO'. ring. }
      setoid_replace (d * t * pow2 (- f)) with (d * pow2 (- f) * t) by ring. rewrite E3.
      assert (H1 : 2 * inject_Z k * t <= 2 * inject_Z k * ((1#2) - pow2 (-54))).
      { rewrite !(Qmult_comm (2 * inject_Z k)). apply Qmult_le_compat_r; auto. assert (0 < inject_Z (2 ^ 52)) by reflexivity. lra. }
      assert (H3 : inject_Z (2 ^ 52) * (2 * pow2 (-54)) == 1#2) by reflexivity.
      assert (H4 : inject_Z (2 ^ 52) * (2 * pow2 (-54)) < inject_Z k * (2 * pow2 (-54))) by (apply Qmult_lt_r; [reflexivity|exact KK]).
      lra. }
    apply Z.lt_succ_r. replace (Z.succ (k - 1)) with k by lia. apply Z.nle_gt. intros B.
    pose proof (nearest_integer (d * t * pow2 (- f)) (k - 1)) as NI. fold r in NI.
    assert (B' : inject_Z k <= inject_Z r) by (apply (proj2 (inject_Z_le _ _)); auto).
    assert (EK : inject_Z (k - 1) == inject_Z k - 1) by (unfold Z.sub; rewrite inject_Z_plus; reflexivity).
    assert (LB : inject_Z (k - 1) <= d * t * pow2 (- f)).
    { pose proof (pow2_opp f) as PO'. pose proof (Qmult_le_compat_r _ _ (pow2 (- f)) Q (Qlt_le_weak _ _ (pow2_pos _))) as Q'.
      setoid_replace (inject_Z (k - 1) * pow2 f * pow2 (- f)) with (inject_Z (k - 1) * (pow2 (- f) * pow2 f)) in Q' by ring. rewrite PO' in Q'. lra. }
    rewrite Qabs_neg in NI by lra. rewrite Qabs_pos in NI by lra. lra. }
  apply Qle_trans with (1 := Goal'). rewrite H2. unfold Z.sub. rewrite inject_Z_plus. change (inject_Z (- (1))) with (-1).
  assert (E2 : (1#2) * d == inject_Z k * pow2 f) by (rewrite Ed, Ef; ring). nra.
Qed.

(* --------------------------------------------------- interpolation *)
Lemma lerp_low a b t : t < 1#2 -> fl_lerp a b t == rnd (a + rnd (rnd (b - a) * t)).
Proof.
  intros H. unfold fl_lerp. destruct (Qle_bool (1#2) t) eqn:E; [apply Qle_bool_iff in E; lra|].
  rewrite dadd_eq. apply rnd_compat. rewrite dmul_eq. apply Qplus_comp; [reflexivity|]. apply rnd_compat. now rewrite dsub_eq.
Qed.
Lemma lerp_high a b t : 1#2 <= t -> fl_lerp a b t == rnd (b - rnd (rnd (b - a) * rnd (1 - t))).
Proof.
  intros H. unfold fl_lerp. destruct (Qle_bool (1#2) t) eqn:E; [|apply Qle_bool_iff in H; congruence].
  rewrite dsub_eq. apply rnd_compat. rewrite dmul_eq. apply Qplus_comp; [reflexivity|]. apply Qopp_comp, rnd_compat. rewrite !dsub_eq. reflexivity.
Qed.
Lemma half_eq x : x / 2 == (1#2) * x.
Proof. unfold Qdiv; change (/ 2) with (1#2); ring. Qed.
Lemma is_half : is_double (1#2). Proof. exists 1%Z, (-1)%Z. split; [lia|reflexivity]. Qed.
Lemma is_one : is_double 1. Proof. exists 1%Z, 0%Z. split; [lia|reflexivity]. Qed.

Section Lerp.
  Variables a b : Q.
  Hypothesis Da : is_double a. Hypothesis Db : is_double b. Hypothesis AB : a <= b.
  Let d := rnd (b - a).
  Lemma d0 : 0 <= d. Proof. apply rnd_sign. lra. Qed.
  Lemma high_part t : 1#2 <= t -> t <= 1 -> 0 <= rnd (d * rnd (1 - t)) /\ rnd (d * rnd (1 - t)) <= d / 2.
  Proof.
    intros T0 T1. pose proof d0 as D0. assert (W0 : 0 <= rnd (1 - t)) by (apply rnd_sign; lra).
    assert (W1 : rnd (1 - t) <= 1#2) by (rewrite <- (rnd_exact (1#2) is_half); apply rnd_mono; lra).
    split; [apply rnd_sign; nra|].
    rewrite <- (rnd_exact (d / 2)) by (apply half_double, rnd_double). apply rnd_mono. rewrite half_eq. nra.
  Qed.
  Lemma low_part t : is_double t -> 0 <= t -> t < 1#2 -> 0 <= rnd (d * t) /\ rnd (d * t) <= b - a - d / 2.
  Proof.
    intros Dt T0 T1. pose proof d0. split; [apply rnd_sign; nra|]. apply half_room; auto; lra.
  Qed.
  Lemma lerp_mono t t' : is_double t -> is_double t' -> 0 <= t -> t <= t' -> t' <= 1 -> fl_lerp a b t <= fl_lerp a b t'.
  Proof.
    intros Dt Dt' T0 TT T1. pose proof d0 as D0. destruct (Qlt_le_dec t (1#2)) as [L|L], (Qlt_le_dec t' (1#2)) as [L'|L'].
    - rewrite !lerp_low by auto. apply rnd_mono. fold d. assert (rnd (d * t) <= rnd (d * t')); [apply rnd_mono; nra|lra].
    - rewrite lerp_low, lerp_high by auto. apply rnd_mono. fold d.
      pose proof (low_part t Dt T0 L). pose proof (high_part t' L' T1). lra.
    - lra.
    - rewrite !lerp_high by auto. apply rnd_mono. fold d.
      assert (rnd (1 - t') <= rnd (1 - t)) by (apply rnd_mono; lra).
      assert (rnd (d * rnd (1 - t')) <= rnd (d * rnd (1 - t))); [apply rnd_mono; nra|lra].
  Qed.
  Lemma lerp_0 : fl_lerp a b 0 == a.
  Proof.
    rewrite lerp_low by reflexivity. rewrite <- (rnd_exact a Da) at 3. apply rnd_compat.
    rewrite (rnd_compat _ 0) by ring. change (rnd 0) with 0. ring.
  Qed.
  Lemma lerp_1 : fl_lerp a b 1 == b.
  Proof.
    rewrite lerp_high by discriminate. rewrite <- (rnd_exact b Db) at 3. apply rnd_compat.
    change (rnd (1 - 1)) with 0. rewrite (rnd_compat _ 0) by ring. change (rnd 0) with 0. ring.
  Qed.
  Lemma lerp_between t : is_double t -> 0 <= t -> t <= 1 -> a <= fl_lerp a b t /\ fl_lerp a b t <= b.
  Proof.
    intros Dt T0 T1. split.
    - rewrite <- lerp_0 at 1. apply lerp_mono; auto; [apply is_double_0|lra].
    - rewrite <- lerp_1 at 2. apply lerp_mono; auto; [apply is_one|lra].
  Qed.
  Lemma lerp_close t M : is_double t -> 0 <= t -> t <= 1 -> Qabs a <= M -> Qabs b <= M ->
    Qabs (fl_lerp a b t - (a + (b - a) * t)) <= 5 * double_u * M.
  Proof.
    intros Dt T0 T1 Ma Mb. pose proof d0 as D0. apply Qabs_Qle_condition in Ma, Mb.
    assert (U : 0 < double_u) by reflexivity. assert (U1 : double_u <= 1#16) by (vm_compute; discriminate). set (u := double_u) in *.
    assert (M0 : 0 <= M) by lra.
    pose proof (rnd_error (b - a)) as E1. fold d u in E1. rewrite (Qabs_pos (b - a)) in E1 by lra.
    apply Qabs_Qle_condition in E1.
    assert (G : u * (b - a) <= u * (2 * M)) by nra.
    assert (UM : 0 <= u * M) by nra. assert (UUM : u * (u * M) <= (1#16) * (u * M)) by (apply Qmult_le_compat_r; auto).
    destruct (Qlt_le_dec t (1#2)) as [L|L].
    - rewrite lerp_low by auto. fold d. pose proof (low_part t Dt T0 L) as [P1 P2].
      pose proof (rnd_error (d * t)) as E2. fold u in E2. rewrite (Qabs_pos (d * t)) in E2 by nra. apply Qabs_Qle_condition in E2.
      pose proof (rnd_error (a + rnd (d * t))) as E3. fold u in E3. apply Qabs_Qle_condition in E3.
      assert (A3 : Qabs (a + rnd (d * t)) <= M) by (apply Qabs_Qle_condition; rewrite half_eq in P2; lra).
      assert (A3' : u * Qabs (a + rnd (d * t)) <= u * M) by (rewrite !(Qmult_comm u); apply Qmult_le_compat_r; lra).
      assert (D1 : (d - (b - a)) * t <= u * M /\ - (u * M) <= (d - (b - a)) * t) by (split; nra).
      assert (D2 : d * t <= M + u * M) by nra. assert (D3 : u * (d * t) <= u * M + u * (u * M)) by nra.
      apply Qabs_Qle_condition. split; lra.
    - rewrite lerp_high by auto. fold d. pose proof (high_part t L T1) as [P1 P2].
      set (w := rnd (1 - t)) in *.
      pose proof (rnd_error (1 - t)) as E0. fold u w in E0. rewrite (Qabs_pos (1 - t)) in E0 by lra. apply Qabs_Qle_condition in E0.
      assert (W0 : 0 <= w) by (apply rnd_sign; lra).
      assert (W1 : w <= 1#2) by (rewrite <- (rnd_exact (1#2) is_half); apply rnd_mono; lra).
      pose proof (rnd_error (d * w)) as E2. fold u in E2. rewrite (Qabs_pos (d * w)) in E2 by nra. apply Qabs_Qle_condition in E2.
      pose proof (rnd_error (b - rnd (d * w))) as E3. fold u in E3. apply Qabs_Qle_condition in E3.
      assert (HR : 0 <= b - a - d / 2). { pose proof (low_part 0 is_double_0 (Qle_refl _) eq_refl). lra. }
      assert (A3 : Qabs (b - rnd (d * w)) <= M) by (apply Qabs_Qle_condition; rewrite half_eq in P2, HR; lra).
      assert (A3' : u * Qabs (b - rnd (d * w)) <= u * M) by (rewrite !(Qmult_comm u); apply Qmult_le_compat_r; lra).
      assert (D1 : (d - (b - a)) * w <= u * M /\ - (u * M) <= (d - (b - a)) * w) by (split; nra).
      assert (H0 : u * (1 - t) <= u * (1#2)) by nra.
      assert (D4 : (b - a) * (w - (1 - t)) <= u * M /\ - (u * M) <= (b - a) * (w - (1 - t))) by (split; nra).
      assert (D2 : d * w <= M + u * M) by nra. assert (D3 : u * (d * w) <= u * M + u * (u * M)) by nra.
      apply Qabs_Qle_condition. split; lra.
  Qed.
End Lerp.

(* ----------------------------------------------------- percentiles *)
Lemma lerp_same a t : is_double a -> fl_lerp a a t == a.
Proof.
  intros Da. assert (Z : rnd (a - a) == 0) by (rewrite (rnd_compat _ 0) by ring; reflexivity).
  destruct (Qlt_le_dec t (1#2)).
  - rewrite lerp_low by auto. rewrite <- (rnd_exact a Da) at 4. apply rnd_compat.
    rewrite (rnd_compat (rnd (a - a) * t) 0) by (rewrite Z; ring). change (rnd 0) with 0. ring.
  - rewrite lerp_high by auto. rewrite <- (rnd_exact a Da) at 4. apply rnd_compat.
    rewrite (rnd_compat (rnd (a - a) * rnd (1 - t)) 0) by (rewrite Z; ring). change (rnd 0) with 0. ring.
Qed.
Definition fl_position (data : list Q) (p : Q) : Q := dmul (inject_Z (Z.of_nat (length data - 1))) (ddiv p 100).

Section Percentile.
  Variable data : list Q.
  Hypothesis NE : data <> []. Hypothesis DD : Forall is_double data.
  Hypothesis LEN : (Z.of_nat (length data) <= 2 ^ 53)%Z.
  Let n1 := inject_Z (Z.of_nat (length data - 1)).
  Lemma len1 : (1 <= length data)%nat. Proof. clear -NE. destruct data; simpl; [congruence|lia]. Qed.
  Lemma n1_nonneg : 0 <= n1. Proof. change 0 with (inject_Z 0). apply (proj2 (inject_Z_le _ _)). lia. Qed.
  Lemma n1_double : is_double n1. Proof. apply is_double_int. lia. Qed.
  Lemma div100 p q : p <= q -> p / 100 <= q / 100.
  Proof. intros. unfold Qdiv. apply Qmult_le_compat_r; auto. discriminate. Qed.
  Lemma pct0 p : 0 <= p -> 0 <= p / 100.
  Proof. intros. apply Qle_trans with (0 / 100); [discriminate|now apply div100]. Qed.
  Lemma pct1 p : p <= 100 -> p / 100 <= 1.
  Proof. intros. apply Qle_trans with (100 / 100); [now apply div100|discriminate]. Qed.
  Lemma position_eq p : fl_position data p == rnd (n1 * rnd (p / 100)).
  Proof. unfold fl_position. rewrite dmul_eq. apply rnd_compat. now rewrite ddiv_eq. Qed.
  Lemma position_range p : percent p -> 0 <= fl_position data p /\ fl_position data p <= n1.
  Proof.
    intros [P0 P1]. rewrite position_eq. pose proof n1_nonneg as N.
    assert (A : 0 <= rnd (p / 100)). { apply rnd_sign. now apply pct0. }
    assert (B : rnd (p / 100) <= 1). { rewrite <- (rnd_exact 1 is_one). now apply rnd_mono, pct1. }
    split; [apply rnd_sign; nra|]. rewrite <- (rnd_exact n1 n1_double) at 2. apply rnd_mono. nra.
  Qed.
  Lemma fl_position_mono p q : p <= q -> fl_position data p <= fl_position data q.
  Proof.
    intros L. rewrite !position_eq. apply rnd_mono. pose proof n1_nonneg.
    assert (rnd (p / 100) <= rnd (q / 100)) by (apply rnd_mono, div100; auto). nra.
  Qed.
  Lemma position_close p : percent p -> Qabs (fl_position data p - n1 * (p / 100)) <= 3 * double_u * n1.
  Proof.
    intros [P0 P1]. rewrite position_eq. pose proof n1_nonneg as N.
    assert (U : 0 < double_u) by reflexivity. assert (U1 : double_u <= 1#16) by (vm_compute; discriminate). set (u := double_u) in *.
    apply pct0 in P0. apply pct1 in P1. set (x := p / 100) in *.
    pose proof (rnd_error x) as E1. fold u in E1. rewrite (Qabs_pos x) in E1 by auto. apply Qabs_Qle_condition in E1.
    assert (X0 : 0 <= rnd x) by (apply rnd_sign; auto).
    assert (X1 : rnd x <= 1) by (rewrite <- (rnd_exact 1 is_one); now apply rnd_mono).
    pose proof (rnd_error (n1 * rnd x)) as E2. fold u in E2. rewrite (Qabs_pos (n1 * rnd x)) in E2 by nra. apply Qabs_Qle_condition in E2.
    assert (A : n1 * rnd x <= n1) by nra. assert (B : u * (n1 * rnd x) <= u * n1) by nra.
    assert (C : n1 * (rnd x - x) <= n1 * (u * 1) /\ - (n1 * (u * 1)) <= n1 * (rnd x - x)). { assert (u * x <= u * 1) by nra. split; nra. }
    assert (0 <= u * n1) by nra. apply Qabs_Qle_condition. split; lra.
  Qed.
  Lemma sorted_double i : (i < length data)%nat -> is_double (nth i (qsort data) 0).
  Proof.
    intros L. rewrite Forall_forall in DD. apply DD. apply (Permutation_in _ (qsort_perm data)), nth_In. now rewrite qsort_length.
  Qed.

  (** The number returned: an interpolation between two neighbours. *)
  Definition between_neighbours (p : Q) (i : nat) (a b t : Q) : Prop :=
    let v := fl_position data p in
    inject_Z (Z.of_nat i) <= v /\ v < inject_Z (Z.of_nat i) + 1 /\ order_stat data i a /\
    order_stat data (Nat.min (S i) (length data - 1)) b /\ is_double a /\ is_double b /\ a <= b /\
    is_double t /\ 0 <= t /\ t <= 1 /\ t == rnd (v - inject_Z (Z.of_nat i)) /\ fl_percentile data p == fl_lerp a b t.
  Lemma percentile_between_neighbours p : percent p -> exists i a b t, between_neighbours p i a b t.
  Proof.
    intros P. destruct (position_range p P) as [V0 V1]. pose proof len1 as L1. pose proof n1_nonneg as N.
    set (v := fl_position data p) in *. unfold between_neighbours. fold v. cbv zeta.
    destruct (Qlt_le_dec v n1) as [L|L].
    - assert (F0 : (0 <= Qfloor v)%Z) by (change 0%Z with (Qfloor 0); now apply Qfloor_resp_le).
      pose proof (Qfloor_le v) as F1. pose proof (Qlt_floor v) as F2. rewrite inject_Z_plus in F2. change (inject_Z 1) with 1 in F2.
      set (i := Z.to_nat (Qfloor v)).
      assert (EI : inject_Z (Z.of_nat i) = inject_Z (Qfloor v)) by (unfold i; now rewrite Z2Nat.id).
      assert (IL : (i < length data - 1)%nat). { apply inject_nat_lt. fold n1. rewrite EI. lra. }
      exists i, (nth i (qsort data) 0), (nth (S i) (qsort data) 0), (dsub v (inject_Z (Qfloor v))).
      rewrite EI. replace (Nat.min (S i) (length data - 1)) with (S i) by lia.
      assert (A : order_stat data i (nth i (qsort data) 0)) by (apply qsort_order_stat; lia).
      assert (B : order_stat data (S i) (nth (S i) (qsort data) 0)) by (apply qsort_order_stat; lia).
      repeat split; auto; try apply A; try apply B.
      + apply sorted_double; lia.
      + apply sorted_double; lia.
      + eapply order_stat_mono; [|exact A|exact B]. lia.
      + eapply is_double_compat; [symmetry; apply dsub_eq|apply rnd_double].
      + rewrite dsub_eq. apply rnd_sign. lra.
      + rewrite dsub_eq, <- (rnd_exact 1 is_one). apply rnd_mono. lra.
      + apply dsub_eq.
      + unfold fl_percentile. fold n1. change (dmul n1 (ddiv p 100)) with v. cbv zeta.
        destruct (Qle_bool n1 v) eqn:E; [apply Qle_bool_iff in E; lra|]. reflexivity.
    - set (i := (length data - 1)%nat). exists i, (nth i (qsort data) 0), (nth i (qsort data) 0), 0.
      change (inject_Z (Z.of_nat i)) with n1. replace (Nat.min (S i) i) with i by lia.
      assert (A : order_stat data i (nth i (qsort data) 0)) by (apply qsort_order_stat; lia).
      assert (D : is_double (nth i (qsort data) 0)) by (apply sorted_double; lia).
      repeat split; auto; try apply A; try lra; try (apply is_double_0); try discriminate.
      + rewrite (rnd_compat (v - n1) 0) by lra. reflexivity.
      + unfold fl_percentile. fold n1. change (dmul n1 (ddiv p 100)) with v. cbv zeta. fold i.
        destruct (Qle_bool n1 v) eqn:E; [|apply Qle_bool_iff in L; congruence]. now rewrite !lerp_same by auto.
  Qed.
  Lemma same_rank v i j : inject_Z (Z.of_nat i) <= v -> v < inject_Z (Z.of_nat j) + 1 -> (i <= j)%nat.
  Proof. intros A B. apply Nat.lt_succ_r. apply inject_nat_lt. rewrite inject_S. lra. Qed.

  Lemma fl_percentile_mono p q : percent p -> percent q -> p <= q -> fl_percentile data p <= fl_percentile data q.
  Proof.
    intros P Q L. pose proof (fl_position_mono p q L) as VL.
    destruct (percentile_between_neighbours p P) as (i & a & b & t & V0 & V1 & A & B & Da & Db & AB & Dt & T0 & T1 & ET & ->).
    destruct (percentile_between_neighbours q Q) as (j & c & d & s & W0 & W1 & C & D & Dc & Dd & CD & Ds & S0 & S1 & ES & ->).
    cbv zeta in *. set (v := fl_position data p) in *. set (w := fl_position data q) in *.
    assert (IJ : (i <= j)%nat) by (apply (same_rank w); lra).
    destruct (Nat.eq_dec i j) as [<-|NE'].
    - assert (E1 : a == c) by (eapply order_stat_unique; eauto). assert (E2 : b == d) by (eapply order_stat_unique; eauto).
      assert (TS : t <= s) by (rewrite ET, ES; apply rnd_mono; lra).
      apply Qle_trans with (fl_lerp a b s); [apply lerp_mono; auto|].
      destruct (Qlt_le_dec s (1#2)).
      + rewrite !lerp_low by auto. apply rnd_mono. rewrite (rnd_compat (rnd (b - a) * s) (rnd (d - c) * s)).
        * lra. * rewrite (rnd_compat (b - a) (d - c)); [reflexivity|]. now rewrite E1, E2.
      + rewrite !lerp_high by auto. apply rnd_mono. rewrite (rnd_compat (rnd (b - a) * rnd (1 - s)) (rnd (d - c) * rnd (1 - s))).
        * lra. * rewrite (rnd_compat (b - a) (d - c)); [reflexivity|]. now rewrite E1, E2.
    - destruct (lerp_between a b Da Db AB t) as [_ X]; auto. destruct (lerp_between c d Dc Dd CD s) as [Y _]; auto.
      assert (b <= c); [|lra]. eapply order_stat_mono; [|exact B|exact C]. lia.
  Qed.
  Lemma fl_percentile_between p lo hi : percent p -> all_between lo hi data -> lo <= fl_percentile data p /\ fl_percentile data p <= hi.
  Proof.
    intros P H.
    destruct (percentile_between_neighbours p P) as (i & a & b & t & V0 & V1 & A & B & Da & Db & AB & Dt & T0 & T1 & ET & ->).
    destruct (lerp_between a b Da Db AB t) as [X Y]; auto. destruct (H a (proj1 A)), (H b (proj1 B)). lra.
  Qed.
  (** At a rank computed exactly, the datum of that rank. *)
  Lemma fl_percentile_rank p k : percent p -> is_double (p / 100) -> n1 * (p / 100) == inject_Z (Z.of_nat k) ->
    exists v, order_stat data k v /\ fl_percentile data p == v.
  Proof.
    intros P DP E.
    destruct (percentile_between_neighbours p P) as (i & a & b & t & V0 & V1 & A & B & Da & Db & AB & Dt & T0 & T1 & ET & EF).
    cbv zeta in *.
    assert (KL : (k <= length data - 1)%nat).
    { destruct P as [P0 P1]. apply inject_nat_le. fold n1. rewrite <- E. apply pct1 in P1. pose proof n1_nonneg. nra. }
    assert (EV : fl_position data p == inject_Z (Z.of_nat k)).
    { rewrite position_eq. rewrite (rnd_compat (n1 * rnd (p / 100)) (inject_Z (Z.of_nat k))).
      - apply rnd_exact, is_double_int. lia.
      - now rewrite (rnd_exact _ DP). }
    rewrite EV in V0, V1.
    assert (i = k). { apply Nat.le_antisymm; [apply (same_rank (inject_Z (Z.of_nat k))); lra|apply (same_rank (inject_Z (Z.of_nat k))); lra]. }
    subst i. exists a. split; [exact A|]. rewrite EF.
    assert (T : t == 0) by (rewrite ET, (rnd_compat (fl_position data p - inject_Z (Z.of_nat k)) 0) by (rewrite EV; ring); reflexivity).
    destruct (lerp_between a b Da Db AB t) as [X _]; auto. apply Qle_antisym; auto.
    rewrite <- (lerp_0 a b Da) at 2. apply lerp_mono; auto; [apply is_double_0|lra|lra].
  Qed.

  (** How far the exact percentile moves with the position. *)
  Definition along (x : Q) (i : nat) (a b r : Q) : Prop :=
    inject_Z (Z.of_nat i) <= x /\ x < inject_Z (Z.of_nat i) + 1 /\ order_stat data i a /\
    order_stat data (Nat.min (S i) (length data - 1)) b /\ r == a + (b - a) * (x - inject_Z (Z.of_nat i)).
  Lemma along_lipschitz lo hi x y i j a b c d r s : all_between lo hi data -> x <= y ->
    along x i a b r -> along y j c d s -> r <= s /\ s - r <= (hi - lo) * (y - x).
  Proof.
    intros H XY (V0 & V1 & A & B & ->) (W0 & W1 & C & D & ->).
    assert (IJ : (i <= j)%nat) by (apply (same_rank y); lra).
    destruct (H a (proj1 A)), (H b (proj1 B)), (H c (proj1 C)), (H d (proj1 D)).
    assert (IL : (i < length data)%nat). { destruct A as [_ [_ A2]]. unfold count_upto in A2. pose proof (filter_len (fun y => Qle_bool y a) data). lia. }
    assert (AB : a <= b) by (eapply order_stat_mono; [|exact A|exact B]; lia).
    assert (JL : (j < length data)%nat). { destruct C as [_ [_ C2]]. unfold count_upto in C2. pose proof (filter_len (fun y => Qle_bool y c) data). lia. }
    assert (CD : c <= d) by (eapply order_stat_mono; [|exact C|exact D]; lia).
    destruct (step_value a b (x - inject_Z (Z.of_nat i))) as [X1 X2]; auto; try lra.
    destruct (step_value c d (y - inject_Z (Z.of_nat j))) as [Y1 Y2]; auto; try lra.
    destruct (Nat.eq_dec i j) as [<-|N1].
    { assert (E1 : a == c) by (eapply order_stat_unique; eauto). assert (E2 : b == d) by (eapply order_stat_unique; eauto).
      rewrite <- E1, <- E2. split; nra. }
    assert (BC : b <= c) by (eapply order_stat_mono; [|exact B|exact C]; lia).
    destruct (Nat.eq_dec j (S i)) as [->|N2].
    { assert (E1 : b == c). { apply Qle_antisym; auto. eapply order_stat_mono; [|exact C|exact B]. lia. }
      rewrite inject_S in *. split; [lra|]. set (ii := inject_Z (Z.of_nat i)) in *.
      assert (P1 : (b - a) * (ii + 1 - x) <= (hi - lo) * (ii + 1 - x)) by nra.
      assert (P2 : (d - c) * (y - (ii + 1)) <= (hi - lo) * (y - (ii + 1))) by nra. nra. }
    split; [lra|].
    assert (G : inject_Z (Z.of_nat i) + 2 <= inject_Z (Z.of_nat j)).
    { assert (K : (S (S i) <= j)%nat) by lia. apply inject_nat_le in K. rewrite !inject_S in K. lra. }
    assert (Z1 : 0 <= (hi - lo) * (y - x - 1)) by (apply Qmult_le_0_compat; lra). lra.
  Qed.
  Lemma fl_percentile_close p r lo hi M : percent p -> all_between lo hi data -> Qabs lo <= M -> Qabs hi <= M ->
    percentile_of data p r -> Qabs (fl_percentile data p - r) <= double_u * (3 * n1 * (hi - lo) + 7 * M).
  Proof.
    intros P H Ml Mh (j & c & d & W). cbv zeta in W. fold n1 in W. change (along (n1 * (p / 100)) j c d r) in W.
    destruct (percentile_between_neighbours p P) as (i & a & b & t & V0 & V1 & A & B & Da & Db & AB & Dt & T0 & T1 & ET & ->).
    cbv zeta in *. set (v := fl_position data p) in *. set (ii := inject_Z (Z.of_nat i)) in *.
    destruct (H a (proj1 A)) as [A0 A1], (H b (proj1 B)) as [B0 B1].
    apply Qabs_Qle_condition in Ml, Mh.
    assert (U : 0 < double_u) by reflexivity.
    pose proof (lerp_close a b AB t M Dt T0 T1 ltac:(apply Qabs_Qle_condition; split; lra) ltac:(apply Qabs_Qle_condition; split; lra)) as E1.
    assert (E2 : Qabs ((a + (b - a) * t) - (a + (b - a) * (v - ii))) <= 2 * double_u * M).
    { pose proof (rnd_error (v - ii)) as R. rewrite <- ET in R. rewrite (Qabs_pos (v - ii)) in R by lra. apply Qabs_Qle_condition in R.
      assert (double_u * (v - ii) <= double_u) by nra. set (x := t - (v - ii)) in *.
      setoid_replace (a + (b - a) * t - (a + (b - a) * (v - ii))) with ((b - a) * x) by (unfold x; ring).
      assert (b - a <= 2 * M) by lra. assert (- double_u <= x) by lra. assert (x <= double_u) by lra. clear R. clearbody x.
      apply Qabs_Qle_condition. split; nra. }
    assert (AV : along v i a b (a + (b - a) * (v - ii))) by (repeat split; auto; try apply A; try apply B; reflexivity).
    assert (E3 : Qabs ((a + (b - a) * (v - ii)) - r) <= double_u * (3 * n1 * (hi - lo))).
    { pose proof (position_close p P) as PC. fold v in PC. apply Qabs_Qle_condition in PC.
      assert (0 <= hi - lo) by lra.
      destruct (Qlt_le_dec v (n1 * (p / 100))) as [L|L].
      - destruct (along_lipschitz lo hi v (n1 * (p / 100)) i j a b c d _ r H ltac:(lra) AV W) as [X Y].
        rewrite Qabs_neg by lra. apply Qle_trans with ((hi - lo) * (n1 * (p / 100) - v)); [lra|].
        apply Qle_trans with ((hi - lo) * (3 * double_u * n1)); [nra|]. apply Qle_lteq. right. ring.
      - destruct (along_lipschitz lo hi (n1 * (p / 100)) v j i c d a b r _ H L W AV) as [X Y].
        rewrite Qabs_pos by lra. apply Qle_trans with ((hi - lo) * (v - n1 * (p / 100))); [lra|].
        apply Qle_trans with ((hi - lo) * (3 * double_u * n1)); [nra|]. apply Qle_lteq. right. ring. }
    apply Qabs_Qle_condition in E1, E2, E3. apply Qabs_Qle_condition. split; lra.
  Qed.
End Percentile.

(* -------------------------------------------- along the weighted points *)
Definition piece (x x0 y0 x1 y1 : Q) : Q :=
  if Qeq_bool x x0 then y0 else dadd (dmul (ddiv (dsub y1 y0) (dsub x1 x0)) (dsub x x0)) y0.
Lemma interp_from_located pts q x : climbing (q :: pts) -> fst q <= x ->
  (forall l z, q :: pts = l ++ [z] -> fst z <= x -> fl_interp_from x (fst q) (snd q) pts = snd z) /\
  (forall l z z' r, q :: pts = l ++ z :: z' :: r -> fst z <= x -> x < fst z' ->
     fl_interp_from x (fst q) (snd q) pts = piece x (fst z) (snd z) (fst z') (snd z')).
Proof.
  revert q. induction pts as [|[x1 y1] pts IH]; intros [x0 y0] S L; simpl fst in *; simpl snd in *.
  - split.
    + intros l z E _. destruct l as [|a [|b l]]; inversion E; subst; reflexivity.
    + intros l z z' r E. destruct l as [|a [|b l]]; discriminate E.
  - inversion S as [|? ? S' F]; subst. cbn [fl_interp_from].
    assert (UP : forall z l, In z l -> StronglySorted (fun a b : Q * Q => fst a < fst b /\ snd a <= snd b) ((x1, y1) :: l) -> x1 < fst z).
    { intros z l I SS. inversion SS as [|? ? _ FF]; subst. rewrite Forall_forall in FF. now apply FF. }
    destruct (Qle_bool x1 x) eqn:E1.
    + apply Qle_bool_iff in E1. destruct (IH (x1, y1) S' E1) as [A B]. simpl fst in *; simpl snd in *. split.
      * intros l z E Z. destruct l as [|a l]; inversion E; subst. eapply A; eauto.
      * intros l z z' r E Z Z'. destruct l as [|a l]; inversion E; subst; [|eapply B; eauto].
        simpl in Z'. lra.
    + assert (X1 : x < x1) by (apply Qnot_le_lt; intros K; apply Qle_bool_iff in K; congruence). split.
      * intros l z E Z. exfalso. destruct l as [|a l]; inversion E; subst.
        destruct l as [|c l]; inversion H1; subst; simpl in *; [lra|].
        assert (x1 < fst z) by (apply (UP z (l ++ [z])); auto; apply in_or_app; right; left; auto). lra.
      * intros l z z' r E Z Z'. destruct l as [|a l]; inversion E; subst; [reflexivity|]. exfalso.
        destruct l as [|c l]; inversion H1; subst; simpl in *; [lra|].
        assert (x1 < fst z) by (apply (UP z (l ++ z :: z' :: r)); auto; apply in_or_app; right; left; auto). lra.
Qed.
Lemma interp_located pts x : climbing pts ->
  (forall q, located pts x None (Some q) -> fl_interp pts x = snd q) /\
  (forall q, located pts x (Some q) None -> fl_interp pts x = snd q) /\
  (forall q q', located pts x (Some q) (Some q') -> fl_interp pts x = piece x (fst q) (snd q) (fst q') (snd q')).
Proof.
  intros S. repeat split.
  - intros q K. inversion K; subst. destruct q as [a b]. simpl in *. destruct (Qlt_bool x a) eqn:E; auto. apply qlt_false in E. lra.
  - intros q K. inversion K; subst. rename l into l0. destruct (l0 ++ [q]) as [|z pts] eqn:E; [destruct l0; discriminate|].
    assert (Z : fst z <= x).
    { destruct l0 as [|a l0]; inversion E; subst; auto. inversion S as [|? ? _ F]; subst. rewrite Forall_forall in F.
      destruct (F q); [apply in_or_app; right; now left|]. lra. }
    destruct (interp_from_located pts z x S Z) as [A _]. specialize (A l0 q (eq_sym E) ltac:(assumption)). destruct z as [a b]. simpl in *.
    destruct (Qlt_bool x a) eqn:E1; auto. apply qlt_true in E1. lra.
  - intros q q' K. inversion K; subst. rename l into l0. destruct (l0 ++ q :: q' :: r) as [|z pts] eqn:E; [destruct l0; discriminate|].
    assert (Z : fst z <= x).
    { destruct l0 as [|a l0]; inversion E; subst; auto. inversion S as [|? ? _ F]; subst. rewrite Forall_forall in F.
      destruct (F q); [apply in_or_app; right; now left|]. lra. }
    destruct (interp_from_located pts z x S Z) as [_ A]. specialize (A l0 q q' r (eq_sym E) ltac:(assumption) ltac:(assumption)). destruct z as [a b]. simpl in *.
    destruct (Qlt_bool x a) eqn:E1; auto. apply qlt_true in E1. lra.
Qed.
Lemma located_exists pts x : pts <> [] -> exists a b, located pts x a b.
Proof.
  destruct pts as [|q r]; [congruence|]. intros _. destruct (Qlt_le_dec x (fst q)) as [L|L].
  { eexists _, _. eapply LBefore; eauto. }
  enough (G : forall l q r, fst q <= x -> exists a b, located (l ++ q :: r) x a b) by (apply (G [] q r L)).
  clear. intros l q r. revert l q. induction r as [|q' r IH]; intros l q L.
  - eexists _, _. eapply LAfter; eauto.
  - destruct (Qlt_le_dec x (fst q')) as [L'|L'].
    + eexists _, _. eapply LBetween; eauto.
    + replace (l ++ q :: q' :: r) with ((l ++ [q]) ++ q' :: r) by (rewrite <- app_assoc; reflexivity). now apply IH.
Qed.
Lemma rnd_up q : 0 <= q -> rnd q <= (1 + double_u) * q.
Proof. intros L. pose proof (rnd_error q) as E. rewrite (Qabs_pos q L) in E. apply Qabs_Qle_condition in E. lra. Qed.
Lemma rnd_down q : 0 <= q -> (1 - double_u) * q <= rnd q.
Proof. intros L. pose proof (rnd_error q) as E. rewrite (Qabs_pos q L) in E. apply Qabs_Qle_condition in E. lra. Qed.
Section Piece.
  Variables x x0 y0 x1 y1 : Q.
  Hypothesis X0 : x0 < x. Hypothesis X1 : x < x1. Hypothesis Y : y0 <= y1. Hypothesis Dy : is_double y0.
  Let A := rnd (y1 - y0).
  Let B := rnd (x1 - x0).
  Let C := rnd (A / B).
  Let E := rnd (x - x0).
  Lemma piece_eq : piece x x0 y0 x1 y1 == rnd (rnd (C * E) + y0).
  Proof.
    unfold piece. destruct (Qeq_bool x x0) eqn:K; [apply Qeq_bool_iff in K; lra|].
    rewrite dadd_eq. apply rnd_compat. rewrite dmul_eq. apply Qplus_comp; [|reflexivity]. apply rnd_compat.
    apply Qmult_comp; [|apply dsub_eq]. rewrite ddiv_eq. apply rnd_compat. unfold Qdiv. apply Qmult_comp; [apply dsub_eq|]. apply Qinv_comp, dsub_eq.
  Qed.
  Lemma U0 : 0 < 1 - double_u. Proof. reflexivity. Qed.
  Lemma B_pos : 0 < B. Proof. pose proof (rnd_down (x1 - x0) ltac:(lra)). fold B in H. pose proof U0. nra. Qed.
  Lemma A_nonneg : 0 <= A. Proof. apply rnd_sign. lra. Qed.
  Lemma E_nonneg : 0 <= E. Proof. apply rnd_sign. lra. Qed.
  Lemma AB_nonneg : 0 <= A / B. Proof. apply Qle_shift_div_l; [apply B_pos|]. pose proof A_nonneg. lra. Qed.
  Lemma C_nonneg : 0 <= C. Proof. apply rnd_sign, AB_nonneg. Qed.
  Lemma piece_left : y0 <= piece x x0 y0 x1 y1.
  Proof.
    rewrite piece_eq. rewrite <- (rnd_exact y0 Dy) at 1. apply rnd_mono. pose proof C_nonneg. pose proof E_nonneg.
    assert (0 <= rnd (C * E)) by (apply rnd_sign; nra). lra.
  Qed.
  Let S := (x - x0) / (x1 - x0).
  Lemma S_range : 0 <= S /\ S <= 1.
  Proof. split; [apply Qle_shift_div_l; lra|apply Qle_shift_div_r; lra]. Qed.
  Let G := (y1 - y0) * S.
  Lemma product_up : rnd (C * E) <= (1 + 6 * double_u) * G.
  Proof.
    pose proof B_pos as PB. pose proof A_nonneg as NA. pose proof E_nonneg as NE. pose proof C_nonneg as NC. pose proof AB_nonneg as NAB.
    assert (HA : A <= (1 + double_u) * (y1 - y0)) by (apply rnd_up; lra).
    assert (HB : (1 - double_u) * (x1 - x0) <= B) by (apply rnd_down; lra).
    assert (HE : E <= (1 + double_u) * (x - x0)) by (apply rnd_up; lra).
    assert (HC : C <= (1 + double_u) * (A / B)) by now apply rnd_up.
    assert (HF : rnd (C * E) <= (1 + double_u) * (C * E)) by (apply rnd_up; nra).
    assert (HQ : A / B <= (1 + double_u) / (1 - double_u) * ((y1 - y0) / (x1 - x0))).
    { apply Qle_shift_div_r; auto. apply Qle_trans with (1 := HA).
      setoid_replace ((1 + double_u) * (y1 - y0)) with ((1 + double_u) / (1 - double_u) * ((y1 - y0) / (x1 - x0)) * ((1 - double_u) * (x1 - x0))) by (field; pose proof U0; split; lra).
      rewrite !(Qmult_comm ((1 + double_u) / (1 - double_u) * ((y1 - y0) / (x1 - x0)))). apply Qmult_le_compat_r; auto.
      apply Qmult_le_0_compat; [discriminate|]. apply Qle_shift_div_l; lra. }
    assert (U : 0 < 1 + double_u) by reflexivity.
    set (R := (y1 - y0) / (x1 - x0)) in *. set (K := (1 + double_u) / (1 - double_u)) in *.
    assert (H1 : C <= (1 + double_u) * (K * R)) by nra.
    assert (H2 : C * E <= (1 + double_u) * (K * R) * ((1 + double_u) * (x - x0))) by (apply Qle_trans with (C * ((1 + double_u) * (x - x0))); nra).
    apply Qle_trans with (1 := HF). apply Qle_trans with ((1 + double_u) * ((1 + double_u) * (K * R) * ((1 + double_u) * (x - x0)))); [nra|].
    assert (EG : R * (x - x0) == G) by (unfold R, G, S; field; lra).
    setoid_replace ((1 + double_u) * ((1 + double_u) * (K * R) * ((1 + double_u) * (x - x0)))) with ((1 + double_u) * (1 + double_u) * (1 + double_u) * K * (R * (x - x0))) by ring.
    rewrite EG. apply Qmult_le_compat_r; [vm_compute; discriminate|]. unfold G. apply Qmult_le_0_compat; [lra|apply S_range].
  Qed.
  Lemma product_down : (1 - 6 * double_u) * G <= rnd (C * E).
  Proof.
    pose proof B_pos as PB. pose proof A_nonneg as NA. pose proof E_nonneg as NE. pose proof C_nonneg as NC. pose proof AB_nonneg as NAB.
    assert (HA : (1 - double_u) * (y1 - y0) <= A) by (apply rnd_down; lra).
    assert (HB : B <= (1 + double_u) * (x1 - x0)) by (apply rnd_up; lra).
    assert (HE : (1 - double_u) * (x - x0) <= E) by (apply rnd_down; lra).
    assert (HC : (1 - double_u) * (A / B) <= C) by now apply rnd_down.
    assert (HF : (1 - double_u) * (C * E) <= rnd (C * E)) by (apply rnd_down; nra).
    assert (NR : 0 <= (y1 - y0) / (x1 - x0)) by (apply Qle_shift_div_l; lra).
    assert (HQ : (1 - double_u) / (1 + double_u) * ((y1 - y0) / (x1 - x0)) <= A / B).
    { apply Qle_shift_div_l; auto. apply Qle_trans with (2 := HA).
      setoid_replace ((1 - double_u) * (y1 - y0)) with ((1 - double_u) / (1 + double_u) * ((y1 - y0) / (x1 - x0)) * ((1 + double_u) * (x1 - x0))).
      2: { field. split; [lra|]. intros K. apply (Qlt_not_eq 0 (1 + double_u)); [reflexivity|now symmetry]. }
      rewrite !(Qmult_comm ((1 - double_u) / (1 + double_u) * ((y1 - y0) / (x1 - x0)))). apply Qmult_le_compat_r; auto.
      apply Qmult_le_0_compat; [discriminate|auto]. }
    pose proof U0 as U.
    set (R := (y1 - y0) / (x1 - x0)) in *. set (K := (1 - double_u) / (1 + double_u)) in *.
    assert (NK : 0 <= K) by discriminate.
    assert (NKR : 0 <= K * R) by nra.
    assert (H1 : (1 - double_u) * (K * R) <= C) by nra.
    assert (H2 : (1 - double_u) * (K * R) * ((1 - double_u) * (x - x0)) <= C * E).
    { apply Qle_trans with (C * ((1 - double_u) * (x - x0))); [|nra]. apply Qmult_le_compat_r; auto. nra. }
    apply Qle_trans with (2 := HF). apply Qle_trans with ((1 - double_u) * ((1 - double_u) * (K * R) * ((1 - double_u) * (x - x0)))); [|nra].
    assert (EG : R * (x - x0) == G) by (unfold R, G, S; field; lra).
    setoid_replace ((1 - double_u) * ((1 - double_u) * (K * R) * ((1 - double_u) * (x - x0)))) with ((1 - double_u) * (1 - double_u) * (1 - double_u) * K * (R * (x - x0))) by ring.
    rewrite EG. apply Qmult_le_compat_r; [vm_compute; discriminate|]. unfold G. apply Qmult_le_0_compat; [lra|apply S_range].
  Qed.
  Lemma piece_close M : Qabs y0 <= M -> Qabs y1 <= M -> Qabs (piece x x0 y0 x1 y1 - (y0 + G)) <= 14 * double_u * M.
  Proof.
    intros M0 M1. apply Qabs_Qle_condition in M0, M1. rewrite piece_eq. pose proof product_up as PU. pose proof product_down as PD.
    destruct S_range as [S0 S1].
    assert (U : 0 < double_u) by reflexivity. assert (U1 : double_u <= 1#16) by (vm_compute; discriminate). set (u := double_u) in *.
    pose proof (rnd_error (rnd (C * E) + y0)) as ER. fold u in ER. apply Qabs_Qle_condition in ER.
    set (F := rnd (C * E)) in *.
    assert (G0 : 0 <= G) by (apply Qmult_le_0_compat; lra).
    assert (G1 : G <= y1 - y0) by (unfold G; nra).
    assert (UG : u * G <= u * (2 * M)) by nra. assert (UG0 : 0 <= u * G) by nra.
    assert (AB : Qabs (F + y0) <= M + 12 * (u * M)) by (apply Qabs_Qle_condition; split; lra).
    assert (UM : 0 <= u * M) by nra. assert (UUM : u * (u * M) <= (1#16) * (u * M)) by (apply Qmult_le_compat_r; auto).
    assert (AB' : u * Qabs (F + y0) <= u * M + 12 * (u * (u * M))) by nra.
    apply Qabs_Qle_condition. split; lra.
  Qed.
End Piece.
Lemma weighted_ends pts x : climbing pts ->
  (forall q, located pts x None (Some q) -> fl_interp pts x == snd q) /\
  (forall q, located pts x (Some q) None -> fl_interp pts x == snd q) /\
  (forall q q', located pts x (Some q) (Some q') -> x == fst q -> fl_interp pts x == snd q).
Proof.
  intros S. destruct (interp_located pts x S) as (A & B & C). repeat split.
  - intros q K. now rewrite (A q K).
  - intros q K. now rewrite (B q K).
  - intros q q' K E. rewrite (C q q' K). unfold piece. destruct (Qeq_bool x (fst q)) eqn:N; [reflexivity|]. apply Qeq_bool_iff in E. congruence.
Qed.
Lemma climbing_step l q q' r : climbing (l ++ q :: q' :: r) -> fst q < fst q' /\ snd q <= snd q'.
Proof.
  induction l as [|a l IH]; intros S; inversion S as [|? ? S' F]; subst; [|now apply IH]. rewrite Forall_forall in F. apply F. now left.
Qed.
Lemma weighted_left pts x q q' : climbing pts -> Forall is_double (map snd pts) -> located pts x (Some q) (Some q') -> snd q <= fl_interp pts x.
Proof.
  intros S D K. destruct (interp_located pts x S) as (_ & _ & C). rewrite (C q q' K). inversion K; subst.
  destruct (climbing_step _ _ _ _ S) as [X Y].
  assert (Dq : is_double (snd q)). { rewrite Forall_forall in D. apply D. rewrite map_app. apply in_or_app. right. now left. }
  destruct (Qlt_le_dec (fst q) x) as [L|L]; [now apply piece_left|].
  unfold piece. destruct (Qeq_bool x (fst q)) eqn:N; [lra|]. exfalso. assert (E : x == fst q) by lra. apply Qeq_bool_iff in E. congruence.
Qed.
Lemma weighted_close pts x q q' M : climbing pts -> Forall is_double (map snd pts) -> located pts x (Some q) (Some q') ->
  Qabs (snd q) <= M -> Qabs (snd q') <= M -> Qabs (fl_interp pts x - height q q' x) <= 14 * double_u * M.
Proof.
  intros S D K M0 M1. destruct (interp_located pts x S) as (_ & _ & C). rewrite (C q q' K). inversion K; subst.
  destruct (climbing_step _ _ _ _ S) as [X Y].
  destruct (Qlt_le_dec (fst q) x) as [L|L]; [now apply piece_close|].
  assert (E : x == fst q) by lra.
  unfold piece. destruct (Qeq_bool x (fst q)) eqn:N; [|apply Qeq_bool_iff in E; congruence].
  unfold height. setoid_replace (snd q - (snd q + (snd q' - snd q) * ((x - fst q) / (fst q' - fst q)))) with 0.
  - change (Qabs 0) with 0. apply Qabs_Qle_condition in M0. assert (0 < double_u) by reflexivity. assert (0 <= M) by lra. nra.
  - setoid_replace ((x - fst q) / (fst q' - fst q)) with 0; [ring|]. rewrite E. field. lra.
Qed.

Lemma rank_missed : exists data p k, Forall is_double data /\ is_double p /\ percent p /\
  inject_Z (Z.of_nat (length data - 1)) * (p / 100) == inject_Z (Z.of_nat k) /\
  (forall v, In v data -> ~ fl_percentile data p == v).
Proof.
  exists (map (fun k => inject_Z (Z.of_nat k)) (seq 0 101)), 7, 7%nat.
  split; [|split; [|split; [|split]]].
  - apply Forall_forall. intros x I. apply in_map_iff in I as (k & <- & I). apply in_seq in I. apply is_double_int. lia.
  - exists 7%Z, 0%Z. split; [lia|reflexivity].
  - split; discriminate.
  - reflexivity.
  - intros v I. apply in_map_iff in I as (k & <- & I).
    match goal with |- ~ ?a == _ => let r := eval vm_compute in a in assert (E : a = r) by (vm_compute; reflexivity); rewrite E end.
    unfold Qeq. simpl. lia.
Qed.
Lemma weighted_overshoot : exists total data weights p p' y, total = 13 /\ weights = [1; 9; 3] /\
  climbing (combine (fl_points total weights) data) /\ Forall is_double data /\ In y data /\
  is_double p /\ is_double p' /\ percent p /\ percent p' /\ p < p' /\
  fl_weighted_percentile total data weights p' == y /\ y < fl_weighted_percentile total data weights p.
Proof.
  exists 13, [Qred (rnd (5#2)); 6417629469002957 # 1125899906842624; 6], [1; 9; 3],
    (5954278353494645 # 140737488355328), (2977139176747323 # 70368744177664), (6417629469002957 # 1125899906842624).
  assert (D : forall n m e, (Z.abs n <= 2 ^ 53)%Z -> n # m == inject_Z n * Qpower 2 e -> is_double (n # m)).
  { intros n m e A B. exists n, e. split; auto. }
  split; [reflexivity|]. split; [reflexivity|]. split.
  { match goal with |- climbing ?l => let r := eval vm_compute in l in assert (E : l = r) by (vm_compute; reflexivity); rewrite E end.
    repeat constructor; simpl; reflexivity || discriminate. }
  split; [|split; [simpl; tauto|]].
  { repeat constructor.
    - change (Qred (rnd (5#2))) with (5#2). apply (D 5%Z 2%positive (-1)%Z); [lia|reflexivity].
    - apply (D _ _ (-50)%Z); [lia|reflexivity].
    - apply (D 6%Z 1%positive 0%Z); [lia|reflexivity]. }
  split; [apply (D _ _ (-47)%Z); [lia|reflexivity]|]. split; [apply (D _ _ (-46)%Z); [lia|reflexivity]|].
  split; [split; discriminate|]. split; [split; discriminate|]. split; [reflexivity|]. split; vm_compute; reflexivity.
Qed.
