(** Lemmas: percentiles in IEEE arithmetic with its range. *)
From Coq Require Import Qabs Lqa Permutation.
From Verif Require Import Base M_Values M_Ops M_Percentiles M_Double M_DoubleProb M_DoublePct M_Ieee M_IeeePct SpecFloat SpecDouble SpecIeee
  SpecPercentiles P_Support P_Round P_Double P_Percentiles P_DoublePct P_Ieee P_Ieee2.
From Coq.Floats Require Import SpecFloat.
Open Scope Q_scope.

(* ------------------------------------------------- rounding below overflow *)
Definition r64_pos (q : Q) : Q :=
  let e := Z.max (last_digit q) (-1074) in inject_Z (round_half_even (q * pow2 (- e))) * pow2 e.
Definition r64 (q : Q) : Q := match Qnum q with Z0 => 0 | Zpos _ => r64_pos q | Zneg _ => - r64_pos (- q) end.
Lemma r64_cases q : (q == 0 /\ r64 q = 0) \/ (0 < q /\ r64 q = r64_pos q) \/ (q < 0 /\ r64 q = - r64_pos (- q)).
Proof. destruct q as [[|n|n] d]; unfold r64; cbn [Qnum]; [left|right; left|right; right]; split; auto; reflexivity. Qed.
Lemma r64_pos_nonneg x : 0 < x -> 0 <= r64_pos x.
Proof.
  intro P. destruct (k64_range x P) as [[K _] _]. unfold r64_pos. cbv zeta in *.
  apply Qmult_le_0_compat; [|apply Qlt_le_weak, pow2_pos]. change 0 with (inject_Z 0). rewrite <- Zle_Qle. exact K.
Qed.
Lemma round64_r64 q : Qabs (r64 q) < pow2 1024 -> same (round64 (Fin q)) (Fin (r64 q)).
Proof.
  intro L. destruct (r64_cases q) as [[A E]|[[A E]|[A E]]]; destruct (round64_cases q) as [[B ->]|[[B ->]|[B ->]]]; try lra; rewrite E in *.
  - apply same_refl.
  - pose proof (r64_pos_nonneg q A) as N. rewrite Qabs_pos in L by auto.
    unfold round64_pos. fold (r64_pos q). cbv zeta. change (inject_Z (round_half_even (q * pow2 (- Z.max (last_digit q) (-1074)))) * pow2 (Z.max (last_digit q) (-1074))) with (r64_pos q).
    assert (Qlt_bool (r64_pos q) (pow2 1024) = true) as -> by (apply qlt_true; exact L). apply same_refl.
  - pose proof (r64_pos_nonneg (- q) ltac:(lra)) as N. rewrite Qabs_opp, Qabs_pos in L by auto.
    unfold round64_pos. cbv zeta. change (inject_Z (round_half_even (- q * pow2 (- Z.max (last_digit (- q)) (-1074)))) * pow2 (Z.max (last_digit (- q)) (-1074))) with (r64_pos (- q)).
    assert (Qlt_bool (r64_pos (- q)) (pow2 1024) = true) as -> by (apply qlt_true; exact L). apply same_refl.
Qed.
Lemma r64_pos_mono p q : 0 < p -> p <= q -> r64_pos p <= r64_pos q.
Proof.
  intros P L. assert (Q0 : 0 < q) by lra.
  destruct (k64_range p P) as [[Kp0 Kp] _]. destruct (k64_range q Q0) as [[Kq0 Kq] Nq]. unfold r64_pos. cbv zeta in *.
  destruct (last_digit_range p P) as [A1 _]. destruct (last_digit_range q Q0) as [_ B2].
  assert (LD : (last_digit p <= last_digit q)%Z).
  { destruct (Z_le_gt_dec (last_digit p) (last_digit q)) as [|G]; auto.
    pose proof (pow2_mono (last_digit q + 53) (last_digit p + 52) ltac:(lia)). lra. }
  set (e := Z.max (last_digit p) (-1074)) in *. set (f := Z.max (last_digit q) (-1074)) in *.
  destruct (Z.eq_dec e f) as [E|E].
  - rewrite E. apply Qmult_le_compat_r; [|apply Qlt_le_weak, pow2_pos]. rewrite <- Zle_Qle. apply round_half_even_mono.
    apply Qmult_le_compat_r; auto. apply Qlt_le_weak, pow2_pos.
  - assert (EF : (e < f)%Z) by lia. assert (K52 : (2 ^ 52 <= round_half_even (q * pow2 (- f)))%Z).
    { destruct (Z_lt_le_dec (round_half_even (q * pow2 (- f))) (2 ^ 52)) as [X|]; auto. apply Nq in X. lia. }
    apply Qle_trans with (inject_Z (2 ^ 53) * pow2 e).
    + apply Qmult_le_compat_r; [|apply Qlt_le_weak, pow2_pos]. rewrite <- Zle_Qle. exact Kp.
    + apply Qle_trans with (inject_Z (2 ^ 52) * pow2 f).
      * rewrite <- (pow2_Z 53), <- (pow2_Z 52), <- !pow2_plus by lia. apply pow2_mono. lia.
      * apply Qmult_le_compat_r; [|apply Qlt_le_weak, pow2_pos]. rewrite <- Zle_Qle. exact K52.
Qed.
Lemma r64_mono p q : p <= q -> r64 p <= r64 q.
Proof.
  intro L. destruct (r64_cases p) as [[A ->]|[[A ->]|[A ->]]], (r64_cases q) as [[B ->]|[[B ->]|[B ->]]]; try lra.
  - now apply r64_pos_nonneg.
  - now apply r64_pos_mono.
  - pose proof (r64_pos_nonneg (- p) ltac:(lra)). lra.
  - pose proof (r64_pos_nonneg (- p) ltac:(lra)). pose proof (r64_pos_nonneg q B). lra.
  - pose proof (r64_pos_mono (- q) (- p) ltac:(lra) ltac:(lra)). lra.
Qed.
Lemma r64_compat p q : p == q -> r64 p == r64 q.
Proof. intro E. apply Qle_antisym; apply r64_mono; lra. Qed.

(** Doubles whose last digit is worth at least 2^-1074. *)
Definition u_double (x : Q) : Prop := exists m e : Z, (Z.abs m <= 2 ^ 53)%Z /\ (-1074 <= e)%Z /\ x == inject_Z m * pow2 e.
Lemma u_double_is x : u_double x -> is_double x.
Proof. intros (m & e & M & _ & E). exists m, e. split; auto. Qed.
Lemma u_double_opp x : u_double x -> u_double (- x).
Proof. intros (m & e & M & L & E). exists (- m)%Z, e. repeat split; try lia. rewrite E, inject_Z_opp. ring. Qed.
Lemma r64_pos_fix x : 0 < x -> u_double x -> r64_pos x == x.
Proof.
  intros P D. destruct (Z_le_gt_dec (-1074) (last_digit x)) as [L|L].
  - unfold r64_pos. rewrite Z.max_l by lia. change (rnd_pos x == x).
    destruct (rnd_cases x) as [[E _]|[[_ <-]|[E _]]]; try lra. apply rnd_exact, u_double_is, D.
  - destruct D as (m & e & M & G & E). unfold r64_pos. rewrite Z.max_r by lia. cbv zeta.
    assert (R : round_half_even (x * pow2 (- -1074)) = (m * 2 ^ (e + 1074))%Z).
    { rewrite <- (rint_int (m * 2 ^ (e + 1074))). apply rint_compat. rewrite E, inject_Z_mult, <- (pow2_Z (e + 1074)), <- Qmult_assoc, <- pow2_plus by lia.
      replace (e + - -1074)%Z with (e + 1074)%Z by lia. reflexivity. }
    rewrite R, E, inject_Z_mult, <- (pow2_Z (e + 1074)), <- Qmult_assoc, <- pow2_plus by lia.
    replace (e + 1074 + -1074)%Z with e by lia. reflexivity.
Qed.
Lemma r64_fix x : u_double x -> r64 x == x.
Proof.
  intro D. destruct (r64_cases x) as [[A ->]|[[A ->]|[A ->]]].
  - now symmetry.
  - now apply r64_pos_fix.
  - rewrite r64_pos_fix; [ring|lra|now apply u_double_opp].
Qed.
Lemma r64_u q : u_double (r64 q).
Proof.
  assert (G : forall x, 0 < x -> u_double (r64_pos x)).
  { intros x P. destruct (k64_range x P) as [K _]. cbv zeta in K. unfold r64_pos. eexists _, _. split; [|split; [|reflexivity]]; lia. }
  destruct (r64_cases q) as [[A ->]|[[A ->]|[A ->]]].
  - exists 0%Z, 0%Z. repeat split; lia.
  - auto.
  - apply u_double_opp, G. lra.
Qed.
Lemma finite64_u a : finite64 a -> u_double a.
Proof.
  intros (x & V & S). destruct x as [s|s| |s m e]; try (destruct s; contradiction); try contradiction; cbn [value same] in S.
  - exists 0%Z, 0%Z. repeat split; try lia. rewrite <- S. reflexivity.
  - destruct (valid_mantissa _ _ _ V) as [M _]. destruct (valid_cases _ _ _ V) as [C _].
    exists (if s then Zneg m else Zpos m), e. repeat split; [destruct s; lia|lia|]. rewrite <- S. reflexivity.
Qed.
(** Differences are as without the range. *)
Lemma u_units a : u_double a -> exists k, a == inject_Z k * pow2 (-1074).
Proof.
  intros (m & e & M & L & E). exists (m * 2 ^ (e + 1074))%Z.
  rewrite E, inject_Z_mult, <- (pow2_Z (e + 1074)), <- Qmult_assoc, <- pow2_plus by lia.
  replace (e + 1074 + -1074)%Z with e by lia. reflexivity.
Qed.
Lemma pow2_u e : (-1074 <= e)%Z -> u_double (pow2 e).
Proof. intro L. exists 1%Z, e. repeat split; try lia. change (inject_Z 1) with 1. ring. Qed.
Lemma below_limit x : 0 <= x -> x < limit64 -> r64 x < pow2 1024.
Proof.
  intros X0 X1. destruct (Qlt_le_dec x (pow2 1023)) as [L|L].
  - apply Qle_lt_trans with (pow2 1023); [|apply pow2_lt; lia]. rewrite <- (r64_fix (pow2 1023)) by (apply pow2_u; lia). apply r64_mono. lra.
  - pose proof (pow2_pos 1023) as P. destruct (r64_cases x) as [[A _]|[[A ->]|[A _]]]; try lra.
    assert (D : last_digit x = 971%Z).
    { apply last_digit_unique; [exact L|]. assert (limit64 < pow2 (971 + 53)) by reflexivity. lra. }
    unfold r64_pos. rewrite D. change (Z.max 971 (-1074)) with 971%Z. cbv zeta.
    assert (K : (round_half_even (x * pow2 (- (971))) < 2 ^ 53)%Z).
    { destruct (round_half_even_spec (x * pow2 (- (971)))) as (k & -> & N & _). apply Qabs_Qle_condition in N.
      assert (Y : x * pow2 (- (971)) < limit64 * pow2 (- (971))) by (apply Qmult_lt_r; [apply pow2_pos|exact X1]).
      assert (T : limit64 * pow2 (- (971)) == inject_Z (2 ^ 53) - (1#2)) by reflexivity.
      rewrite Zlt_Qlt. lra. }
    apply Qlt_le_trans with (pow2 53 * pow2 971); [|rewrite <- pow2_plus; apply Qle_refl].
    apply Qmult_lt_r; [apply pow2_pos|]. apply Qlt_le_trans with (inject_Z (2 ^ 53)); [rewrite <- Zlt_Qlt; exact K|apply Qle_refl].
Qed.
Lemma from_limit x : limit64 <= x -> pow2 1024 <= r64 x.
Proof. intro L. assert (E : pow2 1024 == r64 limit64) by (vm_compute; reflexivity). rewrite E. now apply r64_mono. Qed.

Section Gap.
  Variables a b : Q.
  Hypothesis Ua : u_double a. Hypothesis Ub : u_double b. Hypothesis AB : a <= b.
  Let d := r64 (b - a).
  Lemma gap_nonneg : 0 <= d.
  Proof. unfold d. rewrite <- (r64_fix 0); [apply r64_mono; lra|]. exists 0%Z, 0%Z. repeat split; lia. Qed.
  (** Half of the rounded gap, rounded, fits into the gap. *)
  Lemma half_fits s : 0 <= s -> s <= 1#2 -> 0 <= r64 (d * s) /\ r64 (d * s) <= b - a.
  Proof.
    intros S0 S1. pose proof gap_nonneg as D0. split.
    { rewrite <- (r64_fix 0); [apply r64_mono; nra|]. exists 0%Z, 0%Z. repeat split; lia. }
    destruct (Qlt_le_dec (b - a) d) as [L|L].
    - destruct (r64_u (b - a)) as (k & e & K & E & V). fold d in V.
      destruct (u_units a Ua) as [i Ei]. destruct (u_units b Ub) as [j Ej].
      assert (G : b - a == inject_Z (j - i) * pow2 (-1074)).
      { rewrite Ei, Ej. unfold Zminus. rewrite inject_Z_plus, inject_Z_opp. ring. }
      assert (Big : (2 ^ 53 < j - i)%Z).
      { destruct (Z_lt_le_dec (2 ^ 53) (j - i)) as [|C]; auto. exfalso.
        assert (N : (0 <= j - i)%Z).
        { destruct (Z_le_gt_dec 0 (j - i)) as [|C']; auto. exfalso. pose proof (pow2_pos (-1074)).
          assert (inject_Z (j - i) < 0) by (change 0 with (inject_Z 0); rewrite <- Zlt_Qlt; lia). nra. }
        assert (X : d == b - a) by (apply r64_fix; exists (j - i)%Z, (-1074)%Z; repeat split; [lia|lia|exact G]). lra. }
      assert (E1 : (-1073 <= e)%Z).
      { destruct (Z_le_gt_dec (-1073) e) as [|C]; auto. exfalso. assert (e = (-1074)%Z) by lia. subst e.
        rewrite V, G in L. pose proof (pow2_pos (-1074)) as Pp. apply Qmult_lt_r in L; auto. rewrite <- Zlt_Qlt in L. lia. }
      assert (H2 : u_double (d * (1#2))).
      { exists k, (e - 1)%Z. repeat split; [lia|lia|]. rewrite V. unfold Z.sub. rewrite pow2_plus. change (pow2 (- (1))) with (1#2). ring. }
      assert (W : r64 (d * s) <= d * (1#2)) by (rewrite <- (r64_fix _ H2); apply r64_mono; nra).
      assert (Dn : d == rnd (b - a)).
      { assert (N : pow2 (-1022) <= b - a).
        { rewrite G. replace (-1022)%Z with (52 + -1074)%Z by lia. rewrite pow2_plus, (pow2_Z 52) by lia.
          apply Qmult_le_compat_r; [|apply Qlt_le_weak, pow2_pos]. rewrite <- Zle_Qle. lia. }
        pose proof (normal_digit _ N) as LD. pose proof (pow2_pos (-1022)).
        unfold d. destruct (r64_cases (b - a)) as [[X _]|[[_ ->]|[X _]]]; try lra.
        destruct (rnd_cases (b - a)) as [[X _]|[[_ ->]|[X _]]]; try lra.
        unfold r64_pos. rewrite Z.max_l by lia. reflexivity. }
      pose proof (rnd_up (b - a) ltac:(lra)) as Up. rewrite <- Dn in Up.
      assert (double_u <= 1) by discriminate. nra.
    - apply Qle_trans with d; auto. apply Qle_trans with (r64 d); [apply r64_mono; nra|]. rewrite r64_fix by apply r64_u. lra.
  Qed.

  Hypothesis La : Qabs a < pow2 1024. Hypothesis Lb : Qabs b < pow2 1024. Hypothesis Gap : b - a < limit64.
  Lemma gap_small : d < pow2 1024.
  Proof. apply below_limit; auto. lra. Qed.
  Lemma round_between x : a <= x -> x <= b -> exists r, same (round64 (Fin x)) (Fin r) /\ a <= r /\ r <= b.
  Proof.
    intros X0 X1. exists (r64 x).
    assert (B0 : a <= r64 x) by (rewrite <- (r64_fix a Ua); apply r64_mono; auto).
    assert (B1 : r64 x <= b) by (rewrite <- (r64_fix b Ub); apply r64_mono; auto).
    split; auto. apply round64_r64. apply Qabs_Qlt_condition. apply Qabs_Qlt_condition in La, Lb. lra.
  Qed.
  (** The product with a number up to a half. *)
  Lemma scaled_gap s : 0 <= s -> s <= 1#2 ->
    exists w, round64 (xmul (round64 (xsub (Fin b) (Fin a))) (Fin s)) = Fin w /\ 0 <= w /\ w <= b - a.
  Proof.
    intros S0 S1. pose proof gap_nonneg as D0. pose proof gap_small as D1.
    assert (E1 : same (round64 (Fin (b + - a))) (Fin d)).
    { apply round64_r64. fold (b - a). fold d. rewrite Qabs_pos by auto. lra. }
    unfold xsub. cbn [xadd xneg]. destruct (round64 (Fin (b + - a))) as [d'| | |]; try contradiction. cbn [same] in E1. cbn [xmul].
    destruct (half_fits s S0 S1) as [W0 W1].
    assert (Ew : r64 (d' * s) == r64 (d * s)) by (apply r64_compat; now rewrite E1).
    assert (E2 : same (round64 (Fin (d' * s))) (Fin (r64 (d' * s)))).
    { apply round64_r64. rewrite Ew, Qabs_pos by auto.
      assert (limit64 < pow2 1024) by reflexivity. lra. }
    destruct (round64 (Fin (d' * s))) as [w| | |]; try contradiction. cbn [same] in E2. exists w. split; auto. lra.
  Qed.
  Lemma ieee_lerp_between t : 0 <= t -> t <= 1 -> exists r, same (ieee_lerp a b t) (Fin r) /\ a <= r /\ r <= b.
  Proof.
    intros T0 T1. unfold ieee_lerp. cbv zeta. destruct (Qle_bool (1#2) t) eqn:H.
    - apply Qle_bool_iff in H. destruct (scaled_gap (dsub 1 t)) as (w & -> & W0 & W1).
      + rewrite dsub_eq. apply rnd_sign. lra.
      + rewrite dsub_eq, <- (rnd_exact (1#2) is_half). apply rnd_mono. lra.
      + unfold xsub. cbn [xadd xneg]. apply round_between; lra.
    - assert (H' : t < 1#2) by (destruct (Qlt_le_dec t (1#2)) as [|C]; auto; apply Qle_bool_iff in C; congruence).
      destruct (scaled_gap t) as (w & -> & W0 & W1); [lra|lra|]. cbn [xadd]. apply round_between; lra.
  Qed.
End Gap.
Lemma ieee_lerp_same a t : u_double a -> Qabs a < pow2 1024 -> 1 <= t -> same (ieee_lerp a a t) (Fin a).
Proof.
  intros U L T. unfold ieee_lerp. cbv zeta. destruct (Qle_bool (1#2) t) eqn:H; [|assert (X : Qle_bool (1#2) t = true) by (apply Qle_bool_iff; lra); congruence].
  assert (Z0 : forall q, q == 0 -> exists z, round64 (Fin q) = Fin z /\ z == 0).
  { intros q E. destruct (round64_cases q) as [[_ ->]|[[B _]|[B _]]]; try lra. exists 0. split; reflexivity. }
  unfold xsub. cbn [xadd xneg]. destruct (Z0 (a + - a)) as (z & -> & Ez); [ring|]. cbn [xmul].
  destruct (Z0 (z * dsub 1 t)) as (z' & -> & Ez'); [rewrite Ez; ring|]. cbn [xneg xadd].
  assert (E : a + - z' == a) by (rewrite Ez'; ring).
  assert (F : r64 (a + - z') == a) by (rewrite (r64_compat _ _ E); now apply r64_fix).
  apply same_trans with (Fin (r64 (a + - z'))); [apply round64_r64; now rewrite F|exact F].
Qed.
Lemma finite64_bound a : finite64 a -> Qabs a < pow2 1024.
Proof.
  intros (x & V & S). destruct x as [s|s| |s m e]; try (destruct s; contradiction); try contradiction; cbn [value same] in S.
  - rewrite <- S. reflexivity.
  - destruct (valid_mantissa _ _ _ V) as [M _]. destruct (valid_cases _ _ _ V) as [_ C].
    rewrite <- S. change (Qpower 2 e) with (pow2 e). rewrite (val_finite s m e). pose proof (pos_val m e) as P.
    assert (B : inject_Z (Zpos m) * pow2 e < pow2 1024).
    { apply Qlt_le_trans with (pow2 53 * pow2 e).
      - apply Qmult_lt_r; [apply pow2_pos|]. apply Qlt_le_trans with (inject_Z (2 ^ 53)); [rewrite <- Zlt_Qlt; exact M|apply Qle_refl].
      - rewrite <- pow2_plus. apply pow2_mono. lia. }
    destruct s; [rewrite Qabs_opp|]; rewrite Qabs_pos; lra.
Qed.

Section Percentile.
  Variables (data : list Q) (lo hi : Q).
  Hypothesis NE : data <> []. Hypothesis FD : Forall finite64 data. Hypothesis LEN : (Z.of_nat (length data) <= 2 ^ 53)%Z.
  Hypothesis BT : all_between lo hi data. Hypothesis SPAN : hi - lo < limit64.
  Lemma sorted_in i : (i < length data)%nat -> In (nth i (qsort data) 0) data.
  Proof. intros L. apply (Permutation_in _ (qsort_perm data)), nth_In. now rewrite qsort_length. Qed.
  Lemma ieee_between p : percent p -> exists r, same (ieee_percentile data p) (Fin r) /\ lo <= r /\ r <= hi.
  Proof.
    intros P. rewrite Forall_forall in FD. unfold all_between in BT.
    assert (DD : Forall is_double data) by (apply Forall_forall; intros x I; now apply u_double_is, finite64_u, FD).
    destruct (position_range data LEN p P) as [V0 V1].
    assert (L1 : (1 <= length data)%nat) by (destruct data; [congruence|simpl; lia]).
    unfold ieee_percentile. change (dmul (inject_Z (Z.of_nat (length data - 1))) (ddiv p 100)) with (fl_position data p). cbv zeta.
    set (v := fl_position data p) in *. destruct (Qle_bool (inject_Z (Z.of_nat (length data - 1))) v) eqn:E.
    - assert (I : In (nth (length data - 1) (qsort data) 0) data) by (apply sorted_in; lia).
      eexists. split; [apply ieee_lerp_same|].
      + now apply finite64_u, FD.
      + now apply finite64_bound, FD.
      + rewrite dadd_eq, <- (rnd_exact 1 is_one) at 1. apply rnd_mono. lra.
      + now apply BT.
    - assert (L : v < inject_Z (Z.of_nat (length data - 1))).
      { destruct (Qlt_le_dec v (inject_Z (Z.of_nat (length data - 1)))) as [|C]; auto. apply Qle_bool_iff in C. congruence. }
      assert (F0 : (0 <= Qfloor v)%Z) by (change 0%Z with (Qfloor 0); now apply Qfloor_resp_le).
      pose proof (Qfloor_le v) as F1. pose proof (Qlt_floor v) as F2. rewrite inject_Z_plus in F2. change (inject_Z 1) with 1 in F2.
      set (i := Z.to_nat (Qfloor v)).
      assert (IL : (i < length data - 1)%nat). { apply inject_nat_lt. unfold i at 1. rewrite Z2Nat.id by auto. lra. }
      assert (Ia : In (nth i (qsort data) 0) data) by (apply sorted_in; lia).
      assert (Ib : In (nth (S i) (qsort data) 0) data) by (apply sorted_in; lia).
      assert (A : order_stat data i (nth i (qsort data) 0)) by (apply qsort_order_stat; lia).
      assert (B : order_stat data (S i) (nth (S i) (qsort data) 0)) by (apply qsort_order_stat; lia).
      assert (AB : nth i (qsort data) 0 <= nth (S i) (qsort data) 0) by (eapply order_stat_mono; [|exact A|exact B]; lia).
      destruct (BT _ Ia) as [A0 A1]. destruct (BT _ Ib) as [B0 B1].
      destruct (ieee_lerp_between (nth i (qsort data) 0) (nth (S i) (qsort data) 0) (finite64_u _ (FD _ Ia)) (finite64_u _ (FD _ Ib)) AB
        (finite64_bound _ (FD _ Ia)) (finite64_bound _ (FD _ Ib)) ltac:(lra) (dsub v (inject_Z (Qfloor v)))) as (r & R & R0 & R1).
      + rewrite dsub_eq. apply rnd_sign. lra.
      + rewrite dsub_eq, <- (rnd_exact 1 is_one). apply rnd_mono. lra.
      + exists r. split; [exact R|]. lra.
  Qed.
End Percentile.

(** Two data further apart than the largest number. *)
Lemma rnd_strict x : 0 < x -> 0 < rnd x.
Proof. intro P. pose proof (rnd_down x ltac:(lra)) as D. assert (U : 0 < 1 - double_u) by reflexivity. nra. Qed.
Section Apart.
  Variables a b : Q.
  Hypothesis Fb : finite64 b. Hypothesis AB' : limit64 <= b - a.
  Lemma AB : pow2 1024 <= r64 (b - a).
  Proof. now apply from_limit. Qed.
  Lemma apart_order : a < b.
  Proof.
    destruct (Qlt_le_dec a b) as [|C]; auto. exfalso. pose proof (r64_mono (b - a) 0 ltac:(lra)) as M. change (r64 0) with 0 in M.
    pose proof (pow2_pos 1024). pose proof AB. lra.
  Qed.
  Lemma apart_gap : round64 (xsub (Fin b) (Fin a)) = PInf.
  Proof.
    pose proof apart_order. unfold xsub. cbn [xadd xneg]. change (b + - a) with (b - a).
    destruct (r64_cases (b - a)) as [[A _]|[[A E]|[A _]]]; try lra. pose proof AB as G. rewrite E in G.
    destruct (round64_cases (b - a)) as [[B _]|[[_ ->]|[B _]]]; try lra.
    unfold round64_pos. cbv zeta. change (inject_Z (round_half_even ((b - a) * pow2 (- Z.max (last_digit (b - a)) (-1074)))) * pow2 (Z.max (last_digit (b - a)) (-1074))) with (r64_pos (b - a)).
    destruct (Qlt_bool (r64_pos (b - a)) (pow2 1024)) eqn:L; auto. apply qlt_true in L. lra.
  Qed.
  Lemma apart_sorted data : data = [a; b] \/ data = [b; a] -> qsort data = [a; b].
  Proof.
    pose proof apart_order as H. intros [-> | ->]; cbn.
    - destruct (Qle_bool a b) eqn:L; auto. assert (X : Qle_bool a b = true) by (apply Qle_bool_iff; lra). congruence.
    - destruct (Qle_bool b a) eqn:L; auto. apply Qle_bool_iff in L. lra.
  Qed.
  Lemma apart_lerp t : 0 <= t -> t <= 1 ->
    (t == 0 -> ieee_lerp a b t = NaN) /\ (0 < t -> t < 1#2 -> ieee_lerp a b t = PInf) /\ (1#2 <= t -> t < 1 -> ieee_lerp a b t = NInf).
  Proof.
    intros T0 T1. unfold ieee_lerp. rewrite apart_gap. cbv zeta.
    assert (G : forall x, 0 < x -> round64 (xmul PInf (Fin x)) = PInf).
    { intros [[|n|n] m] P; try discriminate. reflexivity. }
    repeat split; intros.
    - destruct (Qle_bool (1#2) t) eqn:E; [apply Qle_bool_iff in E; lra|]. destruct t as [[|n|n] m]; try discriminate. reflexivity.
    - destruct (Qle_bool (1#2) t) eqn:E; [apply Qle_bool_iff in E; lra|]. now rewrite G.
    - destruct (Qle_bool (1#2) t) eqn:E; [|apply Qle_bool_iff in H; congruence]. rewrite G; [reflexivity|].
      rewrite dsub_eq. assert (S : 0 < 1 - t) by lra. now apply rnd_strict.
  Qed.
  Variable data : list Q.
  Hypothesis DA : data = [a; b] \/ data = [b; a].
  Lemma apart_length : length data = 2%nat.
  Proof. now destruct DA as [-> | ->]. Qed.
  Lemma apart_position p : fl_position data p == rnd (p / 100).
  Proof.
    unfold fl_position. rewrite apart_length. rewrite dmul_eq. rewrite <- (rnd_exact (rnd (p / 100)) (rnd_double _)).
    apply rnd_compat. rewrite ddiv_eq. change (inject_Z (Z.of_nat (2 - 1))) with 1. ring.
  Qed.
  Lemma apart_percentile p : 0 <= p -> rnd (p / 100) < 1 -> exists t, t == rnd (p / 100) /\ ieee_percentile data p = ieee_lerp a b t.
  Proof.
    intros P0 P1. pose proof (apart_position p) as E. assert (X0 : 0 <= rnd (p / 100)) by (apply rnd_sign, pct0; auto).
    unfold ieee_percentile. change (dmul (inject_Z (Z.of_nat (length data - 1))) (ddiv p 100)) with (fl_position data p).
    rewrite (apart_sorted data DA), apart_length. cbv zeta. change (inject_Z (Z.of_nat (2 - 1))) with 1.
    set (v := fl_position data p) in *. destruct (Qle_bool 1 v) eqn:L; [apply Qle_bool_iff in L; lra|].
    assert (F : Qfloor v = 0%Z).
    { pose proof (Qfloor_le v) as F1. pose proof (Qlt_floor v) as F2.
      assert (A : inject_Z (Qfloor v) < inject_Z 1) by (change (inject_Z 1) with 1; lra). rewrite <- Zlt_Qlt in A.
      assert (B : inject_Z 0 < inject_Z (Qfloor v + 1)) by (change (inject_Z 0) with 0; lra). rewrite <- Zlt_Qlt in B. lia. }
    rewrite F. cbn [Z.to_nat nth]. exists (dsub v (inject_Z 0)). split; auto.
    rewrite dsub_eq, <- (rnd_exact (rnd (p / 100)) (rnd_double _)). apply rnd_compat. rewrite E. change (inject_Z 0) with 0. ring.
  Qed.
  Lemma apart_results p :
    (p == 0 -> ieee_percentile data p = NaN) /\ (0 < p -> p <= 49 -> ieee_percentile data p = PInf) /\
    (50 <= p -> p <= 99 -> ieee_percentile data p = NInf) /\ (p == 100 -> same (ieee_percentile data p) (Fin b)).
  Proof.
    assert (M : forall x, p <= x -> rnd (p / 100) <= rnd (x / 100)) by (intros; apply rnd_mono, div100; auto).
    assert (R : 0 <= p -> p <= 99 -> exists t, t == rnd (p / 100) /\ ieee_percentile data p = ieee_lerp a b t /\ 0 <= t /\ t < 1).
    { intros P0 P1. specialize (M 99 P1). assert (H : rnd (99 / 100) < 1) by (vm_compute; reflexivity).
      destruct (apart_percentile p) as (t & T & ->); [auto|lra|]. exists t. repeat split; auto; rewrite T; [apply rnd_sign, pct0; auto|lra]. }
    repeat split; intros.
    - destruct R as (t & T & -> & T0 & T1); [lra|lra|]. apply (apart_lerp t); [auto|lra|]. rewrite T.
      rewrite (rnd_compat (p / 100) 0); [reflexivity|]. rewrite H. reflexivity.
    - destruct R as (t & T & -> & T0 & T1); [lra|lra|]. apply (apart_lerp t); [auto|lra| |].
      + rewrite T. apply rnd_strict. setoid_replace (p / 100) with (p * (1#100)) by reflexivity. lra.
      + specialize (M 49 H0). assert (X : rnd (49 / 100) < 1#2) by (vm_compute; reflexivity). lra.
    - destruct R as (t & T & -> & T0 & T1); [lra|lra|]. apply (apart_lerp t); [auto|lra| |auto].
      rewrite T, <- (rnd_exact (1#2) is_half). apply rnd_mono. setoid_replace (p / 100) with (p * (1#100)) by reflexivity. lra.
    - unfold ieee_percentile. change (dmul (inject_Z (Z.of_nat (length data - 1))) (ddiv p 100)) with (fl_position data p).
      rewrite (apart_sorted data DA), apart_length. cbv zeta. change (inject_Z (Z.of_nat (2 - 1))) with 1.
      assert (E : fl_position data p == 1).
      { rewrite apart_position, (rnd_compat (p / 100) 1), (rnd_exact 1 is_one); [reflexivity|]. rewrite H. reflexivity. }
      assert (L : Qle_bool 1 (fl_position data p) = true) by (apply Qle_bool_iff; lra). rewrite L. cbn [nth Nat.sub].
      apply ieee_lerp_same; [now apply finite64_u|now apply finite64_bound|].
      rewrite dadd_eq, <- (rnd_exact 1 is_one) at 1. apply rnd_mono. lra.
  Qed.
End Apart.
