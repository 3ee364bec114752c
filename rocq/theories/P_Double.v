(** Lemmas about double precision rounding. *)
From Coq Require Import Qabs Lqa Setoid Qround.
From Verif Require Import Base M_Values M_Ops M_Pick M_Weights M_Float M_Double SpecWeights SpecFloat SpecDouble SpecRound
  P_Support P_Ops2 P_Round P_Pick P_Float.
Open Scope Q_scope.

(* ------------------------------------------------------------------ powers of two *)
Lemma pow2_pos e : 0 < pow2 e.
Proof.
  unfold pow2. assert (P : forall p, 0 < Qpower_positive 2 p).
  { intros p. assert (0 <= Qpower_positive 2 p) as G by (apply Qpower_pos_positive; discriminate).
    apply Qle_lteq in G as [G|G]; auto. exfalso. symmetry in G. revert G. apply Qpower_not_0_positive. discriminate. }
  destruct e as [|p|p]; simpl; [reflexivity|apply P|apply Qinv_lt_0_compat, P].
Qed.
Lemma pow2_plus a b : pow2 (a + b) == pow2 a * pow2 b.
Proof. apply Qpower_plus. discriminate. Qed.
Lemma pow2_opp e : pow2 (- e) * pow2 e == 1.
Proof. rewrite <- pow2_plus. replace (- e + e)%Z with 0%Z by lia. reflexivity. Qed.
Lemma pow2_Z e : (0 <= e)%Z -> pow2 e == inject_Z (2 ^ e).
Proof. intros H. unfold pow2. rewrite Zpower_Qpower by lia. reflexivity. Qed.
Lemma pow2_mono a b : (a <= b)%Z -> pow2 a <= pow2 b.
Proof.
  intros H. replace b with (a + (b - a))%Z by lia. rewrite pow2_plus, (pow2_Z (b - a)) by lia.
  rewrite <- (Qmult_1_r (pow2 a)) at 1. rewrite !(Qmult_comm (pow2 a)).
  apply Qmult_le_compat_r; [|apply Qlt_le_weak, pow2_pos]. change 1 with (inject_Z 1). apply (proj2 (inject_Z_le _ _)).
  pose proof (Z.pow_pos_nonneg 2 (b - a)). lia.
Qed.

(** The exponent chosen leaves 53 digits before the point. *)
Lemma last_digit_range q : 0 < q -> pow2 (last_digit q + 52) <= q /\ q < pow2 (last_digit q + 53).
Proof.
  intros H. unfold last_digit.
  set (e := (Z.log2 (Qnum q) - Z.log2 (Zpos (Qden q)) - 52)%Z).
  assert (N : (0 < Qnum q)%Z) by (unfold Qlt in H; simpl in H; lia).
  destruct (Z.log2_spec _ N) as [N1 N2].
  destruct (Z.log2_spec (Zpos (Qden q)) ltac:(lia)) as [D1 D2].
  set (a := Z.log2 (Qnum q)) in *. set (b := Z.log2 (Zpos (Qden q))) in *.
  assert (A0 : (0 <= a)%Z) by apply Z.log2_nonneg. assert (B0 : (0 <= b)%Z) by apply Z.log2_nonneg.
  assert (Eq : q == inject_Z (Qnum q) * / inject_Z (Zpos (Qden q))).
  { destruct q as [n d]. unfold Qeq. simpl. lia. }
  assert (DP : 0 < inject_Z (Zpos (Qden q))) by reflexivity.
  assert (LO : pow2 (a - b - 1) <= q).
  { rewrite Eq. apply Qle_shift_div_l; auto.
    apply Qle_trans with (pow2 (a - b - 1) * pow2 (b + 1)).
    - rewrite !(Qmult_comm (pow2 (a - b - 1))). apply Qmult_le_compat_r; [|apply Qlt_le_weak, pow2_pos].
      rewrite pow2_Z by lia. apply (proj2 (inject_Z_le _ _)). replace (b + 1)%Z with (Z.succ b) by lia. lia.
    - rewrite <- pow2_plus. replace (a - b - 1 + (b + 1))%Z with a by lia. rewrite pow2_Z by lia.
      apply (proj2 (inject_Z_le _ _)). lia. }
  assert (HI : q < pow2 (a - b + 1)).
  { rewrite Eq. apply Qlt_shift_div_r; auto.
    apply Qlt_le_trans with (pow2 (a + 1)).
    - rewrite pow2_Z by lia. apply (proj2 (inject_Z_lt _ _)). replace (a + 1)%Z with (Z.succ a) by lia. lia.
    - apply Qle_trans with (pow2 (a - b + 1) * pow2 b).
      + rewrite <- pow2_plus. replace (a - b + 1 + b)%Z with (a + 1)%Z by lia. apply Qle_refl.
      + rewrite !(Qmult_comm (pow2 (a - b + 1))). apply Qmult_le_compat_r; [|apply Qlt_le_weak, pow2_pos].
        rewrite pow2_Z by lia. apply (proj2 (inject_Z_le _ _)). lia. }
  destruct (Qlt_bool q (pow2 (e + 52))) eqn:E.
  - apply qlt_true in E. replace (e - 1 + 52)%Z with (a - b - 1)%Z by lia. replace (e - 1 + 53)%Z with (e + 52)%Z by lia. auto.
  - apply qlt_false in E. replace (e + 53)%Z with (a - b + 1)%Z by lia. auto.
Qed.
Lemma last_digit_unique q e : pow2 (e + 52) <= q -> q < pow2 (e + 53) -> last_digit q = e.
Proof.
  intros A B. assert (P : 0 < q) by (eapply Qlt_le_trans; [apply pow2_pos|exact A]).
  destruct (last_digit_range q P) as [C D].
  destruct (Z.lt_trichotomy (last_digit q) e) as [L|[L|L]]; auto; exfalso.
  - pose proof (pow2_mono (last_digit q + 53) (e + 52) ltac:(lia)). lra.
  - pose proof (pow2_mono (e + 53) (last_digit q + 52) ltac:(lia)). lra.
Qed.

(** The nearest integer. *)
Lemma nearest_integer x j : Qabs (x - inject_Z (round_half_even x)) <= Qabs (x - inject_Z j).
Proof.
  destruct (round_half_even_spec x) as (k & -> & N & _).
  destruct (Z.eq_dec j k) as [->|D]; [apply Qle_refl|].
  apply Qabs_Qle_condition in N as [N1 N2].
  apply Qle_trans with (1#2); [apply Qabs_Qle_condition; lra|].
  destruct (Z.lt_ge_cases j k) as [L|L].
  - assert (inject_Z (j + 1) <= inject_Z k) as I by (apply (proj2 (inject_Z_le _ _)); lia).
    rewrite inject_Z_plus in I. change (inject_Z 1) with 1 in I. rewrite Qabs_pos; lra.
  - assert (inject_Z (k + 1) <= inject_Z j) as I by (apply (proj2 (inject_Z_le _ _)); lia).
    rewrite inject_Z_plus in I. change (inject_Z 1) with 1 in I. rewrite Qabs_neg; lra.
Qed.
Lemma rint_int j : round_half_even (inject_Z j) = j.
Proof.
  pose proof (nearest_integer (inject_Z j) j) as H. rewrite (Qabs_pos (inject_Z j - inject_Z j)) in H by lra.
  assert (Qabs (inject_Z j - inject_Z (round_half_even (inject_Z j))) <= 0) as H' by lra.
  apply Qabs_Qle_condition in H'. assert (inject_Z j == inject_Z (round_half_even (inject_Z j))) as E by lra.
  unfold Qeq in E. simpl in E. lia.
Qed.
Lemma rint_compat x y : x == y -> round_half_even x = round_half_even y.
Proof.
  intros E. apply Z.le_antisymm; apply round_half_even_mono; rewrite E; apply Qle_refl.
Qed.

(* ------------------------------------------------------------------ rounding positive numbers *)
Section Pos.
  Variable q : Q.
  Hypothesis P : 0 < q.
  Let e := last_digit q.
  Let k := round_half_even (q * pow2 (- e)).
  Lemma scaled : q == (q * pow2 (- e)) * pow2 e.
  Proof. rewrite <- Qmult_assoc, pow2_opp. ring. Qed.
  Lemma scaled_range : inject_Z (2 ^ 52) <= q * pow2 (- e) /\ q * pow2 (- e) < inject_Z (2 ^ 53).
  Proof.
    destruct (last_digit_range q P) as [A B]. fold e in A, B. pose proof (pow2_pos (- e)) as PP.
    assert (E52 : inject_Z (2 ^ 52) == pow2 (e + 52) * pow2 (- e)).
    { rewrite <- pow2_plus. replace (e + 52 + - e)%Z with 52%Z by lia. reflexivity. }
    assert (E53 : inject_Z (2 ^ 53) == pow2 (e + 53) * pow2 (- e)).
    { rewrite <- pow2_plus. replace (e + 53 + - e)%Z with 53%Z by lia. reflexivity. }
    rewrite E52, E53. split; [apply Qmult_le_compat_r; lra|apply Qmult_lt_r; auto].
  Qed.
  Lemma k_range : (2 ^ 52 <= k <= 2 ^ 53)%Z.
  Proof.
    destruct scaled_range as [A B]. split.
    - rewrite <- (rint_int (2 ^ 52)). now apply round_half_even_mono.
    - rewrite <- (rint_int (2 ^ 53)). apply round_half_even_mono. lra.
  Qed.
  Lemma rnd_pos_eq : rnd_pos q = inject_Z k * pow2 e.
  Proof. reflexivity. Qed.
  Lemma rnd_pos_double : is_double (rnd_pos q).
  Proof. exists k, e. split; [pose proof k_range; lia|reflexivity]. Qed.
  Lemma rnd_pos_bounds : pow2 (e + 52) <= rnd_pos q /\ rnd_pos q <= pow2 (e + 53).
  Proof.
    rewrite rnd_pos_eq. destruct k_range as [A B]. pose proof (pow2_pos e) as PP.
    rewrite (Z.add_comm e 52), (Z.add_comm e 53), !pow2_plus, !(pow2_Z 52), !(pow2_Z 53) by lia.
    split; apply Qmult_le_compat_r; try lra; now apply (proj2 (inject_Z_le _ _)).
  Qed.
  Lemma dist_scaled x : Qabs (x * pow2 e - q) == Qabs (q * pow2 (- e) - x) * pow2 e.
  Proof.
    pose proof (pow2_pos e) as PP. rewrite <- (Qabs_pos (pow2 e)) at 2 by lra. rewrite <- Qabs_Qmult.
    rewrite Qabs_Qminus. apply Qabs_wd. rewrite scaled at 1. ring.
  Qed.
  Lemma rnd_pos_error : Qabs (rnd_pos q - q) <= double_u * q.
  Proof.
    rewrite rnd_pos_eq, dist_scaled. destruct (round_half_even_spec (q * pow2 (- e))) as (k' & Ek & N & _).
    fold k in Ek. rewrite <- Ek in N. pose proof (pow2_pos e) as PP.
    apply Qle_trans with ((1#2) * pow2 e); [apply Qmult_le_compat_r; lra|].
    destruct (last_digit_range q P) as [A _]. fold e in A. rewrite Z.add_comm, pow2_plus in A.
    apply Qle_trans with (double_u * (pow2 52 * pow2 e)).
    - assert (double_u * (pow2 52 * pow2 e) == (1#2) * pow2 e) as ->; [|apply Qle_refl].
      assert (double_u * pow2 52 == 1#2) as <- by reflexivity. ring.
    - rewrite !(Qmult_comm double_u). apply Qmult_le_compat_r; [exact A|discriminate].
  Qed.
  Lemma rnd_pos_nearest : nearest_double q (rnd_pos q).
  Proof.
    split; [exact rnd_pos_double|]. intros z (m & f & M & Ez).
    pose proof (pow2_pos e) as PP.
    assert (NI : forall j, Qabs (rnd_pos q - q) <= Qabs (inject_Z j * pow2 e - q)).
    { intros j. rewrite rnd_pos_eq, !dist_scaled. apply Qmult_le_compat_r; [|lra]. apply nearest_integer. }
    destruct (Z.le_gt_cases e f) as [L|L].
    - assert (z == inject_Z (m * 2 ^ (f - e)) * pow2 e) as ->; [|apply NI].
      rewrite Ez, inject_Z_mult, <- pow2_Z by lia. change (Qpower 2 f) with (pow2 f).
      replace f with (f - e + e)%Z at 1 by lia. rewrite pow2_plus. ring.
    - assert (B : z <= pow2 (e + 52)).
      { rewrite Ez. change (Qpower 2 f) with (pow2 f). apply Qle_trans with (inject_Z (2 ^ 53) * pow2 f).
        - apply Qmult_le_compat_r; [apply (proj2 (inject_Z_le _ _)); lia|apply Qlt_le_weak, pow2_pos].
        - rewrite <- pow2_Z by lia. rewrite <- pow2_plus. apply pow2_mono. lia. }
      destruct (last_digit_range q P) as [A _]. fold e in A.
      specialize (NI (2 ^ 52)%Z). rewrite <- pow2_Z, <- pow2_plus in NI by lia. rewrite Z.add_comm in NI.
      eapply Qle_trans; [exact NI|]. rewrite !Qabs_neg by lra. lra.
  Qed.
End Pos.
Lemma rnd_pos_mono p q : 0 < p -> p <= q -> rnd_pos p <= rnd_pos q.
Proof.
  intros P L. assert (PQ : 0 < q) by lra.
  destruct (last_digit_range p P) as [A1 A2]. destruct (last_digit_range q PQ) as [B1 B2].
  destruct (Z.lt_trichotomy (last_digit p) (last_digit q)) as [H|[H|H]].
  - destruct (rnd_pos_bounds p P) as [_ X]. destruct (rnd_pos_bounds q PQ) as [Y _].
    pose proof (pow2_mono (last_digit p + 53) (last_digit q + 52) ltac:(lia)). lra.
  - rewrite !rnd_pos_eq, H. apply Qmult_le_compat_r; [|apply Qlt_le_weak, pow2_pos].
    apply (proj2 (inject_Z_le _ _)). apply round_half_even_mono.
    apply Qmult_le_compat_r; [exact L|apply Qlt_le_weak, pow2_pos].
  - pose proof (pow2_mono (last_digit q + 53) (last_digit p + 52) ltac:(lia)). lra.
Qed.

(* ------------------------------------------------------------------ rounding any number *)
Lemma rnd_cases q : (q == 0 /\ rnd q = 0) \/ (0 < q /\ rnd q = rnd_pos q) \/ (q < 0 /\ rnd q = - rnd_pos (- q)).
Proof.
  destruct q as [[|n|n] d]; unfold rnd; cbn [Qnum]; [left|right; left|right; right]; split; auto; reflexivity.
Qed.
Lemma is_double_opp x : is_double x -> is_double (- x).
Proof. intros (m & e & M & E). exists (- m)%Z, e. split; [lia|]. rewrite E, inject_Z_opp. ring. Qed.
Lemma is_double_compat x y : x == y -> is_double x -> is_double y.
Proof. intros H (m & e & M & E). exists m, e. split; auto. now rewrite <- H. Qed.
Lemma is_double_0 : is_double 0.
Proof. exists 0%Z, 0%Z. split; [lia|reflexivity]. Qed.
Lemma rnd_nearest q : nearest_double q (rnd q).
Proof.
  destruct (rnd_cases q) as [[E ->]|[[H ->]|[H ->]]].
  - split; [exact is_double_0|]. intros z _. rewrite E. assert (0 - 0 == 0) as -> by ring. apply Qabs_nonneg.
  - now apply rnd_pos_nearest.
  - destruct (rnd_pos_nearest (- q) ltac:(lra)) as [D N]. split; [now apply is_double_opp|].
    intros z Z. specialize (N (- z) (is_double_opp _ Z)).
    assert (E1 : - rnd_pos (- q) - q == - (rnd_pos (- q) - - q)) by ring.
    assert (E2 : z - q == - (- z - - q)) by ring. rewrite E1, E2, !Qabs_opp. exact N.
Qed.
Lemma rnd_double q : is_double (rnd q).
Proof. apply rnd_nearest. Qed.
Lemma rnd_exact q : is_double q -> rnd q == q.
Proof.
  intros D. destruct (rnd_nearest q) as [_ N]. specialize (N q D).
  assert (q - q == 0) as E by ring. rewrite E in N. change (Qabs 0) with 0 in N. apply Qabs_Qle_condition in N. lra.
Qed.
Lemma rnd_error q : Qabs (rnd q - q) <= double_u * Qabs q.
Proof.
  destruct (rnd_cases q) as [[E ->]|[[H ->]|[H ->]]].
  - rewrite E. discriminate.
  - rewrite (Qabs_pos q) by lra. now apply rnd_pos_error.
  - rewrite (Qabs_neg q) by lra. assert (E1 : - rnd_pos (- q) - q == - (rnd_pos (- q) - - q)) by ring.
    rewrite E1, Qabs_opp. apply rnd_pos_error. lra.
Qed.
Lemma rnd_sign q : (0 <= q -> 0 <= rnd q) /\ (q <= 0 -> rnd q <= 0).
Proof.
  assert (P : forall x, 0 < x -> 0 <= rnd_pos x).
  { intros x X. destruct (rnd_pos_bounds x X) as [A _]. pose proof (pow2_pos (last_digit x + 52)). lra. }
  destruct (rnd_cases q) as [[E ->]|[[H ->]|[H ->]]]; split; intros; try lra.
  - now apply P.
  - specialize (P (- q) ltac:(lra)). lra.
Qed.
Lemma rnd_mono p q : p <= q -> rnd p <= rnd q.
Proof.
  intros L. destruct (Qlt_le_dec 0 p) as [P|P].
  - destruct (rnd_cases p) as [[E _]|[[_ ->]|[H _]]]; try lra.
    destruct (rnd_cases q) as [[E _]|[[_ ->]|[H _]]]; try lra. now apply rnd_pos_mono.
  - destruct (Qlt_le_dec q 0) as [H|H].
    + destruct (rnd_cases p) as [[E _]|[[X _]|[_ ->]]]; try lra.
      destruct (rnd_cases q) as [[E _]|[[X _]|[_ ->]]]; try lra.
      assert (rnd_pos (- q) <= rnd_pos (- p)) by (apply rnd_pos_mono; lra). lra.
    + apply Qle_trans with 0; [now apply rnd_sign|now apply rnd_sign].
Qed.
Lemma rnd_compat p q : p == q -> rnd p == rnd q.
Proof. intros E. apply Qle_antisym; apply rnd_mono; lra. Qed.

(** Double precision is an instance of the standard model. *)
Lemma binary64_rounds : SpecFloat.rounds double_u binary64.
Proof.
  constructor; intros; cbn [fadd fsub fdiv c99 c101 binary64]; try (rewrite Qred_correct; apply rnd_error);
    vm_compute; discriminate.
Qed.
Lemma binary64_grow ws : nonneg ws -> sums_grow binary64 ws.
Proof.
  intros N acc w D A I. cbn [fadd binary64]. split.
  - eapply is_double_compat; [symmetry; apply Qred_correct|apply rnd_double].
  - rewrite Qred_correct. rewrite <- (rnd_exact acc D) at 1. apply rnd_mono. specialize (proj1 (Forall_forall _ _) N w I). cbv beta. lra.
Qed.

(* ------------------------------------------------------------------ picking *)
Section Picks.
  Variables (u : Q) (F : floats_impl).
  Hypothesis R : SpecFloat.rounds u F.
  Hypothesis U0 : 0 <= u.
  Hypothesis U1 : u <= 1.

  Lemma fl_cumsum_from_length ws : forall acc, length (fl_cumsum_from F acc ws) = length ws.
  Proof. induction ws; intros acc; simpl; auto. Qed.
  Lemma fl_cumsum_length ws : length (fl_cumsum F ws) = length ws.
  Proof. destruct ws; simpl; auto. now rewrite fl_cumsum_from_length. Qed.
  Lemma fl_cumsum_from_nth ws : forall acc i, (i < length ws)%nat ->
    nth i (fl_cumsum_from F acc ws) 0 = fold_left (fadd F) (firstn (S i) ws) acc.
  Proof.
    induction ws as [|w ws IH]; intros acc i H; [simpl in H; lia|]. destruct i as [|i]; [reflexivity|].
    cbn [fl_cumsum_from nth firstn fold_left]. rewrite IH by (simpl in H; lia). reflexivity.
  Qed.
  (** Position [i] of the cumulative sums, and where the interval of component [i] starts. *)
  Definition fl_cut (ws : list Q) (i : nat) : Q := match i with O => 0 | S j => nth j (fl_cumsum F ws) 0 end.
  Lemma fl_cut_close ws i : nonneg ws -> short_for u (length ws) -> (i <= length ws)%nat ->
    Qabs (fl_cut ws i - total (firstn i ws)) <= slack u (length ws) * total ws.
  Proof.
    intros N Sh L.
    assert (TN : forall l, Forall (fun w => 0 <= w) l -> 0 <= total l) by (intros l; induction 1; cbn [total]; lra).
    assert (T0 : 0 <= total ws) by now apply TN.
    assert (SL : 0 <= slack u (length ws)).
    { unfold slack. pose proof (nat_q_nonneg (length ws)) as X. apply Qmult_le_0_compat; [|exact U0]. lra. }
    destruct i as [|i].
    { cbn [fl_cut firstn total]. assert (0 - 0 == 0) as -> by ring. change (Qabs 0) with 0. now apply Qmult_le_0_compat. }
    destruct ws as [|w ws]; [simpl in L; lia|].
    inversion N as [|? ? Nw Nws]; subst.
    assert (FN : Forall (fun x => 0 <= x) (firstn i ws)).
    { clear -Nws. revert i. induction Nws as [|x l X F' IH]; intros i; destruct i; cbn [firstn]; constructor; auto. }
    assert (E : fl_cut (w :: ws) (S i) = fold_left (fadd F) (firstn i ws) w).
    { cbn [fl_cut fl_cumsum]. destruct i as [|i]; [reflexivity|]. cbn [nth]. apply fl_cumsum_from_nth. simpl in L. lia. }
    destruct (fold_range u F R U0 U1 _ FN w Nw) as [A B]. rewrite <- E in A, B.
    cbn [firstn total]. set (T := w + total (firstn i ws)) in *.
    assert (LE : (length (firstn i ws) <= length ws)%nat) by (rewrite firstn_length; lia).
    set (j := length (firstn i ws)) in *.
    assert (TT : 0 <= T) by (unfold T; specialize (TN _ FN); lra).
    assert (TW : T <= w + total ws).
    { unfold T. assert (total (firstn i ws) <= total ws); [|lra]. clear -Nws. revert i.
      induction Nws as [|x l X F' IH]; intros i; destruct i; cbn [firstn total]; try lra.
      - assert (0 <= total l) by (clear -F'; induction F'; cbn [total]; lra). lra.
      - specialize (IH i). lra. }
    set (nn := inject_Z (Z.of_nat (length (w :: ws)))) in *.
    set (jj := inject_Z (Z.of_nat j)).
    assert (J0 : 0 <= jj) by apply nat_q_nonneg.
    assert (JN : jj <= nn) by (unfold jj, nn; apply (proj2 (inject_Z_le _ _)); simpl; lia).
    assert (JU : jj * u <= nn * u) by (apply Qmult_le_compat_r; lra).
    assert (NU : nn * u <= 1 # 1000) by (unfold short_for in Sh; rewrite nat_S_q in Sh; fold nn in Sh; lra).
    assert (JU0 : 0 <= jj * u) by now apply Qmult_le_0_compat.
    pose proof (pow_low u j U0 U1) as PL. pose proof (pow_high u j U0 U1) as PH. fold jj in PL, PH.
    pose proof (qpow_nonneg (1 + u) j ltac:(lra)) as PN.
    assert (HI : qpow (1 + u) j <= 1 + 2 * (jj * u)).
    { set (p := qpow (1 + u) j) in *. set (x := jj * u) in *.
      assert (p <= 2).
      { assert (p * (1 - x) >= p * (1#2)) as X; [|lra].
        rewrite !(Qmult_comm p). apply Qmult_le_compat_r; lra. }
      assert (p * x <= 2 * x) by (apply Qmult_le_compat_r; lra).
      assert (p * (1 - x) == p - p * x) as Y by ring. lra. }
    assert (S1 : slack u (length (w :: ws)) == 2 * (nn * u)) by (unfold slack; fold nn; ring).
    rewrite S1. cbn [total]. apply Qabs_Qle_condition.
    assert (X1 : qpow (1 + u) j * T <= (1 + 2 * (jj * u)) * T) by (apply Qmult_le_compat_r; lra).
    assert (X2 : (1 - jj * u) * T <= qpow (1 - u) j * T) by (apply Qmult_le_compat_r; lra).
    assert (X3 : (jj * u) * T <= (nn * u) * (w + total ws)).
    { apply Qle_trans with ((nn * u) * T); [apply Qmult_le_compat_r; lra|].
      rewrite !(Qmult_comm (nn * u)). apply Qmult_le_compat_r; lra. }
    assert (X0 : 0 <= jj * u * T) by now apply Qmult_le_0_compat.
    split; lra.
  Qed.

  Lemma fl_cut_grow ws : nonneg ws -> Forall is_double ws -> sums_grow F ws ->
    forall i j, (i <= j)%nat -> (j <= length ws)%nat -> fl_cut ws i <= fl_cut ws j.
  Proof.
    intros N D G.
    assert (ST : forall l acc, (forall w, In w l -> In w ws) -> is_double acc -> 0 <= acc ->
      forall i, (S i < length (acc :: fl_cumsum_from F acc l))%nat ->
        nth i (acc :: fl_cumsum_from F acc l) 0 <= nth (S i) (acc :: fl_cumsum_from F acc l) 0).
    { induction l as [|w l IH]; intros acc I Da A i H; [simpl in H; lia|].
      destruct (G acc w Da A (I w (or_introl eq_refl))) as [G1 G2].
      destruct i as [|i]; [exact G2|]. cbn [fl_cumsum_from nth].
      apply (IH (fadd F acc w)); auto; try lra; [intros; apply I; now right|]. cbn [fl_cumsum_from length] in *. lia. }
    assert (STEP : forall i, (i < length ws)%nat -> fl_cut ws i <= fl_cut ws (S i)).
    { intros i H. destruct ws as [|w l]; [simpl in H; lia|]. inversion N; inversion D; subst.
      destruct i as [|i]; [cbn; auto|]. cbn [fl_cut fl_cumsum]. apply ST; auto; [intros; now right|].
      cbn [length]. rewrite fl_cumsum_from_length. simpl in H. lia. }
    intros i j H. induction H as [|j H IH]; intros L; [apply Qle_refl|].
    eapply Qle_trans; [apply IH; lia|]. apply STEP. lia.
  Qed.

  Lemma fl_small_cut ws r i : nonneg ws -> Forall is_double ws -> sums_grow F ws ->
    (fl_small_pick F ws r = Ok i <-> (i < length ws)%nat /\ (i = 0%nat \/ fl_cut ws i < r) /\ (S i = length ws \/ r <= fl_cut ws (S i))).
  Proof.
    intros N D G. pose proof (fl_cut_grow ws N D G) as M. unfold fl_small_pick.
    destruct (scan_spec (fl_cumsum F ws) r 0 (Err NameError)) as [(k & H1 & H2 & H3)|(H1 & H2)]; rewrite H2.
    all: rewrite fl_cumsum_length in *.
    - destruct H3 as [H3 H4]. split.
      + intros E. injection E as <-. cbn [Nat.add]. split; [exact H1|]. split; [|right; exact H3].
        destruct k as [|k]; [now left|right]. apply H4. lia.
      + intros (Hi & Hl & Hr). f_equal. cbn [Nat.add].
        destruct (Nat.lt_trichotomy k i) as [L|[L|L]]; [exfalso|exact L|exfalso].
        * destruct Hl as [->|Hl]; [lia|]. pose proof (M (S k) i ltac:(lia) ltac:(lia)) as X. cbn [fl_cut] in X. cbn in H3. 
          change (nth k (fl_cumsum F ws) 0) with (fl_cut ws (S k)) in H3. change (nth k (fl_cumsum F ws) 0) with (fl_cut ws (S k)) in X. lra.
        * destruct Hr as [Hr|Hr]; [lia|]. specialize (H4 i L). change (nth i (fl_cumsum F ws) 0) with (fl_cut ws (S i)) in H4. lra.
    - destruct (length ws) as [|m] eqn:El.
      + split; [discriminate|intros (Hi & _); lia].
      + cbn [Nat.add]. split.
        * intros E. injection E as <-. split; [lia|]. split; [|now left].
          destruct m as [|m]; [now left|right]. apply H1. lia.
        * intros (Hi & _ & Hr). f_equal. destruct Hr as [Hr|Hr]; [lia|]. exfalso. specialize (H1 i Hi).
          change (nth i (fl_cumsum F ws) 0) with (fl_cut ws (S i)) in H1. lra.
  Qed.
  Lemma fl_large_cut ws r : nonneg ws -> Forall is_double ws -> sums_grow F ws -> ws <> [] ->
    (forall i, fl_large_pick F ws r = Ok i <-> (i < length ws)%nat /\ (i = 0%nat \/ fl_cut ws i < r) /\ r <= fl_cut ws (S i)) /\
    (fl_large_pick F ws r = Err IndexError <-> fl_cut ws (length ws) < r).
  Proof.
    intros N D G NE. pose proof (fl_cut_grow ws N D G) as M.
    assert (LP : (0 < length ws)%nat) by (destruct ws; [congruence|simpl; lia]).
    unfold fl_large_pick, bisect_left.
    destruct (bisect_loop_spec (fl_cumsum F ws) r) with (fuel := length (fl_cumsum F ws)) (lo := 0%nat) (hi := length (fl_cumsum F ws))
      as (k & -> & H2 & H3 & H4); try lia.
    { intros i j Hij Hj. rewrite fl_cumsum_length in Hj. exact (M (S i) (S j) ltac:(lia) ltac:(lia)). }
    rewrite fl_cumsum_length in *.
    destruct (Nat.ltb_spec k (length ws)) as [L|L].
    - split.
      + intros i. split.
        * intros E. injection E as <-. split; [exact L|]. split; [|apply H4; lia].
          destruct k as [|k]; [now left|right]. apply H3. lia.
        * intros (Hi & Hl & Hr). f_equal. destruct (Nat.lt_trichotomy k i) as [X|[X|X]]; [exfalso|exact X|exfalso].
          -- destruct Hl as [->|Hl]; [lia|]. specialize (H4 (pred i) ltac:(lia) ltac:(lia)).
             change (nth (pred i) (fl_cumsum F ws) 0) with (fl_cut ws (S (pred i))) in H4. replace (S (pred i)) with i in H4 by lia. lra.
          -- specialize (H3 i X). change (nth i (fl_cumsum F ws) 0) with (fl_cut ws (S i)) in H3. lra.
      + split; [discriminate|]. intros X. specialize (H4 (pred (length ws)) ltac:(lia) ltac:(lia)).
        change (nth (pred (length ws)) (fl_cumsum F ws) 0) with (fl_cut ws (S (pred (length ws)))) in H4.
        replace (S (pred (length ws))) with (length ws) in H4 by lia. lra.
    - split.
      + intros i. split; [discriminate|]. intros (Hi & _ & Hr). specialize (H3 i ltac:(lia)).
        change (nth i (fl_cumsum F ws) 0) with (fl_cut ws (S i)) in H3. lra.
      + split; auto. intros _. specialize (H3 (pred (length ws)) ltac:(lia)).
        change (nth (pred (length ws)) (fl_cumsum F ws) 0) with (fl_cut ws (S (pred (length ws)))) in H3.
        replace (S (pred (length ws))) with (length ws) in H3 by lia. exact H3.
  Qed.
  Lemma fl_small_total ws r : ws <> [] -> exists i, fl_small_pick F ws r = Ok i /\ (i < length ws)%nat.
  Proof.
    intros NE. unfold fl_small_pick.
    destruct (scan_spec (fl_cumsum F ws) r 0 (Err NameError)) as [(k & H1 & H2 & _)|(H1 & H2)]; rewrite fl_cumsum_length in *.
    - exists k. auto.
    - rewrite H2. destruct ws; [congruence|]. cbn [length]. eexists; split; [reflexivity|]. simpl. lia.
  Qed.
End Picks.

(* ------------------------------------------------------------------ splitting work *)
Lemma is_double_int z : (Z.abs z <= 2 ^ 53)%Z -> is_double (inject_Z z).
Proof. intros H. exists z, 0%Z. split; auto. change (Qpower 2 0) with 1. ring. Qed.
Lemma floor_division n k : (0 <= n < 2 ^ 53)%Z -> (0 < k)%Z ->
  Qfloor (Qred (rnd (inject_Z n / inject_Z k))) = (n / k)%Z.
Proof.
  intros N K. set (x := inject_Z n / inject_Z k).
  assert (KP : 0 < inject_Z k) by (apply (proj2 (inject_Z_lt 0 k)); lia).
  pose proof (Z.div_mod n k ltac:(lia)) as DM. pose proof (Z.mod_pos_bound n k K) as MB.
  set (q := (n / k)%Z) in *. assert (Q0 : (0 <= q)%Z) by (apply Z.div_pos; lia).
  assert (QN : (q <= n)%Z) by (apply Z.div_le_upper_bound; nia).
  assert (L : inject_Z q <= x).
  { unfold x. apply Qle_shift_div_l; auto. rewrite <- inject_Z_mult. apply (proj2 (inject_Z_le _ _)). lia. }
  assert (Ux : x * inject_Z k == inject_Z n) by (unfold x; field; lra).
  assert (Hi : rnd x < inject_Z (q + 1)).
  { pose proof (rnd_error x) as E. rewrite (Qabs_pos x) in E by (assert (0 <= inject_Z q) by (apply (proj2 (inject_Z_le 0 _)); lia); lra).
    apply Qabs_Qle_condition in E as [_ E].
    apply Qle_lt_trans with (x + double_u * x); [lra|].
    apply (Qmult_lt_r _ _ (inject_Z k)); auto.
    assert ((x + double_u * x) * inject_Z k == inject_Z n + double_u * inject_Z n) as -> by (rewrite <- Ux; ring).
    assert (inject_Z n + 1 <= inject_Z (q + 1) * inject_Z k).
    { rewrite <- inject_Z_mult. change 1 with (inject_Z 1). rewrite <- inject_Z_plus. apply (proj2 (inject_Z_le _ _)). nia. }
    assert (double_u * inject_Z n < 1); [|lra].
    assert (1 == double_u * inject_Z (2 ^ 53)) as -> by reflexivity. rewrite !(Qmult_comm double_u).
    apply Qmult_lt_r; [reflexivity|]. apply (proj2 (inject_Z_lt _ _)). lia. }
  assert (Lo : inject_Z q <= rnd x).
  { rewrite <- (rnd_exact (inject_Z q)) by (apply is_double_int; lia). now apply rnd_mono. }
  assert (E : Qfloor (Qred (rnd x)) = Qfloor (rnd x)) by (apply Qfloor_comp, Qred_correct). rewrite E.
  apply Z.le_antisymm.
  - assert (inject_Z (Qfloor (rnd x)) < inject_Z (q + 1)) as X by (eapply Qle_lt_trans; [apply Qfloor_le|exact Hi]).
    apply (proj1 (inject_Z_lt _ _)) in X. lia.
  - rewrite <- (Qfloor_Z q). now apply Qfloor_resp_le.
Qed.
Lemma fl_cuts_exact n k : (0 <= n < 2 ^ 53)%Z -> (0 < k)%nat -> fl_core_cuts binary64 n k = core_cuts n k.
Proof.
  intros N K. unfold fl_core_cuts, core_cuts. cbn [fdiv binary64]. rewrite floor_division by lia. reflexivity.
Qed.
Lemma fl_cuts_total F n k cuts : fl_core_cuts F n k = Ok cuts -> length cuts = k /\ fold_right Z.add 0%Z cuts = n.
Proof.
  unfold fl_core_cuts. set (q := Qfloor _). destruct k as [|k]; [discriminate|].
  rewrite repeat_snoc, rev_app_distr. cbn [rev app]. rewrite rev_involutive. intros E. injection E as <-.
  rewrite app_length, repeat_length. split; [simpl; lia|].
  rewrite fold_left_Zadd, !fold_right_app. cbn [fold_right].
  assert (X : forall l a, fold_right Z.add a l = (fold_right Z.add 0 l + a)%Z).
  { induction l as [|z l IH]; intros a; simpl; [lia|]. rewrite IH. lia. }
  rewrite X, (X _ (q + 0)%Z). lia.
Qed.

(* ------------------------------------------------------------------ one value too many *)
Lemma too_many_noticed u F : SpecFloat.rounds u F -> 0 <= u -> u <= 1 -> forall (A : Type) ws (vs : list A),
  nonneg ws -> short_for u (length ws) -> S (length ws) = length vs -> 1002 # 1000 <= total ws ->
  exists m, fl_finish F ws vs = Err (ValueError m).
Proof.
  intros R U0 U1 A ws vs N Sh L T. destruct (sum_close u F R U0 U1 ws N Sh) as [S1 _].
  unfold fl_finish. assert (Qlt_bool (fl_sum F ws) 1 = false) as -> by (apply qlt_false; lra).
  rewrite andb_false_r. destruct (_ || _)%bool; [eauto|].
  assert (Nat.eqb (length ws) (length vs) = false) as -> by (apply Nat.eqb_neq; lia). cbn [negb]. eauto.
Qed.
Lemma cut_points ws : nonneg ws -> Forall is_double ws -> ws <> [] -> (Z.of_nat (length ws) <= 2 ^ 43 - 1)%Z ->
  exists cut : nat -> Q,
    (forall i, (i <= length ws)%nat -> Qabs (cut i - total (firstn i ws)) <= slack double_u (length ws) * total ws) /\
    (forall r i, fl_large_pick binary64 ws r = Ok i <-> (i < length ws)%nat /\ (i = 0%nat \/ cut i < r) /\ r <= cut (S i)) /\
    (forall r i, fl_small_pick binary64 ws r = Ok i <-> (i < length ws)%nat /\ (i = 0%nat \/ cut i < r) /\ (S i = length ws \/ r <= cut (S i))) /\
    (forall r, fl_large_pick binary64 ws r = Err IndexError <-> cut (length ws) < r).
Proof.
  intros N D NE L. pose proof (binary64_grow ws N) as G.
  exists (fl_cut binary64 ws). split; [|split; [|split]].
  - intros i. apply (fl_cut_close double_u binary64 binary64_rounds); [discriminate|discriminate|exact N|now apply double_short].
  - intros r. now apply (fl_large_cut binary64 ws r N D G NE).
  - intros r i. now apply fl_small_cut.
  - intros r. now apply (fl_large_cut binary64 ws r N D G NE).
Qed.
Lemma rarely_fails ws r : nonneg ws -> Forall is_double ws -> ws <> [] -> (Z.of_nat (length ws) <= 2 ^ 43 - 1)%Z ->
  r <= (1 - slack double_u (length ws)) * total ws -> exists i, fl_large_pick binary64 ws r = Ok i /\ (i < length ws)%nat.
Proof.
  intros N D NE L H. destruct (cut_points ws N D NE L) as (cut & C1 & C2 & _ & C4).
  destruct (fl_large_pick binary64 ws r) as [i|e] eqn:E.
  - exists i. split; auto. now apply C2 in E.
  - exfalso. assert (e = IndexError \/ e = Unmodelled) as [-> | ->].
    { unfold fl_large_pick in E. destruct (bisect_left _ r); [|inversion E; auto]. destruct (Nat.ltb _ _); inversion E; auto. }
    + apply C4 in E. specialize (C1 (length ws) ltac:(lia)). rewrite firstn_all in C1.
      apply Qabs_Qle_condition in C1 as [C1 _]. lra.
    + unfold fl_large_pick in E. destruct (bisect_left _ r) eqn:B; [destruct (Nat.ltb _ _); discriminate|].
      unfold bisect_left in B.
      destruct (bisect_loop_spec (fl_cumsum binary64 ws) r) with (fuel := length (fl_cumsum binary64 ws)) (lo := 0%nat) (hi := length (fl_cumsum binary64 ws))
        as (k & X & _); try lia; [|congruence].
      intros i j Hij Hj. rewrite fl_cumsum_length in Hj.
      exact (fl_cut_grow binary64 ws N D (binary64_grow ws N) (S i) (S j) ltac:(lia) ltac:(lia)).
Qed.
Lemma seven_fail : exists (vs : list Z) ws r, fl_finish binary64 (fl_equal binary64 (length vs)) vs = Ok (ws, vs) /\
  Forall is_double ws /\ uniform_draw r /\ fl_large_pick binary64 ws r = Err IndexError.
Proof.
  exists [1; 2; 3; 4; 5; 6; 7]%Z. eexists. exists ((2 ^ 53 - 1) # 2 ^ 53). split; [vm_compute; reflexivity|].
  split; [|split; [exists (2 ^ 53 - 1)%Z; split; [lia|reflexivity]|vm_compute; reflexivity]].
  repeat constructor; (exists 5146971002709138%Z, (-55)%Z; split; [lia|vm_compute; reflexivity]).
Qed.
Lemma eleven_accepted : exists ws (vs : list Z) ws' , Forall is_double ws /\ 1 < total ws /\ S (length ws) = length vs /\
    fl_finish binary64 ws vs = Ok (ws', vs) /\ last ws' 0 == 1 # 2 ^ 53.
Proof.
  exists (repeat (rnd (1#10)) 10), [1; 2; 3; 4; 5; 6; 7; 8; 9; 10; 11]%Z. eexists.
  split; [repeat constructor; apply rnd_double|]. split; [vm_compute; reflexivity|]. split; [reflexivity|].
  split; [vm_compute; reflexivity|]. vm_compute. reflexivity.
Qed.
