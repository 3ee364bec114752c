(** Weights under floating-point rounding (C121). *)
From Verif Require Import Base M_Weights SpecWeights P_Weights M_Float SpecFloat.
From Coq Require Import Lqa Qabs.
Open Scope Q_scope.

Fixpoint qpow (x : Q) (n : nat) : Q := match n with O => 1 | S k => x * qpow x k end.
Lemma qpow_nonneg x n : 0 <= x -> 0 <= qpow x n.
Proof. intros H. induction n; simpl; [lra|]. now apply Qmult_le_0_compat. Qed.
Lemma nat_S_q n : inject_Z (Z.of_nat (S n)) == inject_Z (Z.of_nat n) + 1.
Proof. rewrite Nat2Z.inj_succ. unfold Z.succ. rewrite inject_Z_plus. reflexivity. Qed.
Lemma nat_q_nonneg n : 0 <= inject_Z (Z.of_nat n).
Proof. change 0 with (inject_Z 0). rewrite <- Zle_Qle. lia. Qed.

Lemma pow_low u n : 0 <= u -> u <= 1 -> 1 - inject_Z (Z.of_nat n) * u <= qpow (1 - u) n.
Proof.
  intros U0 U1. induction n; [change (inject_Z (Z.of_nat 0)) with 0; cbn [qpow]; lra|]. rewrite nat_S_q. cbn [qpow].
  pose proof (nat_q_nonneg n) as N.
  set (k := inject_Z (Z.of_nat n)) in *.
  assert ((1 - u) * (1 - k * u) <= (1 - u) * qpow (1 - u) n).
  { rewrite (Qmult_comm (1 - u)), (Qmult_comm (1 - u) (qpow _ _)). apply Qmult_le_compat_r; lra. }
  assert (0 <= k * u * u) by (apply Qmult_le_0_compat; [now apply Qmult_le_0_compat|auto]). lra.
Qed.
Lemma pow_prod u n : qpow (1 + u) n * qpow (1 - u) n == qpow (1 - u * u) n.
Proof. induction n; cbn [qpow]; [reflexivity|]. rewrite <- IHn. ring. Qed.
Lemma pow_le_1 x n : 0 <= x -> x <= 1 -> qpow x n <= 1.
Proof.
  intros A B. induction n; cbn [qpow]; [lra|]. pose proof (qpow_nonneg x n A).
  apply Qle_trans with (1 * qpow x n); [now apply Qmult_le_compat_r|lra].
Qed.
Lemma pow_high u n : 0 <= u -> u <= 1 -> qpow (1 + u) n * (1 - inject_Z (Z.of_nat n) * u) <= 1.
Proof.
  intros U0 U1. apply Qle_trans with (qpow (1 + u) n * qpow (1 - u) n).
  - rewrite (Qmult_comm (qpow (1 + u) n)), (Qmult_comm (qpow (1 + u) n)). apply Qmult_le_compat_r.
    + now apply pow_low.
    + apply qpow_nonneg. lra.
  - rewrite pow_prod. assert (u * u <= 1 * u) by (apply Qmult_le_compat_r; lra).
    assert (0 <= u * u) by (now apply Qmult_le_0_compat). apply pow_le_1; lra.
Qed.

Lemma qabs_range x b : Qabs x <= b -> - b <= x <= b.
Proof. intros H. now apply Qabs_Qle_condition. Qed.

Section Sums.
  Variables (u : Q) (F : floats_impl).
  Hypothesis R : rounds u F.
  Hypothesis U0 : 0 <= u.
  Hypothesis U1 : u <= 1.

  Lemma fadd_range a b : 0 <= a + b -> (1 - u) * (a + b) <= fadd F a b <= (1 + u) * (a + b).
  Proof.
    intros H. pose proof (r_add _ _ R a b) as E. rewrite (Qabs_pos (a + b) H) in E. apply qabs_range in E. lra.
  Qed.
  Lemma fold_range l : Forall (fun w => 0 <= w) l -> forall a, 0 <= a ->
    qpow (1 - u) (length l) * (a + total l) <= fold_left (fadd F) l a <= qpow (1 + u) (length l) * (a + total l).
  Proof.
    induction 1 as [|w l W F' IH]; intros a A.
    - cbn [fold_left length qpow total]. lra.
    - cbn [fold_left length qpow total].
      pose proof (fadd_range a w ltac:(lra)) as [L H].
      assert (P : 0 <= fadd F a w).
      { eapply Qle_trans; [|exact L]. apply Qmult_le_0_compat; lra. }
      destruct (IH _ P) as [I1 I2].
      assert (Q0 : 0 <= total l) by (clear -F'; induction F'; cbn [total]; lra).
      pose proof (qpow_nonneg (1 - u) (length l) ltac:(lra)) as B1.
      pose proof (qpow_nonneg (1 + u) (length l) ltac:(lra)) as B2.
      set (p := qpow (1 - u) (length l)) in *. set (q := qpow (1 + u) (length l)) in *.
      split.
      + eapply Qle_trans; [|exact I1].
        assert (E : (1 - u) * p * (a + (w + total l)) == p * ((1 - u) * (a + w) + (1 - u) * total l)) by ring.
        rewrite E, (Qmult_comm p), (Qmult_comm p). apply Qmult_le_compat_r; auto.
        assert ((1 - u) * total l <= 1 * total l) by (apply Qmult_le_compat_r; lra). lra.
      + eapply Qle_trans; [exact I2|].
        assert (E : (1 + u) * q * (a + (w + total l)) == q * ((1 + u) * (a + w) + (1 + u) * total l)) by ring.
        rewrite E, (Qmult_comm q), (Qmult_comm q). apply Qmult_le_compat_r; auto.
        assert (1 * total l <= (1 + u) * total l) by (apply Qmult_le_compat_r; lra). lra.
  Qed.
  (** The rounded sum of a short list is within a thousandth (relative). *)
  Lemma sum_close l : Forall (fun w => 0 <= w) l -> short_for u (length l) ->
    (999#1000) * total l <= fl_sum F l /\ (999#1000) * fl_sum F l <= total l.
  Proof.
    intros W Sh. unfold fl_sum. destruct (fold_range l W 0 ltac:(lra)) as [L H].
    rewrite Qplus_0_l in L, H. unfold short_for in Sh. rewrite nat_S_q in Sh.
    pose proof (pow_low u (length l) U0 U1) as PL. pose proof (pow_high u (length l) U0 U1) as PH.
    pose proof (qpow_nonneg (1 + u) (length l) ltac:(lra)) as PN.
    assert (Q0 : 0 <= total l) by (clear -W; induction W; cbn [total]; lra).
    set (k := inject_Z (Z.of_nat (length l))) in *.
    assert (K : k * u <= 1#1000) by lra.
    set (p := qpow (1 - u) (length l)) in *. set (q := qpow (1 + u) (length l)) in *.
    assert (Lp : (999#1000) <= p) by lra.
    assert (Hq : q * (999#1000) <= 1).
    { eapply Qle_trans; [|exact PH]. rewrite (Qmult_comm q), (Qmult_comm q). apply Qmult_le_compat_r; lra. }
    split.
    - eapply Qle_trans; [|exact L]. now apply Qmult_le_compat_r.
    - apply Qle_trans with ((999#1000) * (q * total l)).
      + rewrite (Qmult_comm (999#1000)), (Qmult_comm (999#1000)). apply Qmult_le_compat_r; lra.
      + assert (E : (999#1000) * (q * total l) == q * (999#1000) * total l) by ring. rewrite E.
        apply Qle_trans with (1 * total l); [now apply Qmult_le_compat_r|lra].
  Qed.

  Context {A : Type}.
  Lemma qle_false a b : Qle_bool a b = false <-> b < a.
  Proof.
    split; intros H.
    - apply Qnot_le_lt. intros C. apply Qle_bool_iff in C. congruence.
    - apply not_true_is_false. intros C. apply Qle_bool_iff in C. lra.
  Qed.
  Lemma short_u l : short_for u l -> u <= 1#1000.
  Proof.
    unfold short_for. rewrite nat_S_q. pose proof (nat_q_nonneg l) as N. intros H.
    assert (0 <= inject_Z (Z.of_nat l) * u) by now apply Qmult_le_0_compat. lra.
  Qed.
  Lemma filter_nonneg (ws : list Q) : forall (vs : list A), Forall (fun w => 0 <= w) ws -> length ws = length vs ->
    exists r, filter_loop ws vs = Ok r /\ combine (fst r) (snd r) = filter (fun p => Qlt_bool 0 (fst p)) (combine ws vs).
  Proof.
    induction ws as [|w ws IH]; intros [|v vs] W L; try discriminate; [eexists; split; reflexivity|].
    inversion W; subst. simpl in L. destruct (IH vs H2) as (r & E & C); [lia|].
    cbn [filter_loop combine filter fst]. rewrite (proj2 (Qlt_bool_false w 0)) by lra. rewrite E. cbn [bind].
    destruct (Qlt_bool 0 w); eexists; split; try reflexivity; cbn; [now f_equal|auto].
  Qed.
  (** Sums near 1 are accepted, sums off by two percent are not. *)
  Lemma fl_accepts ws (vs : list A) : Forall (fun w => 0 <= w) ws -> short_for u (length ws) -> length ws = length vs ->
    995#1000 <= total ws -> total ws <= 1005#1000 ->
    exists r, fl_finish F ws vs = Ok r /\ combine (fst r) (snd r) = filter (fun p => Qlt_bool 0 (fst p)) (combine ws vs).
  Proof.
    intros W Sh L S1 S2. destruct (sum_close ws W Sh) as [C1 C2]. pose proof (short_u _ Sh) as SU.
    pose proof (r_99 _ _ R) as B1. pose proof (r_101 _ _ R) as B2. apply qabs_range in B1. apply qabs_range in B2.
    unfold fl_finish. cbv zeta.
    replace (Nat.eqb (S (length ws)) (length vs)) with false by (symmetry; apply Nat.eqb_neq; lia). cbn [andb].
    rewrite (proj2 (qle_false (fl_sum F ws) (c99 F))) by lra.
    rewrite (proj2 (qle_false (c101 F) (fl_sum F ws))) by lra. cbn [orb].
    rewrite L, Nat.eqb_refl. cbn [negb]. now apply filter_nonneg.
  Qed.
  Lemma fl_rejects ws (vs : list A) : Forall (fun w => 0 <= w) ws -> short_for u (length ws) -> length ws = length vs ->
    total ws <= 98#100 \/ 102#100 <= total ws -> fl_finish F ws vs = Err (ValueError "weights don't sum to 1").
  Proof.
    intros W Sh L So. destruct (sum_close ws W Sh) as [C1 C2]. pose proof (short_u _ Sh) as SU.
    pose proof (r_99 _ _ R) as B1. pose proof (r_101 _ _ R) as B2. apply qabs_range in B1. apply qabs_range in B2.
    unfold fl_finish. cbv zeta.
    replace (Nat.eqb (S (length ws)) (length vs)) with false by (symmetry; apply Nat.eqb_neq; lia). cbn [andb].
    assert (Qle_bool (fl_sum F ws) (c99 F) || Qle_bool (c101 F) (fl_sum F ws) = true) as ->; [|reflexivity].
    apply orb_true_iff. destruct So as [So|So]; [left|right]; apply Qle_bool_iff; lra.
  Qed.
  (** Weights left out are 1/n each: always accepted, nothing dropped. *)
  Lemma filter_pos (w : Q) (vs : list A) : 0 < w -> filter_loop (repeat w (length vs)) vs = Ok (repeat w (length vs), vs).
  Proof.
    intros W. induction vs as [|v vs IH]; [reflexivity|]. cbn [length repeat filter_loop].
    rewrite (proj2 (Qlt_bool_false w 0)) by lra. rewrite IH. cbn [bind fst snd].
    rewrite (proj2 (Qlt_bool_iff 0 w)) by lra. reflexivity.
  Qed.
  Lemma qsum_repeat w n : total (repeat w n) == inject_Z (Z.of_nat n) * w.
  Proof. induction n; [cbn; ring|]. rewrite nat_S_q. cbn [repeat total]. rewrite IHn. ring. Qed.
  Lemma fl_equal_accepted (vs : list A) : vs <> [] -> short_for u (length vs) ->
    exists w, fl_finish F (fl_equal F (length vs)) vs = Ok (repeat w (length vs), vs) /\
      Qabs (w - 1 / inject_Z (Z.of_nat (length vs))) <= u / inject_Z (Z.of_nat (length vs)).
  Proof.
    intros N Sh. set (n := length vs) in *. pose proof (short_u _ Sh) as SU.
    assert (Np : 0 < inject_Z (Z.of_nat n)).
    { change 0 with (inject_Z 0). rewrite <- Zlt_Qlt. destruct vs; [congruence|]. simpl in n. lia. }
    set (k := inject_Z (Z.of_nat n)) in *.
    pose proof (r_div _ _ R 1 k ltac:(lra)) as E.
    assert (P : 0 < 1 / k) by (apply Qlt_shift_div_l; lra).
    rewrite (Qabs_pos (1 / k)) in E by lra.
    set (w := fdiv F 1 k) in *. exists w.
    assert (E' : u * (1 / k) == u / k) by (field; lra).
    split; [|now rewrite <- E'].
    apply qabs_range in E.
    assert (UK : u * (1 / k) <= (1#1000) * (1 / k)) by (apply Qmult_le_compat_r; lra).
    assert (W : 0 < w) by lra.
    assert (KK : k * (1 / k) == 1) by (field; lra).
    assert (S1 : (999#1000) <= k * w).
    { assert (k * ((999#1000) * (1 / k)) <= k * w); [|lra].
      rewrite (Qmult_comm k), (Qmult_comm k). apply Qmult_le_compat_r; lra. }
    assert (S2 : k * w <= (1001#1000)).
    { assert (k * w <= k * ((1001#1000) * (1 / k))); [|lra].
      rewrite (Qmult_comm k), (Qmult_comm k). apply Qmult_le_compat_r; lra. }
    destruct (fl_accepts (repeat w n) vs) as (r & H & _).
    - apply Forall_forall. intros x Hx. apply repeat_spec in Hx. subst. lra.
    - rewrite repeat_length. exact Sh.
    - apply repeat_length.
    - rewrite qsum_repeat. fold k. lra.
    - rewrite qsum_repeat. fold k. lra.
    - unfold fl_equal. fold k. fold w. revert H. unfold fl_finish. cbv zeta.
      replace (Nat.eqb (S (length (repeat w n))) (length vs)) with false
        by (symmetry; apply Nat.eqb_neq; rewrite repeat_length; lia). cbn [andb].
      destruct (_ || _); [discriminate|]. destruct (negb _); [discriminate|]. intros _.
      now apply filter_pos.
  Qed.

  (** A last weight left out is the remainder. *)
  Lemma fl_inferred ws (vs : list A) : Forall (fun w => 0 <= w) ws -> short_for u (length ws) ->
    S (length ws) = length vs -> total ws <= 998#1000 ->
    exists w, fl_finish F ws vs = filter_loop (ws ++ [w]) vs /\ 0 <= w /\ Qabs (total ws + w - 1) <= 3#1000.
  Proof.
    intros W Sh L T. destruct (sum_close ws W Sh) as [C1 C2]. pose proof (short_u _ Sh) as SU.
    assert (T0 : 0 <= total ws) by (clear -W; induction W; cbn [total]; lra).
    unfold fl_finish. cbv zeta. rewrite L, Nat.eqb_refl. set (s := fl_sum F ws) in *.
    rewrite (proj2 (Qlt_bool_iff s 1)) by lra. cbn [andb].
    exists (fsub F 1 s). split; auto.
    pose proof (r_sub _ _ R 1 s) as E. rewrite (Qabs_pos (1 - s)) in E by lra. apply qabs_range in E.
    assert (B : u * (1 - s) <= (1#1000) * (1 - s)) by (apply Qmult_le_compat_r; lra).
    split; [lra|]. apply Qabs_Qle_condition. lra.
  Qed.

  (** Relative weights, normalised: they sum to 1 up to two thousandths. *)
  Lemma fl_normalized ws : Forall (fun w => 0 <= w) ws -> short_for u (length ws) -> 0 < total ws ->
    (998#1000) <= total (fl_normalize F ws) /\ total (fl_normalize F ws) <= (1003#1000) /\
    Forall (fun w => 0 <= w) (fl_normalize F ws).
  Proof.
    intros W Sh P. destruct (sum_close ws W Sh) as [C1 C2]. pose proof (short_u _ Sh) as SU.
    unfold fl_normalize. set (s := fl_sum F ws) in *.
    assert (Sp : 0 < s) by lra.
    assert (G : forall l, Forall (fun w => 0 <= w) l ->
      (1 - u) * (total l / s) <= total (map (fun w => fdiv F w s) l) <= (1 + u) * (total l / s) /\
      Forall (fun w => 0 <= w) (map (fun w => fdiv F w s) l)).
    { induction 1 as [|w l H F' [IH IF]].
      - cbn. assert (0 / s == 0) as -> by (field; lra). split; [lra|constructor].
      - cbn [map total]. pose proof (r_div _ _ R w s ltac:(lra)) as E.
        assert (D : 0 <= w / s) by (apply Qle_shift_div_l; lra).
        rewrite (Qabs_pos (w / s) D) in E. apply qabs_range in E.
        assert (X : (w + total l) / s == w / s + total l / s) by (field; lra). rewrite X.
        assert (Z : 0 <= (1 - u) * (w / s)) by (apply Qmult_le_0_compat; lra).
        split; [lra|]. constructor; [lra|exact IF]. }
    destruct (G ws W) as [[G1 G2] G3]. split; [|split]; auto.
    - assert (D : (999#1000) <= total ws / s) by (apply Qle_shift_div_l; lra).
      eapply Qle_trans; [|exact G1].
      apply Qle_trans with ((999#1000) * (999#1000)); [lra|].
      apply Qle_trans with ((1 - u) * (999#1000)); [apply Qmult_le_compat_r; lra|].
      rewrite (Qmult_comm (1 - u)), (Qmult_comm (1 - u)). apply Qmult_le_compat_r; lra.
    - assert (D : total ws / s <= (1001#1000) + (1#100000)).
      { apply Qle_shift_div_r; auto. lra. }
      assert (D0 : 0 <= total ws / s) by (apply Qle_shift_div_l; lra).
      eapply Qle_trans; [exact G2|].
      apply Qle_trans with ((1001#1000) * (total ws / s)); [apply Qmult_le_compat_r; lra|]. lra.
  Qed.
End Sums.

Lemma double_short n : (Z.of_nat n <= 2 ^ 43 - 1)%Z -> short_for double_u n.
Proof.
  intros H. unfold short_for, double_u. rewrite Nat2Z.inj_succ. unfold Qle, Qmult, inject_Z. cbn [Qnum Qden].
  change (2 ^ 43)%Z with 8796093022208%Z in H. change (2 ^ 53)%positive with 9007199254740992%positive.
  rewrite Pos2Z.inj_mul. lia.
Qed.
Lemma exact_rounds u : 0 <= u -> rounds u exact_floats.
Proof.
  intros U. assert (Z : forall x, Qabs (x - x) <= u * Qabs x).
  { intros x. assert (E : x - x == 0) by ring. rewrite E. change (Qabs 0) with 0. apply Qmult_le_0_compat; auto. apply Qabs_nonneg. }
  constructor; cbn [exact_floats fadd fsub fdiv c99 c101]; intros; try apply Z; (eapply Qle_trans; [|exact U]); discriminate.
Qed.
Lemma high_rounds : rounds (1#1024) high_floats.
Proof.
  assert (Z : forall x, Qabs (x * (1 + (1#1024)) - x) <= (1#1024) * Qabs x).
  { intros x. assert (E : x * (1 + (1#1024)) - x == (1#1024) * x) by ring. rewrite E, Qabs_Qmult. apply Qle_refl. }
  constructor; cbn [high_floats fadd fsub fdiv c99 c101]; intros; try apply Z; discriminate.
Qed.

(** With exact operations this is the check of the exact model. *)
Lemma exact_is_finish {A} ws (vs : list A) :
  fl_finish exact_floats ws vs = fst (finish false (map Num ws) PCaller vs).
Proof.
  unfold fl_finish, finish. rewrite any_na_num, cell_q_num. cbv zeta. unfold fl_sum, exact_floats, qsum. cbn [fadd fsub c99 c101].
  destruct (_ && _); [reflexivity|]. destruct (_ || _); [reflexivity|]. destruct (negb _); reflexivity.
Qed.
Lemma exact_equal n : map Num (fl_equal exact_floats n) = equal_weights n.
Proof. unfold fl_equal, equal_weights. cbn [exact_floats fdiv]. generalize (1 / inject_Z (Z.of_nat n)). intros w. induction n; cbn; [reflexivity|now f_equal]. Qed.
