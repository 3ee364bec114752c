(** Powers with infinities (C125), operators on texts (C17), exponentials and logarithms
    of single samples (C90). *)
From Verif Require Import Base M_Values M_Sampler M_Ops SpecSampler SpecOps SpecLimits P_Sampler P_Count P_Clip P_Ops P_Limits.
From Coq Require Import Lqa Qabs.
Open Scope Q_scope.

(* ---------------------------------------------------------------- sizes of powers *)
Lemma pow_ge y k : 1 <= y -> (1 <= k)%Z -> y <= y ^ k.
Proof. intros Y K. rewrite <- (Qpower_1_r y) at 1. now apply Qpower_le_compat_l. Qed.
Lemma pow_le_inv y k : 1 <= y -> (k <= -1)%Z -> y ^ k <= / y.
Proof.
  intros Y K. replace k with (- - k)%Z by lia. rewrite Qpower_opp.
  assert (P : y <= y ^ (- k)) by (apply pow_ge; [assumption|lia]).
  apply Qle_shift_inv_r; [|]; [apply Qlt_le_trans with y; lra|].
  rewrite Qmult_comm. apply Qle_shift_div_l with (c := y); lra.
Qed.
Lemma pow_abs y k : Qabs (y ^ k) == Qabs y ^ k.
Proof.
  assert (P : forall p, Qabs (Qpower_positive y p) == Qpower_positive (Qabs y) p).
  { intros p. induction p as [|p IH] using Pos.peano_ind.
    - reflexivity.
    - rewrite <- Pos.add_1_l, !Qpower_plus_positive, Qabs_Qmult, IH. reflexivity. }
  destruct k as [|p|p]; cbn [Qpower].
  - reflexivity.
  - apply P.
  - destruct (Qeq_dec y 0) as [E|E].
    + assert (A : Qpower_positive y p == 0) by (rewrite E; apply Qpower_positive_0).
      assert (B : Qpower_positive (Qabs y) p == 0) by (rewrite <- P, A; reflexivity).
      rewrite A, B. reflexivity.
    + assert (A := Qpower_not_0_positive y p E). rewrite <- P.
      set (z := Qpower_positive y p) in *.
      assert (B : ~ Qabs z == 0).
      { intros C. apply A. apply Qle_antisym; [apply Qle_trans with (Qabs z); [apply Qle_Qabs|lra]|].
        assert (- z <= Qabs (- z)) by apply Qle_Qabs. rewrite Qabs_opp in H. lra. }
      apply (Qmult_inj_r _ _ (Qabs z)); auto. rewrite <- Qabs_Qmult.
      rewrite Qmult_comm, Qmult_inv_r by assumption. rewrite (Qmult_comm (/ Qabs z)), Qmult_inv_r by assumption. reflexivity.
Qed.
Lemma pow_opp_even y m : (- y) ^ (2 * m) == y ^ (2 * m).
Proof. rewrite !Qpower_mult. apply Qpower_comp; [|reflexivity]. change ((- y) * (- y) == y * y). ring. Qed.
Lemma pow_opp_odd y m : ~ y == 0 -> (- y) ^ (2 * m + 1) == - y ^ (2 * m + 1).
Proof.
  intros N. assert (N' : ~ - y == 0) by (intros C; apply N; lra).
  rewrite !Qpower_plus by assumption. rewrite pow_opp_even, !Qpower_1_r. ring.
Qed.
Lemma red_inject k : Qred (inject_Z k) = inject_Z k.
Proof.
  unfold inject_Z, Qred. pose proof (Z.ggcd_gcd k 1) as G. pose proof (Z.ggcd_correct_divisors k 1) as D.
  destruct (Z.ggcd k 1) as [g [a b]]. cbn in *. rewrite Z.gcd_1_r in G. subst g. destruct D as [A B].
  rewrite Z.mul_1_l in A, B. subst. reflexivity.
Qed.
Lemma odd_inject k : odd_q (inject_Z k) = Z.odd k.
Proof. unfold odd_q, is_int_q, q_to_z. now rewrite red_inject. Qed.

Lemma ltb_yes a b : a < b -> Qlt_bool a b = true.
Proof. intros H. unfold Qlt_bool. apply negb_true_iff, not_true_is_false. intros C. apply Qle_bool_iff in C. lra. Qed.
Lemma ltb_no a b : b <= a -> Qlt_bool a b = false.
Proof. intros H. unfold Qlt_bool. apply negb_false_iff, Qle_bool_iff. exact H. Qed.

(* ---------------------------------------------------------------- infinite bases *)
Lemma base_up f k : tends f PInf -> (1 <= k)%Z -> tends (fun n => f n ^ k) PInf.
Proof.
  intros F K B. apply (ev_imp _ _) with (2 := ev_and _ _ (F 1) (F B)). intros n [A C].
  apply Qlt_le_trans with (f n); auto. apply pow_ge; [lra|assumption].
Qed.
Lemma base_down f k : tends (fun n => Qabs (f n)) PInf -> (k <= -1)%Z -> tends (fun n => f n ^ k) (Fin 0).
Proof.
  intros F K e P. pose proof (inv_inf _ F e P) as I. apply (ev_imp _ _) with (2 := ev_and _ _ (F 1) I).
  intros n [A C]. assert (E : f n ^ k - 0 == f n ^ k) by ring. rewrite E, pow_abs.
  apply Qle_lt_trans with (/ Qabs (f n)); [apply pow_le_inv; [lra|assumption]|].
  apply Qle_lt_trans with (2 := C). apply Qle_trans with (/ Qabs (f n) - 0); [lra|apply Qle_Qabs].
Qed.
Lemma abs_up f a : a = PInf \/ a = NInf -> tends f a -> tends (fun n => Qabs (f n)) PInf.
Proof.
  intros [-> | ->] F B.
  - apply (ev_imp _ _) with (2 := F B). intros n H. apply Qlt_le_trans with (f n); [assumption|apply Qle_Qabs].
  - apply (ev_imp _ _) with (2 := F (- B)). intros n H. apply Qlt_le_trans with (- f n); [lra|].
    rewrite <- Qabs_opp. apply Qle_Qabs.
Qed.
Lemma infinite_base pw arr k a : a = PInf \/ a = NInf ->
  exists r, binop pw arr Pow (PFlt a) (PFlt (Fin (inject_Z k))) = Ok (PFlt r) /\
  forall f, tends f a -> tends (fun n => f n ^ k) r.
Proof.
  intros Ha. destruct (Z.eq_dec k 0) as [-> |K].
  { exists (Fin 1). split; [destruct Ha; subst; reflexivity|]. intros f _. apply (tends_ext (fun _ => 1)); [intros n; reflexivity|apply const_tends]. }
  assert (Z : Qeq_bool (inject_Z k) 0 = false).
  { apply not_true_is_false. intros C. apply Qeq_bool_iff in C. apply K. now apply inject_Z_injective. }
  destruct (Z_lt_le_dec 0 k) as [P|P].
  - assert (L : Qlt_bool 0 (inject_Z k) = true) by (apply ltb_yes; change 0 with (inject_Z 0); rewrite <- Zlt_Qlt; lia).
    destruct Ha as [-> | ->].
    + exists PInf. split; [cbn [binop as_x fop xpow]; now rewrite Z, L|]. intros f F. apply base_up; [assumption|lia].
    + exists (if Z.odd k then NInf else PInf). split; [cbn [binop as_x fop xpow]; now rewrite Z, L, odd_inject|].
      intros f F. pose proof (tends_neg _ _ F) as F'. cbn [xneg] in F'.
      destruct (Z.odd k) eqn:E.
      * apply Z.odd_spec in E as (m & ->). apply tends_neg'. cbn [xneg].
        intros B. apply (ev_imp _ _) with (2 := ev_and _ _ (F 0) (base_up _ (2 * m + 1) F' ltac:(lia) B)). intros n [N H].
        rewrite pow_opp_odd in H by lra. exact H.
      * assert (Ev : Z.even k = true) by (rewrite <- Z.negb_odd, E; reflexivity). apply Z.even_spec in Ev as (m & ->).
        apply (tends_ext (fun n => (- f n) ^ (2 * m))); [intros n; apply pow_opp_even|]. apply base_up; [assumption|lia].
  - assert (L : Qlt_bool 0 (inject_Z k) = false) by (apply ltb_no; change 0 with (inject_Z 0); rewrite <- Zle_Qle; lia).
    exists (Fin 0). split; [destruct Ha; subst; cbn [binop as_x fop xpow]; now rewrite Z, L|].
    intros f F. apply base_down; [eapply abs_up; eauto|lia].
Qed.

(* ---------------------------------------------------------------- infinite exponents *)
Lemma bernoulli h k : 0 <= h -> (0 <= k)%Z -> 1 + inject_Z k * h <= (1 + h) ^ k.
Proof.
  intros H. revert k. apply natlike_ind.
  - change (1 + 0 * h <= 1). lra.
  - intros k K IH. unfold Z.succ. rewrite Qpower_plus by lra. rewrite Qpower_1_r, inject_Z_plus. change (inject_Z 1) with 1.
    assert (0 <= inject_Z k) by (change 0 with (inject_Z 0); rewrite <- Zle_Qle; assumption).
    assert (0 <= inject_Z k * h * h) by (repeat apply Qmult_le_0_compat; assumption).
    apply Qle_trans with ((1 + inject_Z k * h) * (1 + h)); [lra|]. apply Qmult_le_compat_r; [assumption|lra].
Qed.
Lemma zs_neg ks : zs_tend ks NInf -> zs_tend (fun n => (- ks n)%Z) PInf.
Proof.
  intros H. apply (tends_ext (fun n => - inject_Z (ks n))); [intros n; now rewrite inject_Z_opp|].
  exact (tends_neg _ _ H).
Qed.
Lemma grow f ks d : 0 < d -> SpecLimits.eventually (fun n => 1 + d <= f n) -> zs_tend ks PInf -> tends (fun n => f n ^ ks n) PInf.
Proof.
  intros D F K B. apply (ev_imp _ _) with (2 := ev_and3 _ _ _ F (K 0) (K (B / d))). intros n (A & P & C).
  assert (K0 : (0 <= ks n)%Z) by (change 0 with (inject_Z 0) in P; rewrite <- Zlt_Qlt in P; lia).
  assert (E : 1 + (f n - 1) == f n) by ring.
  pose proof (bernoulli (f n - 1) (ks n) ltac:(lra) K0) as G. rewrite E in G.
  apply Qlt_le_trans with (2 := G).
  assert (B < inject_Z (ks n) * d).
  { apply (Qmult_lt_r _ _ d D) in C. assert (B / d * d == B) by (field; lra). lra. }
  assert (inject_Z (ks n) * d <= inject_Z (ks n) * (f n - 1)).
  { rewrite !(Qmult_comm (inject_Z (ks n))). apply Qmult_le_compat_r; lra. }
  lra.
Qed.
Lemma shrink f ks d : 0 < d -> SpecLimits.eventually (fun n => 1 + d <= f n) -> zs_tend ks NInf -> tends (fun n => f n ^ ks n) (Fin 0).
Proof.
  intros D F K. pose proof (inv_inf _ (grow f _ d D F (zs_neg _ K))) as H.
  apply (tends_ext _ _ _) with (2 := H). intros n. rewrite Qpower_opp. apply Qinv_involutive.
Qed.
Lemma flip (f : nat -> Q) (ks : nat -> Z) n : (/ f n) ^ (- ks n) == f n ^ ks n.
Proof. rewrite Qpower_opp, Qinv_power. apply Qinv_involutive. Qed.
Lemma zs_neg' ks : zs_tend ks PInf -> zs_tend (fun n => (- ks n)%Z) NInf.
Proof.
  intros H. apply (tends_ext (fun n => - inject_Z (ks n))); [intros n; now rewrite inject_Z_opp|].
  exact (tends_neg _ _ H).
Qed.
Lemma infinite_exponent pw arr x b : b = PInf \/ b = NInf -> (b = NInf -> ~ x == 0) ->
  exists r, binop pw arr Pow (PFlt (Fin x)) (PFlt b) = Ok (PFlt r) /\
  forall ks, zs_tend ks b -> tends (fun n => Qabs x ^ ks n) r.
Proof.
  intros Hb Hx. pose proof (Qabs_nonneg x) as P.
  destruct (Qcompare_spec (Qabs x) 1) as [E|E|E].
  - exists (Fin 1). split.
    + destruct Hb; subst; cbn [binop as_x fop xpow]; rewrite (proj1 (Qeq_alt _ _) E); reflexivity.
    + intros ks _. apply (tends_ext (fun _ => 1)); [|apply const_tends]. intros n. rewrite E. symmetry. apply Qpower_1.
  - destruct (Qeq_dec x 0) as [Z|Z].
    { destruct Hb as [-> | ->]; [|exfalso; now apply Hx]. exists (Fin 0). split.
      - cbn [binop as_x fop xpow]. rewrite (proj1 (Qlt_alt _ _) E). reflexivity.
      - intros ks K e Pe. apply (ev_imp _ _) with (2 := K 0). intros n H.
        assert (ks n <> 0)%Z. { intros C. rewrite C in H. apply (Qlt_irrefl 0). exact H. }
        assert (A : Qabs x == 0) by (rewrite Z; reflexivity). rewrite A, Qpower_0 by assumption. exact Pe. }
    assert (P' : 0 < Qabs x).
    { destruct (Qle_lt_or_eq _ _ P) as [L|L]; auto. exfalso. apply Z. symmetry in L.
      assert (- 0 <= x /\ x <= 0) as [? ?] by (apply Qabs_Qle_condition; lra). lra. }
    assert (I : 1 < / Qabs x) by (apply Qlt_shift_inv_l; lra).
    set (d := / Qabs x - 1). assert (D : 0 < d) by (unfold d; lra).
    assert (F : SpecLimits.eventually (fun _ : nat => 1 + d <= / Qabs x)) by (exists 0%nat; intros; unfold d; lra).
    destruct Hb as [-> | ->]; (eexists; split; [cbn [binop as_x fop xpow]; rewrite (proj1 (Qlt_alt _ _) E); reflexivity|]); intros ks K.
    + apply (tends_ext _ _ _) with (2 := shrink (fun _ => / Qabs x) _ d D F (zs_neg' _ K)).
      intros n. exact (flip (fun _ => Qabs x) ks n).
    + apply (tends_ext _ _ _) with (2 := grow (fun _ => / Qabs x) _ d D F (zs_neg _ K)).
      intros n. exact (flip (fun _ => Qabs x) ks n).
  - set (d := Qabs x - 1). assert (D : 0 < d) by (unfold d; lra).
    assert (F : SpecLimits.eventually (fun _ : nat => 1 + d <= Qabs x)) by (exists 0%nat; intros; unfold d; lra).
    destruct Hb as [-> | ->]; (eexists; split; [cbn [binop as_x fop xpow]; rewrite (proj1 (Qgt_alt _ _) E); reflexivity|]); intros ks K.
    + exact (grow (fun _ => Qabs x) _ d D F K).
    + exact (shrink (fun _ => Qabs x) _ d D F K).
Qed.
Lemma zero_to_minus_infinity pw arr x : x == 0 ->
  binop pw arr Pow (PFlt (Fin x)) (PFlt NInf) = Ok (PFlt PInf) /\
  forall f ks, tends f (Fin 0) -> (forall n, 0 < f n) -> zs_tend ks NInf -> tends (fun n => f n ^ ks n) PInf.
Proof.
  intros E. split.
  - cbn [binop as_x fop xpow]. assert (L : Qabs x < 1) by (rewrite E; reflexivity). rewrite (proj1 (Qlt_alt _ _) L). reflexivity.
  - intros f ks F P K. pose proof (inv_zero_pos f F P) as I.
    apply (tends_ext _ _ _) with (2 := grow (fun n => / f n) _ 1 ltac:(lra) (ev_imp _ _ ltac:(intros n H; cbv beta in *; apply Qlt_le_weak; exact H) (I (1 + 1))) (zs_neg _ K)).
    intros n. apply flip.
Qed.
Lemma infinite_both pw arr a b : a = PInf \/ a = NInf -> b = PInf \/ b = NInf ->
  exists r, binop pw arr Pow (PFlt a) (PFlt b) = Ok (PFlt r) /\
  forall f ks, tends f a -> zs_tend ks b -> tends (fun n => Qabs (f n) ^ ks n) r.
Proof.
  intros Ha Hb.
  assert (G : forall f, tends f a -> SpecLimits.eventually (fun n => 1 + 1 <= Qabs (f n))).
  { intros f F. apply (ev_imp _ _) with (2 := abs_up f a Ha F (1 + 1)). intros n H. cbv beta in *. apply Qlt_le_weak. exact H. }
  destruct Hb as [-> | ->]; (eexists; split; [destruct Ha; subst; reflexivity|]); intros f ks F K.
  - exact (grow (fun n => Qabs (f n)) ks 1 ltac:(lra) (G f F) K).
  - exact (shrink (fun n => Qabs (f n)) ks 1 ltac:(lra) (G f F) K).
Qed.

(* ---------------------------------------------------------------- nan, zero and finite powers *)
Lemma eqb_no x y : ~ x == y -> Qeq_bool x y = false.
Proof. intros H. apply not_true_is_false. intros C. apply H, Qeq_bool_iff, C. Qed.
Lemma eqb_yes x y : x == y -> Qeq_bool x y = true.
Proof. apply Qeq_bool_iff. Qed.
Lemma power_nan pw arr :
  (forall a y, y == 0 -> binop pw arr Pow (PFlt a) (PFlt (Fin y)) = Ok (PFlt (Fin 1))) /\
  (forall x, x == 1 -> binop pw arr Pow (PFlt (Fin x)) (PFlt NaN) = Ok (PFlt (Fin 1))) /\
  (forall b, xeq b (Fin 0) = false -> binop pw arr Pow (PFlt NaN) (PFlt b) = Ok (PFlt NaN)) /\
  (forall a, xeq a (Fin 1) = false -> binop pw arr Pow (PFlt a) (PFlt NaN) = Ok (PFlt NaN)).
Proof.
  repeat split.
  - intros a y E. destruct a; cbn [binop as_x fop xpow]; now rewrite (eqb_yes _ _ E).
  - intros x E. cbn [binop as_x fop xpow xeq]. now rewrite (eqb_yes _ _ E).
  - intros [y| | |] E; cbn [binop as_x fop xpow]; auto. cbn [xeq] in E. now rewrite E.
  - intros [x| | |] E; cbn [binop as_x fop xpow]; auto. now rewrite E.
Qed.
Lemma power_zero pw x y : x == 0 ->
  (0 < y -> forall arr, binop pw arr Pow (PFlt (Fin x)) (PFlt (Fin y)) = Ok (PFlt (Fin 0))) /\
  (y < 0 -> binop pw false Pow (PFlt (Fin x)) (PFlt (Fin y)) = Err ZeroDivisionError /\
     binop pw true Pow (PFlt (Fin x)) (PFlt (Fin y)) = Ok (PFlt PInf)).
Proof.
  intros E. split; intros H.
  - intros arr. cbn [binop as_x fop xpow]. rewrite (eqb_no y 0), (eqb_yes _ _ E), ltb_yes by lra. reflexivity.
  - cbn [binop as_x fop xpow]. rewrite (eqb_no y 0), (eqb_yes _ _ E), ltb_no by lra. split; reflexivity.
Qed.
Lemma is_int_inject k : is_int_q (inject_Z k) = true.
Proof. unfold is_int_q. now rewrite red_inject. Qed.
Lemma power_whole pw arr x k : ~ x == 0 ->
  exists r, binop pw arr Pow (PFlt (Fin x)) (PFlt (Fin (inject_Z k))) = Ok (PFlt (Fin r)) /\ r == x ^ k.
Proof.
  intros H. cbn [binop as_x fop xpow]. rewrite (eqb_no _ _ H).
  destruct (Qeq_bool (inject_Z k) 0) eqn:Z.
  - apply Qeq_bool_iff in Z. apply (proj1 (inject_Z_injective k 0)) in Z. subst. exists 1. split; reflexivity.
  - rewrite is_int_inject. exists (x ^ k). split; [|reflexivity]. unfold q_to_z. now rewrite red_inject.
Qed.
Lemma power_fraction pw x y : is_whole y = false ->
  (0 < x -> forall arr, binop pw arr Pow (PFlt (Fin x)) (PFlt (Fin y)) = Ok (PFlt (Fin (pw x y)))) /\
  (x < 0 -> binop pw true Pow (PFlt (Fin x)) (PFlt (Fin y)) = Ok (PFlt NaN)).
Proof.
  intros W. assert (F : is_int_q y = false).
  { apply not_true_is_false. intros I. revert W. unfold is_int_q in I. apply Pos.eqb_eq in I.
    assert (E : y == inject_Z (Qnum (Qred y))). { rewrite <- (Qred_correct y) at 1. destruct (Qred y) as [m d]. cbn in I |- *. now subst d. }
    rewrite (is_whole_comp _ _ E), is_whole_inject. discriminate. }
  assert (Y : Qeq_bool y 0 = false).
  { apply eqb_no. intros E. revert F. unfold is_int_q. rewrite (Qred_complete _ _ E). discriminate. }
  split; intros H.
  - intros arr. cbn [binop as_x fop xpow]. rewrite Y, (eqb_no x 0), F, ltb_yes by lra. reflexivity.
  - cbn [binop as_x fop xpow]. rewrite Y, (eqb_no x 0), F, ltb_no by lra. reflexivity.
Qed.
Lemma grows B n : (Z.to_nat (Qfloor B + 1) <= n)%nat -> B < inject_Z (Z.of_nat n).
Proof.
  intros H. apply Qlt_le_trans with (inject_Z (Qfloor B + 1)); [apply Qlt_floor|]. rewrite <- Zle_Qle. lia.
Qed.
