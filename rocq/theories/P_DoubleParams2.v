(** Error bounds for updates and Kelly fractions computed in double precision. *)
From Coq Require Import Qabs Lqa.
From Verif Require Import Base M_Float M_Double M_DoubleProb M_DoubleParams SpecWeights SpecFloat SpecDouble SpecKelly SpecDoubleParams
  P_Double P_DoubleProb P_DoubleParams.
Open Scope Q_scope.

Ltac small := vm_compute; congruence.
Lemma within_dmul e a b A B M N f : 0 <= e -> within e a A M -> within f b B N ->
  within (e + f + e * f + u * (1 + (e + f + e * f))) (dmul a b) (A * B) (M * N).
Proof. intros E H K. unfold dmul. apply within_red, within_rnd. now apply within_mul. Qed.
Lemma within_dadd e a b A B M N : within e a A M -> within e b B N -> within (e + u * (1 + e)) (dadd a b) (A + B) (M + N).
Proof. intros H K. unfold dadd. apply within_red, within_rnd. now apply within_add. Qed.
Lemma within_dsub e a b A B M N : within e a A M -> within e b B N -> within (e + u * (1 + e)) (dsub a b) (A - B) (M + N).
Proof. intros H K. unfold dsub. apply within_red, within_rnd. now apply within_sub. Qed.
Lemma within_ddiv e f g a b A B M : 0 <= e -> 0 <= f -> f < 1 -> e + f <= g * (1 - f) ->
  within e a A M -> within f b B B -> 0 < B -> within (g + u * (1 + g)) (ddiv a b) (A / B) (M / B).
Proof. intros. unfold ddiv. apply within_red, within_rnd. now apply (within_div e f g). Qed.
Lemma within_self a : 0 <= a -> within 0 a a a.
Proof. intros H. eapply within_compat; [apply within_exact|reflexivity|now apply Qabs_pos]. Qed.

Section Update.
  Variables pm pv em ev w : Q.
  Hypotheses (PV : 0 < pv) (EV : 0 < ev) (W : 0 <= w).
  Let D := w * pv + ev.
  Lemma D_pos : 0 < D.
  Proof. unfold D. assert (0 <= w * pv) by (apply Qmult_le_0_compat; lra). lra. Qed.
  Lemma den_within : within (2 * u + u * u) (dadd (dmul w pv) ev) D D.
  Proof.
    eapply within_weaken; [apply (within_dadd u)|].
    - apply dmul_pos; lra.
    - eapply within_weaken; [apply within_self; lra|small].
    - small.
  Qed.
  Let V := Qabs (ev * pm) + Qabs (w * (pv * em)).
  Lemma num_within : within ((32#10) * u) (dadd (dmul ev pm) (dmul w (dmul pv em))) (ev * pm + w * (pv * em)) V.
  Proof.
    eapply within_weaken; [apply (within_dadd ((21#10) * u))|].
    - eapply within_weaken.
      + eapply within_compat; [apply (within_dmul 0 ev pm ev pm (Qabs ev) (Qabs pm) 0); [apply Qle_refl|apply within_exact|apply within_exact]|reflexivity|].
        symmetry; apply Qabs_Qmult.
      + small.
    - eapply within_weaken.
      + eapply within_compat; [apply (within_dmul 0 w (dmul pv em) w (pv * em) (Qabs w) (Qabs (pv * em)) u)|reflexivity|].
        * apply Qle_refl.
        * apply within_exact.
        * eapply within_weaken.
          -- eapply within_compat; [apply (within_dmul 0 pv em pv em (Qabs pv) (Qabs em) 0); [apply Qle_refl|apply within_exact|apply within_exact]|reflexivity|].
             symmetry; apply Qabs_Qmult.
          -- small.
        * symmetry; apply Qabs_Qmult.
      + small.
    - small.
  Qed.
  Lemma update_mean_within : within (7 * u) (fst (fl_update pm pv em ev w)) ((ev * pm + w * (pv * em)) / D) (V / D).
  Proof.
    cbn [fl_update fst]. eapply within_weaken.
    - apply (within_ddiv ((32#10) * u) (2 * u + u * u) ((53#10) * u)); [small|small|small|small|apply num_within|apply den_within|apply D_pos].
    - small.
  Qed.
  Lemma update_var_within : within (5 * u) (snd (fl_update pm pv em ev w)) (ev * pv / D) (ev * pv / D).
  Proof.
    cbn [fl_update snd]. eapply within_weaken.
    - apply (within_ddiv u (2 * u + u * u) ((33#10) * u)); [small|small|small|small|apply dmul_pos; lra|apply den_within|apply D_pos].
    - small.
  Qed.
  Lemma pooled_mean_eq : pooled_mean pm pv em ev w == (ev * pm + w * (pv * em)) / D.
  Proof.
    pose proof D_pos as P. unfold pooled_mean, pooled_precision. unfold D in *. field; repeat split; intros C; lra.
  Qed.
  Lemma pooled_magnitude : pooled_mean (Qabs pm) pv (Qabs em) ev w == V / D.
  Proof.
    pose proof D_pos as P. unfold pooled_mean, pooled_precision, V, D in *.
    rewrite !Qabs_Qmult, (Qabs_pos ev), (Qabs_pos w), (Qabs_pos pv) by lra. field; repeat split; intros C; lra.
  Qed.
  Lemma pooled_var : / pooled_precision pv ev w == ev * pv / D.
  Proof.
    pose proof D_pos as P. unfold pooled_precision, D in *. field; repeat split; intros C; lra.
  Qed.
  Lemma update_close : Qabs (fst (fl_update pm pv em ev w) - pooled_mean pm pv em ev w) <= 7 * u * pooled_mean (Qabs pm) pv (Qabs em) ev w /\
    Qabs (snd (fl_update pm pv em ev w) - / pooled_precision pv ev w) <= 5 * u * / pooled_precision pv ev w.
  Proof.
    split.
    - rewrite pooled_mean_eq, pooled_magnitude. apply update_mean_within.
    - rewrite pooled_var. apply update_var_within.
  Qed.
  Lemma update_var_pos : 0 < snd (fl_update pm pv em ev w).
  Proof.
    eapply within_pos; [apply update_var_within| |small]. apply div_pos; [now apply Qmult_lt_0_compat|apply D_pos].
  Qed.
End Update.

Section Kelly.
  Variables my market d : Q.
  Hypotheses (MY : price my) (MK : price market) (DF : share d).
  Let A := my * (1 - d) + market * d.
  Lemma A_range : 0 < A /\ A < 1.
  Proof.
    destruct MY, MK, DF. unfold A.
    assert (my * (1 - d) + market * d == my + (market - my) * d) as E by ring.
    destruct (Qlt_le_dec market my) as [L|L].
    - assert (0 <= (my - market) * d <= my - market) as [X1 X2].
      { split; [apply Qmult_le_0_compat; lra|]. rewrite <- (Qmult_1_r (my - market)) at 2. rewrite !(Qmult_comm (my - market)). apply Qmult_le_compat_r; lra. }
      assert ((my - market) * d == - ((market - my) * d)) by ring. lra.
    - assert (0 <= (market - my) * d <= market - my) as [X1 X2].
      { split; [apply Qmult_le_0_compat; lra|]. rewrite <- (Qmult_1_r (market - my)) at 2. rewrite !(Qmult_comm (market - my)). apply Qmult_le_compat_r; lra. }
      lra.
  Qed.
  Lemma adj_within : within ((32#10) * u) (fl_adj_price my market d) A A.
  Proof.
    destruct MY as [M0 M1], MK as [K0 K1], DF as [D0 D1]. unfold fl_adj_price.
    eapply within_weaken; [apply (within_dadd ((21#10) * u))|].
    - eapply within_weaken; [apply (within_dmul 0 my (dsub 1 d) my (1 - d) my (1 - d) u); [small|now apply within_self; lra|]|small].
      unfold dsub. apply within_red. eapply within_weaken; [apply within_rnd, within_self; lra|small].
    - eapply within_weaken; [apply dmul_pos; lra|small].
    - small.
  Qed.
  Let Od := market / (1 - market).
  Lemma odds_within : within ((21#10) * u) (ddiv market (dsub 1 market)) Od Od.
  Proof.
    destruct MK as [K0 K1]. unfold Od. eapply within_weaken.
    - apply (within_ddiv 0 u ((102#100) * u)); [small|small|small|small|apply within_self; lra| |lra].
      unfold dsub. apply within_red. eapply within_weaken; [apply within_rnd, within_self; lra|small].
    - small.
  Qed.
  Lemma Od_nonneg : 0 <= Od.
  Proof. destruct MK. apply div_nonneg; lra. Qed.
  Lemma Od_one : 1 + Od == / (1 - market).
  Proof. destruct MK. unfold Od. field. lra. Qed.
  (** 1 - adj, against magnitude 1. *)
  Lemma rest_within : within ((43#10) * u) (dsub 1 (fl_adj_price my market d)) (1 - A) 1.
  Proof.
    pose proof adj_within as W. destruct A_range as [A0 A1].
    assert (Qabs (fl_adj_price my market d - A) <= (32#10) * u) as E.
    { destruct W as [W _]. apply Qle_trans with ((32#10) * u * A); auto. rewrite <- (Qmult_1_r ((32#10) * u)) at 2.
      rewrite !(Qmult_comm ((32#10) * u)). apply Qmult_le_compat_r; [lra|small]. }
    unfold dsub. apply within_red. eapply within_weaken; [apply (within_rnd ((32#10) * u))|small]. split.
    - assert (1 - fl_adj_price my market d - (1 - A) == - (fl_adj_price my market d - A)) as -> by ring. rewrite Qabs_opp. lra.
    - rewrite Qabs_pos; lra.
  Qed.
  Lemma prod_within : within ((76#10) * u) (dmul (dsub 1 (fl_adj_price my market d)) (ddiv market (dsub 1 market))) ((1 - A) * Od) (1 * Od).
  Proof.
    eapply within_weaken; [apply (within_dmul ((43#10) * u) _ _ _ _ _ _ ((21#10) * u)); [small|apply rest_within|apply odds_within]|small].
  Qed.
  Lemma abs_close a b e : Qabs (a - b) <= e -> Qabs (Qabs a - Qabs b) <= e.
  Proof.
    intros H. eapply Qle_trans; [|exact H]. pose proof (Qabs_triangle_reverse a b). pose proof (Qabs_triangle_reverse b a).
    rewrite (Qabs_Qminus b a) in H1. apply Qabs_Qle_condition. split; lra.
  Qed.
  Lemma fraction_eq : A - (1 - A) * Od == fraction (belief my market d) market.
  Proof. destruct MK. unfold A, Od, fraction, belief. field. lra. Qed.
  Lemma kelly_close : Qabs (fl_kelly my market d - Qabs (fraction (belief my market d) market)) <= 9 * u / (1 - market).
  Proof.
    unfold fl_kelly. apply abs_close. rewrite <- fraction_eq.
    destruct MK as [K0 K1]. pose proof Od_nonneg as O0. destruct A_range as [A0 A1].
    assert (within ((76#10) * u) (fl_adj_price my market d) A A) as WA by (eapply within_weaken; [apply adj_within|small]).
    destruct (within_dsub _ _ _ _ _ _ _ WA prod_within) as [W _].
    eapply Qle_trans; [exact W|].
    apply Qle_trans with (9 * u * (1 + Od)).
    - apply Qle_trans with (9 * u * (A + 1 * Od)).
      + apply Qmult_le_compat_r; [small|lra].
      + rewrite !(Qmult_comm (9 * u)). apply Qmult_le_compat_r; [lra|small].
    - rewrite Od_one. apply Qle_refl.
  Qed.
  Lemma roi_close : Qabs (fl_expected_roi my market d - Qabs (belief my market d / market - 1)) <= 11 * u / market.
  Proof.
    unfold fl_expected_roi. apply abs_close.
    destruct MK as [K0 K1]. destruct A_range as [A0 A1].
    assert (within ((43#10) * u) (ddiv (fl_adj_price my market d) market) (A / market) (A / market)) as W1.
    { eapply within_weaken; [apply (within_ddiv ((32#10) * u) 0 ((32#10) * u)); [small|small|small|small|apply adj_within|apply within_self; lra|lra]|small]. }
    assert (within ((43#10) * u) 1 1 1) as W2 by (eapply within_weaken; [apply within_self; lra|small]).
    destruct (within_dsub _ _ _ _ _ _ _ W1 W2) as [W _].
    assert (belief my market d == A) as EB by (unfold belief, A; ring).
    rewrite EB. eapply Qle_trans; [exact W|].
    assert (0 <= / market) as I0 by (apply Qlt_le_weak, Qinv_lt_0_compat; lra).
    assert (A / market <= / market) as L1.
    { unfold Qdiv. rewrite <- (Qmult_1_l (/ market)) at 2. apply Qmult_le_compat_r; lra. }
    assert (1 <= / market) as L2 by (apply (Qmult_le_r _ _ market); auto; rewrite (Qmult_comm (/ market)), Qmult_inv_r; lra).
    apply Qle_trans with (((43#10) * u + u * (1 + (43#10) * u)) * (2 * / market)).
    - rewrite !(Qmult_comm ((43#10) * u + u * (1 + (43#10) * u))). apply Qmult_le_compat_r; [lra|small].
    - unfold Qdiv. rewrite Qmult_assoc. apply Qmult_le_compat_r; [small|auto].
  Qed.
End Kelly.

(** Witnesses. *)
Definition near_one : Q := 1 - pow2 (-53).
Definition three_tenths : Q := Qred (rnd (3#10)).
Lemma near_one_double : is_double near_one.
Proof. exists (2 ^ 53 - 1)%Z, (-53)%Z. split; [vm_compute; congruence|reflexivity]. Qed.
Lemma everything_on_nothing : exists p d, is_double p /\ is_double d /\ price p /\ share d /\
  fraction (belief p p d) p == 0 /\ fl_kelly p p d == 1.
Proof.
  exists near_one, three_tenths. split; [exact near_one_double|]. split; [apply dred_double|].
  split; [split; small|]. split; [split; small|]. split; [vm_compute; reflexivity|vm_compute; reflexivity].
Qed.
Lemma agreeing_moves : exists m pv ev, is_double m /\ is_double pv /\ is_double ev /\ 0 < pv /\ 0 < ev /\
  pooled_mean m pv m ev 1 == m /\ m < fst (fl_update m pv m ev 1).
Proof.
  exists (Qred (rnd (1#10))), (1#4), (1#2). split; [apply dred_double|].
  split; [exists 1%Z, (-2)%Z; split; [small|reflexivity]|]. split; [exists 1%Z, (-1)%Z; split; [small|reflexivity]|].
  split; [reflexivity|]. split; [reflexivity|]. split; vm_compute; reflexivity.
Qed.
Lemma interval_collapses : forall sigma, 0 < sigma -> exists x y m s, is_double x /\ is_double y /\ x < y /\
  fl_norm_params x y sigma = Ok (m, s) /\ m == y /\ s == 0.
Proof.
  intros sigma SG. set (x := 1 + pow2 (-52)). set (y := 1 + 2 * pow2 (-52)).
  assert (is_double x) as Dx by (exists (2 ^ 52 + 1)%Z, (-52)%Z; split; [small|reflexivity]).
  assert (is_double y) as Dy by (exists (2 ^ 52 + 2)%Z, (-52)%Z; split; [small|reflexivity]).
  assert (x < y) as L by small.
  exists x, y, (ddiv (dadd x y) 2), (ddiv (dsub y (ddiv (dadd x y) 2)) sigma). split; auto. split; auto. split; auto.
  split; [apply norm_params_eq; lra|].
  assert (ddiv (dadd x y) 2 == y) as E by (vm_compute; reflexivity).
  split; [exact E|]. apply (sd_zero_iff x y sigma); auto. lra.
Qed.
