(** Pooling probabilities and revising them. *)
From Coq Require Import Reals Lra Qreals.
From Verif Require Import Base M_Weights M_Formulas M_Bayesnet SpecFormulas SpecNormal SpecMoments SpecPredict
  P_Sampler P_PwvMap P_Formulas P_Geomean P_Geomean2 P_GeomeanOdds.
Open Scope R_scope.

Lemma revised k p : 0 < k -> 0 < p < 1 -> 0 < k * p / (k * p + (1 - p)) < 1.
Proof.
  intros K P. assert (A : 0 < k * p) by (apply Rmult_lt_0_compat; lra). split; [apply Rdiv_lt_0_compat; lra|].
  apply (Rmult_lt_reg_r (k * p + (1 - p))); [lra|]. unfold Rdiv. rewrite Rmult_assoc, Rinv_l by lra. lra.
Qed.
Lemma revise_prob k p : 0 < p < 1 -> revise k (RFin p) = RFin (k * p / (k * p + (1 - p))).
Proof. intro P. unfold revise. destruct (Rle_dec p 0); [lra|]. destruct (Rle_dec 1 p); [lra|]. reflexivity. Qed.
Lemma revise_na k x : na_like (revise k x) = na_like x.
Proof. destruct x as [p| | | |]; try reflexivity. unfold revise. destruct (Rle_dec p 0); auto. destruct (Rle_dec 1 p); auto. Qed.
Lemma odds_revise k x : 0 < k -> odds_of (revise k x) = rmap (times k) (odds_of x).
Proof.
  intro K. destruct x as [p| | | |]; try reflexivity.
  destruct (Rle_dec p 0) as [A|A]; [unfold revise, odds_of; cbn [na_like]; destruct (Rle_dec p 0); [|contradiction]; cbn [na_like]; destruct (Rle_dec p 0); [reflexivity|contradiction]|].
  destruct (Rle_dec 1 p) as [B|B].
  - unfold revise, odds_of; cbn [na_like]; destruct (Rle_dec p 0); [contradiction|]. destruct (Rle_dec 1 p); [|contradiction]. cbn [na_like].
    destruct (Rle_dec p 0); [contradiction|]. destruct (Rle_dec 1 p); [reflexivity|contradiction].
  - assert (P : 0 < p < 1) by lra. rewrite revise_prob by auto. pose proof (revised k p K P) as Q.
    rewrite (proj1 (odds_value _ Q)), (proj1 (odds_value _ P)). cbn [rmap times]. do 2 f_equal.
    assert (0 < k * p) by (apply Rmult_lt_0_compat; lra). field. repeat split; try lra.
Qed.
Lemma prob_times k g : 0 < k -> match g with RFin o => 0 < o | RNan => True | _ => False end ->
  odds_to_p (RScalar (times k g)) = rmap (revise_arg k) (odds_to_p (RScalar g)).
Proof.
  intros K. unfold odds_to_p. cbn [renlist mapM]. destruct g as [o| | | |]; try contradiction; [|reflexivity]. intro P. cbn [times].
  assert (KO : 0 < k * o) by now apply Rmult_lt_0_compat.
  rewrite (proj1 (prob_value _ KO)), (proj1 (prob_value _ P)). cbn [bind rmap rsimplify revise_arg]. do 2 f_equal.
  pose proof (proj2 (prob_value _ P)) as Q. rewrite revise_prob by auto. f_equal. field. repeat split; lra.
Qed.
Lemma odds_tail_times k ws os : 0 < k -> Forall odds_or_na os -> odds_tail ws (map (times k) os) = rmap (revise_arg k) (odds_tail ws os).
Proof.
  intros K F. unfold odds_tail. destruct os as [|o1 [|o2 os]]; [reflexivity|destruct o1; reflexivity|].
  set (L := o1 :: o2 :: os) in *.
  assert (rsimplify (map (times k) L) = RSeq (map (times k) L)) as -> by reflexivity.
  assert (rsimplify L = RSeq L) as -> by reflexivity.
  pose proof (geomean_times k (WList (map Num ws)) WNone (VArray (map GVal L)) true K) as A.
  cbn [map_varg] in A. rewrite map_map in A. rewrite map_map. change (fun x => map_item (times k) (GVal x)) with (fun x => GVal (times k x)) in A. rewrite A.
  destruct (geomean_recip (WList (map Num ws)) L F) as [_ B].
  destruct (geomean _ _ (VArray (map GVal L)) true) as [g|e]; cbn [map_res rmap bind]; auto. apply prob_times; [auto|now apply B].
Qed.
Lemma pooled_revised k w rw v d : 0 < k ->
  geomean_odds w rw (map_varg (revise k) v) d = map_res (revise_arg k) (geomean_odds w rw v d).
Proof.
  intro K. rewrite !geomean_odds_unfold, (pwv_map_items (revise k)) by (intros; apply revise_na).
  destruct (fst (pwv g_pair g_na w rw v d)) as [[ws vs]|e]; cbn [rmap bind fst snd map_res]; auto.
  rewrite gnum_map. destruct (mapM g_num vs) as [xs|e]; cbn [rmap bind fst snd map_res]; auto.
  rewrite (mapM_map_through (revise k) (times k) odds_of) by (intros; now apply odds_revise).
  destruct (mapM odds_of xs) as [os|e] eqn:E; cbn [rmap bind fst snd map_res]; auto.
  rewrite odds_tail_times; [apply rmap_map_res|auto|]. eapply mapM_forall; [|exact E]. intros; eapply odds_good; eauto.
Qed.
(** [simple_bayes] revises by the ratio of its likelihoods. *)
Lemma bayes_revises lh lnh p : (0 < lh)%Q -> (0 < lnh)%Q -> (0 < p)%Q -> (p < 1)%Q ->
  exists q, simple_bayes lh lnh p = Ok q /\ revise (Q2R lh / Q2R lnh) (RFin (Q2R p)) = RFin (Q2R q).
Proof.
  intros A B P0 P1. apply Qlt_Rlt in A as A', B as B', P0 as P0', P1 as P1'. rewrite RMicromega.Q2R_0 in A', B', P0'. rewrite RMicromega.Q2R_1 in P1'.
  unfold simple_bayes. assert (D : Q2R (lh * p + lnh * (1 - p)) = Q2R lh * Q2R p + Q2R lnh * (1 - Q2R p)).
  { rewrite Q2R_plus, !Q2R_mult, Q2R_minus, RMicromega.Q2R_1. reflexivity. }
  assert (DP : 0 < Q2R lh * Q2R p + Q2R lnh * (1 - Q2R p)) by (apply Rplus_lt_0_compat; apply Rmult_lt_0_compat; lra).
  destruct (Qeq_bool _ 0) eqn:Z.
  - apply Qeq_bool_iff, Qeq_eqR in Z. rewrite D, RMicromega.Q2R_0 in Z. lra.
  - eexists. split; [reflexivity|]. rewrite revise_prob by lra. f_equal. rewrite Q2R_div, D, Q2R_mult.
    + field. repeat split; try lra. 
    + intro E. apply Qeq_bool_iff in E. congruence.
Qed.
Lemma forecasters lh lnh ps qs w rw d : (0 < lh)%Q -> (0 < lnh)%Q ->
  Forall2 (fun p q => (0 < p)%Q /\ (p < 1)%Q /\ simple_bayes lh lnh p = Ok q) ps qs ->
  geomean_odds w rw (VList (numbers (map Q2R qs))) d =
  map_res (revise_arg (Q2R lh / Q2R lnh)) (geomean_odds w rw (VList (numbers (map Q2R ps))) d).
Proof.
  intros A B F. assert (K : 0 < Q2R lh / Q2R lnh).
  { apply Qlt_Rlt in A, B. rewrite RMicromega.Q2R_0 in A, B. now apply Rdiv_lt_0_compat. }
  rewrite <- pooled_revised by auto. f_equal. cbn [map_varg]. f_equal. unfold numbers. rewrite !map_map.
  induction F as [|p q ps qs (P0 & P1 & E) F IH]; cbn [map]; auto. f_equal; auto. cbn [map_item]. f_equal.
  destruct (bayes_revises lh lnh p A B P0 P1) as (q' & E' & R'). rewrite E in E'. inversion E'; subst q'. symmetry. exact R'.
Qed.
(** Extremizing twice. *)
Lemma extremize_twice p a b r : 1 <= a -> extremize p a = Ok r -> extremize r b = extremize p (a * b).
Proof.
  intros A. unfold extremize at 1 3. destruct (Rle_dec p 0) as [|N0]; [discriminate|]. destruct (Rle_dec 1 p) as [|N1]; [discriminate|].
  assert (BND : forall x, 0 < x < 1 -> 0 < Rpower x a <= x).
  { intros x X. split; [apply exp_pos|]. rewrite <- (Rpower_1 x) at 2 by lra. unfold Rpower. assert (ln x < 0) by (rewrite <- ln_1; apply ln_increasing; lra).
    destruct (Req_dec a 1) as [->|NE]; [lra|]. left. apply exp_increasing. nra. }
  destruct (Rlt_dec (1 / 2) p) as [H|H]; intro E; inversion E; subst r; unfold extremize.
  - pose proof (BND (1 - p) ltac:(lra)) as B.
    destruct (Rle_dec _ 0); [lra|]. destruct (Rle_dec 1 _); [lra|]. destruct (Rlt_dec _ _); [|lra]. f_equal. f_equal.
    replace (1 - (1 - Rpower (1 - p) a)) with (Rpower (1 - p) a) by ring. apply Rpower_mult.
  - pose proof (BND p ltac:(lra)) as B.
    destruct (Rle_dec _ 0); [lra|]. destruct (Rle_dec 1 _); [lra|]. destruct (Rlt_dec _ _); [lra|]. f_equal. apply Rpower_mult.
Qed.
