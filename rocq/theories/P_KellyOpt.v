(** Full Kelly maximises expected log wealth. *)
From Coq Require Import Reals Qreals Lra Qabs.
From Verif Require Import Base M_Kelly SpecKelly P_Kelly.
Open Scope R_scope.

Lemma ln_below x : 0 < x -> ln x <= x - 1.
Proof. intros H. pose proof (exp_ineq1_le (ln x)) as E. rewrite exp_ln in E by auto. lra. Qed.
Lemma ln_strictly_below x : 0 < x -> x <> 1 -> ln x < x - 1.
Proof.
  intros H N. assert (ln x <> 0). { intros Z. apply N. rewrite <- (exp_ln x H), Z. apply exp_0. }
  pose proof (exp_ineq1 (ln x) H0) as E. rewrite exp_ln in E by auto. lra.
Qed.

Section Opt.
  Variables p m : R.
  Hypothesis (Hm : 0 < m) (Hm1 : m < 1) (Hp : 0 < p) (Hp1 : p < 1).
  Let best := (p - m) / (1 - m).

  Lemma best_win : 1 - best + best / m = p / m.
  Proof. unfold best. field. split; lra. Qed.
  Lemma best_lose : 1 - best = (1 - p) / (1 - m).
  Proof. unfold best. field. lra. Qed.
  Lemma win_pos f : 0 <= f -> f < 1 -> 0 < 1 - f + f / m.
  Proof.
    intros F G. assert (0 <= f / m) by (apply Rmult_le_pos; [auto|left; now apply Rinv_0_lt_compat]). lra.
  Qed.
  Lemma ratios f : p * ((1 - f + f / m) / (p / m) - 1) + (1 - p) * ((1 - f) / ((1 - p) / (1 - m)) - 1) = 0.
  Proof. field. repeat split; lra. Qed.

  Lemma growth_gap f : 0 <= f -> f < 1 ->
    log_growth p m f - log_growth p m best =
    p * ln ((1 - f + f / m) / (p / m)) + (1 - p) * ln ((1 - f) / ((1 - p) / (1 - m))).
  Proof.
    intros F G. unfold log_growth. rewrite best_win, best_lose.
    assert (D : forall a b, 0 < a -> 0 < b -> ln (a / b) = ln a - ln b).
    { intros a b A B. unfold Rdiv. rewrite ln_mult by (auto using Rinv_0_lt_compat). now rewrite ln_Rinv. }
    pose proof (win_pos f F G). rewrite (D (1 - f + f / m)), (D (1 - f)); auto; try lra.
    - apply Rdiv_lt_0_compat; lra.
    - apply Rdiv_lt_0_compat; lra.
  Qed.
  Lemma strictly_optimal f : 0 <= f -> f < 1 -> f <> best -> log_growth p m f < log_growth p m best.
  Proof.
    intros F G N. pose proof (growth_gap f F G) as E. pose proof (ratios f) as R. pose proof (win_pos f F G) as W.
    assert (X : (1 - f) / ((1 - p) / (1 - m)) <> 1).
    { intros X. apply N. assert (1 - f = (1 - p) / (1 - m)) as Y.
      { apply (f_equal (fun x => x * ((1 - p) / (1 - m)))) in X. rewrite Rmult_1_l in X. rewrite <- X at 1.
        field. repeat split; lra. }
      rewrite <- best_lose in Y. lra. }
    set (a := (1 - f + f / m) / (p / m)) in *. set (b := (1 - f) / ((1 - p) / (1 - m))) in *.
    assert (A : 0 < a) by (apply Rdiv_lt_0_compat; [auto|apply Rdiv_lt_0_compat; lra]).
    assert (B : 0 < b) by (apply Rdiv_lt_0_compat; [lra|apply Rdiv_lt_0_compat; lra]).
    pose proof (ln_below a A). pose proof (ln_strictly_below b B X). nra.
  Qed.
End Opt.

Lemma q2r_price q : price q -> 0 < Q2R q /\ Q2R q < 1.
Proof.
  intros [A B]. apply Qlt_Rlt in A. apply Qlt_Rlt in B.
  assert (Q2R 0 = 0) as Z by (unfold Q2R; simpl; lra). assert (Q2R 1 = 1) as I by (unfold Q2R; simpl; lra). lra.
Qed.
Lemma q2r_fraction p m : price m -> Q2R (fraction p m) = (Q2R p - Q2R m) / (1 - Q2R m).
Proof.
  intros [A B]. unfold fraction. rewrite Q2R_div, !Q2R_minus.
  - replace (Q2R 1) with 1 by (unfold Q2R; simpl; lra). reflexivity.
  - intros Z. rewrite <- (Qplus_inj_r _ _ m) in Z. ring_simplify in Z. rewrite <- Z in B. now apply Qlt_irrefl in B.
Qed.

(** The stake computed from one's price, the market's and the deference is optimal for
    the deferred belief. *)
Lemma kelly_optimal my m d f : price my -> price m -> share d -> (m <= my)%Q -> 0 <= f < 1 ->
  f <> Q2R (kelly_fraction my m d) ->
  log_growth (Q2R (belief my m d)) (Q2R m) f < log_growth (Q2R (belief my m d)) (Q2R m) (Q2R (kelly_fraction my m d)).
Proof.
  intros P M D L [F G] N.
  assert (E : (kelly_fraction my m d == fraction (belief my m d) m)%Q).
  { rewrite fraction_value by auto. apply Qabs_pos. apply (fraction_unit (belief my m d) m); auto using belief_price, belief_above. }
  apply Qeq_eqR in E. rewrite q2r_fraction in E by auto. rewrite E in *.
  destruct (q2r_price _ (belief_price my m d P M D)), (q2r_price _ M). now apply strictly_optimal.
Qed.
Lemma belief_full my m : (belief my m 0 == my)%Q.
Proof. unfold belief. ring. Qed.
Lemma full_kelly_optimal my m f : price my -> price m -> (m <= my)%Q -> 0 <= f < 1 ->
  f <> Q2R (kelly_fraction my m 0) ->
  log_growth (Q2R my) (Q2R m) f < log_growth (Q2R my) (Q2R m) (Q2R (kelly_fraction my m 0)).
Proof.
  intros P M L F N. pose proof (kelly_optimal my m 0 f P M) as H.
  rewrite (Qeq_eqR _ _ (belief_full my m)) in H. apply H; auto. split; [apply Qle_refl|discriminate].
Qed.
