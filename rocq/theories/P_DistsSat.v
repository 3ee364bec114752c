(** The assumptions made of the normal quantile function can be met: the logistic
    cumulative distribution function satisfies them. *)
From Coq Require Import Reals Lra.
From Verif Require Import Base M_Dists SpecDists.
Open Scope R_scope.

Definition logistic (x : R) : R := 1 / (1 + exp (- x)).
Definition logit (p : R) : R := ln (p / (1 - p)).

Lemma quantile_exists : exists Phi ppf, normal_quantile Phi ppf.
Proof.
  exists logistic, logit. split; intros; unfold logistic, logit.
  - pose proof (exp_pos (- x)). pose proof (exp_pos (- y)).
    assert (exp (- y) < exp (- x)) by (apply exp_increasing; lra).
    unfold Rdiv. rewrite !Rmult_1_l. apply Rinv_lt_contravar; [apply Rmult_lt_0_compat; lra|lra].
  - rewrite Ropp_involutive. rewrite exp_Ropp. pose proof (exp_pos x). field. split; lra.
  - assert (0 < p / (1 - p)) by (apply Rdiv_lt_0_compat; lra).
    rewrite exp_Ropp, exp_ln by assumption. field. repeat split; lra.
Qed.
