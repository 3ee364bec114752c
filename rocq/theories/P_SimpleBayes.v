(** Lemmas about [simple_bayes]. *)
From Coq Require Import Lqa.
From Verif Require Import Base M_Weights M_Pick M_Values M_Sampler M_SampleApi M_Bayesnet P_Weights P_Clip.
Open Scope Q_scope.

Definition is_prob (p : Q) : Prop := 0 <= p /\ p <= 1.

Lemma qdiv_le_1 a b : 0 < b -> a <= b -> a / b <= 1.
Proof. intros. apply Qle_shift_div_r; [assumption|]. now rewrite Qmult_1_l. Qed.
Lemma qdiv_ge_0 a b : 0 < b -> 0 <= a -> 0 <= a / b.
Proof. intros. apply Qle_shift_div_l; [assumption|]. now rewrite Qmult_0_l. Qed.

Section SB.
  Variables lh lnh prior : Q.
  Hypothesis Hh : is_prob lh.
  Hypothesis Hn : is_prob lnh.
  Hypothesis Hp : is_prob prior.

  Lemma joint_h : 0 <= lh * prior.
  Proof. destruct Hh, Hp. now apply Qmult_le_0_compat. Qed.
  Lemma joint_n : 0 <= lnh * (1 - prior).
  Proof. destruct Hn, Hp. apply Qmult_le_0_compat; auto. lra. Qed.

  Lemma bayes_raises : simple_bayes lh lnh prior = Err ZeroDivisionError <-> lh * prior + lnh * (1 - prior) == 0.
  Proof.
    unfold simple_bayes. destruct (Qeq_bool _ 0) eqn:E.
    - split; auto. intros _. now apply Qeq_bool_eq.
    - split; [discriminate|]. intros H. apply Qeq_bool_neq in E. contradiction.
  Qed.

  Lemma bayes_rule q : simple_bayes lh lnh prior = Ok q ->
    is_prob q /\ q * (lh * prior + lnh * (1 - prior)) == lh * prior /\
    q * (lnh * (1 - prior)) == (1 - q) * (lh * prior).
  Proof.
    unfold simple_bayes. destruct (Qeq_bool _ 0) eqn:E; [discriminate|]. intros H. apply ok_inj in H. subst q.
    apply Qeq_bool_neq in E. pose proof joint_h. pose proof joint_n.
    assert (P : 0 < lh * prior + lnh * (1 - prior)) by lra.
    split; [split; [apply qdiv_ge_0; auto|apply qdiv_le_1; auto; lra]|].
    split; field; auto.
  Qed.
End SB.

Lemma bayes_complement lh lnh prior q r :
  simple_bayes lh lnh prior = Ok q -> simple_bayes lnh lh (1 - prior) = Ok r -> q + r == 1.
Proof.
  unfold simple_bayes. destruct (Qeq_bool (lh * _ + _) 0) eqn:E; [discriminate|].
  destruct (Qeq_bool (lnh * _ + _) 0) eqn:E2; [discriminate|]. intros H H2.
  apply ok_inj in H. apply ok_inj in H2. subst. apply Qeq_bool_neq in E. apply Qeq_bool_neq in E2. field.
  auto.
Qed.

Lemma bayes_monotone lh lnh p1 p2 q1 q2 : is_prob lh -> is_prob lnh -> is_prob p1 -> is_prob p2 -> p1 <= p2 ->
  simple_bayes lh lnh p1 = Ok q1 -> simple_bayes lh lnh p2 = Ok q2 -> q1 <= q2.
Proof.
  intros Hh Hn H1 H2 L E1 E2.
  pose proof (joint_h lh p1 Hh H1). pose proof (joint_n lnh p1 Hn H1).
  pose proof (joint_h lh p2 Hh H2). pose proof (joint_n lnh p2 Hn H2).
  unfold simple_bayes in *. destruct (Qeq_bool (lh * p1 + _) 0) eqn:D1; [discriminate|].
  destruct (Qeq_bool (lh * p2 + _) 0) eqn:D2; [discriminate|]. apply ok_inj in E1. apply ok_inj in E2. subst.
  apply Qeq_bool_neq in D1. apply Qeq_bool_neq in D2.
  set (a := lh * p1 + lnh * (1 - p1)) in *. set (b := lh * p2 + lnh * (1 - p2)) in *.
  assert (0 < a) by (unfold a in *; lra). assert (0 < b) by (unfold b in *; lra).
  apply Qle_shift_div_r; auto.
  assert (X : lh * p2 / b * a == lh * p2 * a / b) by (field; auto). rewrite X.
  apply Qle_shift_div_l; auto.
  assert (Y : lh * p2 * a - lh * p1 * b == lh * lnh * (p2 - p1)) by (unfold a, b; ring).
  assert (0 <= lh * lnh * (p2 - p1)).
  { destruct Hh, Hn. apply Qmult_le_0_compat; [apply Qmult_le_0_compat; auto|lra]. }
  lra.
Qed.

Lemma bayes_evidence lh lnh lh' lnh' p q q' : is_prob lh -> is_prob lnh' -> is_prob p -> lh <= lh' -> lnh' <= lnh ->
  simple_bayes lh lnh p = Ok q -> simple_bayes lh' lnh' p = Ok q' -> q <= q'.
Proof.
  intros [Hh _] [Hn _] [P0 P1] L M E1 E2. unfold simple_bayes in *.
  destruct (Qeq_bool (lh * p + _) 0) eqn:D1; [discriminate|].
  destruct (Qeq_bool (lh' * p + _) 0) eqn:D2; [discriminate|]. apply ok_inj in E1. apply ok_inj in E2. subst.
  apply Qeq_bool_neq in D1. apply Qeq_bool_neq in D2.
  set (a := lh * p + lnh * (1 - p)) in *. set (b := lh' * p + lnh' * (1 - p)) in *.
  pose proof (Qmult_le_0_compat lh p Hh P0). pose proof (Qmult_le_0_compat lh' p ltac:(lra) P0).
  pose proof (Qmult_le_0_compat lnh (1 - p) ltac:(lra) ltac:(lra)). pose proof (Qmult_le_0_compat lnh' (1 - p) ltac:(lra) ltac:(lra)).
  assert (0 < a) by (unfold a in *; lra). assert (0 < b) by (unfold b in *; lra).
  apply Qle_shift_div_r; auto. assert (X : lh' * p / b * a == lh' * p * a / b) by (field; auto). rewrite X.
  apply Qle_shift_div_l; auto.
  assert (Y : lh' * p * a - lh * p * b == p * (1 - p) * ((lh' - lh) * lnh + lh * (lnh - lnh'))) by (unfold a, b; ring).
  assert (0 <= p * (1 - p) * ((lh' - lh) * lnh + lh * (lnh - lnh'))).
  { pose proof (Qmult_le_0_compat (lh' - lh) lnh ltac:(lra) ltac:(lra)). pose proof (Qmult_le_0_compat lh (lnh - lnh') ltac:(lra) ltac:(lra)).
    pose proof (Qmult_le_0_compat p (1 - p) ltac:(lra) ltac:(lra)). apply Qmult_le_0_compat; lra. }
  lra.
Qed.

(** Strictly, when both likelihoods are positive. *)
Lemma bayes_strict lh lnh p1 p2 q1 q2 : 0 < lh -> 0 < lnh -> is_prob p1 -> is_prob p2 -> p1 < p2 ->
  simple_bayes lh lnh p1 = Ok q1 -> simple_bayes lh lnh p2 = Ok q2 -> q1 < q2.
Proof.
  intros Hh Hn [? ?] [? ?] L E1 E2. unfold simple_bayes in *.
  set (a := lh * p1 + lnh * (1 - p1)) in *. set (b := lh * p2 + lnh * (1 - p2)) in *.
  destruct (Qeq_bool a 0) eqn:D1; [discriminate|].
  destruct (Qeq_bool b 0) eqn:D2; [discriminate|]. apply ok_inj in E1. apply ok_inj in E2. subst.
  apply Qeq_bool_neq in D1. apply Qeq_bool_neq in D2.
  assert (0 <= lh * p1) by (apply Qmult_le_0_compat; lra). assert (0 <= lh * p2) by (apply Qmult_le_0_compat; lra).
  assert (0 <= lnh * (1 - p1)) by (apply Qmult_le_0_compat; lra). assert (0 <= lnh * (1 - p2)) by (apply Qmult_le_0_compat; lra).
  assert (0 < a) by (unfold a in *; lra). assert (0 < b) by (unfold b in *; lra).
  apply Qlt_shift_div_r; auto.
  assert (X : lh * p2 / b * a == lh * p2 * a / b) by (field; auto). rewrite X.
  apply Qlt_shift_div_l; auto.
  assert (Y : lh * p2 * a - lh * p1 * b == lh * lnh * (p2 - p1)) by (unfold a, b; ring).
  assert (0 < lh * lnh * (p2 - p1)).
  { apply Qmult_lt_0_compat; [apply Qmult_lt_0_compat; auto|lra]. }
  lra.
Qed.

Lemma bayes_sequential lh1 lnh1 lh2 lnh2 prior q1 : simple_bayes lh1 lnh1 prior = Ok q1 ->
  match simple_bayes lh2 lnh2 q1, simple_bayes (lh1 * lh2) (lnh1 * lnh2) prior with
  | Ok a, Ok b => a == b
  | Err e, Err e' => e = e'
  | _, _ => False
  end.
Proof.
  intros E. unfold simple_bayes in *. set (d := lh1 * prior + lnh1 * (1 - prior)) in *.
  destruct (Qeq_bool d 0) eqn:D; [discriminate|]. apply ok_inj in E. subst q1. apply Qeq_bool_neq in D.
  set (x := lh2 * (lh1 * prior / d) + lnh2 * (1 - lh1 * prior / d)).
  set (y := lh1 * lh2 * prior + lnh1 * lnh2 * (1 - prior)).
  assert (X : x * d == y). { unfold x, y. field_simplify; auto. unfold d. field. }
  destruct (Qeq_bool x 0) eqn:Ex; destruct (Qeq_bool y 0) eqn:Ey; auto.
  - apply Qeq_bool_eq in Ex. apply Qeq_bool_neq in Ey. apply Ey. rewrite <- X, Ex. ring.
  - apply Qeq_bool_neq in Ex. apply Qeq_bool_eq in Ey. rewrite Ey in X. apply Qmult_integral in X. destruct X; contradiction.
  - apply Qeq_bool_neq in Ex. apply Qeq_bool_neq in Ey. rewrite <- X. field. auto.
Qed.
