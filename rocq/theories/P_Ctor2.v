(** t distributions with bounds and discrete distributions: when they can be
    sampled (C84). *)
From Verif Require Import Base M_Weights SpecWeights P_Weights M_Pick M_Values M_Sampler M_Ctor
  SpecSampler SpecSampler2 SpecCtor P_Sampler P_Count P_Clip P_Ops P_Sampler2 P_Support P_Pure P_Mixture P_Ctor.
From Coq Require Import Lqa.
Open Scope Q_scope.

Section TBounds.
  Variable Or : oracle.
  Hypothesis NC : numpy_checks Or.
  Hypothesis RL : right_length Or.
  Notation quantile cred := (ppf Or ((1#2) + (1#2) * (cred / 100))).

  Lemma half_up a b : a < b -> 0 < b - (b + a) / 2.
  Proof. intros L. assert ((b + a) / 2 == (1#2) * b + (1#2) * a) as -> by field. lra. Qed.
  Lemma div_pos a b : 0 < a -> 0 < b -> 0 <= a / b.
  Proof. intros A B. apply Qle_shift_div_l; auto. lra. Qed.
  Lemma div_neg a b : 0 < a -> b < 0 -> ~ 0 <= a / b.
  Proof.
    intros A B H.
    assert (E : a == (a / b) * b) by (field; lra). nra.
  Qed.
  Lemma qeqb_false a b : ~ a == b -> Qeq_bool a b = false.
  Proof. intros H. apply not_true_is_false. rewrite Qeq_bool_iff. exact H. Qed.

  Lemma t_bounded lo hi t cred n : num_q lo < num_q hi ->
    (0 < quantile cred -> 0 < t -> runs Or (leaf_sample Or (LT (Some lo) (Some hi) t cred) n)) /\
    (quantile cred < 0 \/ (0 < quantile cred /\ ~ 0 < t) -> rejects Or (leaf_sample Or (LT (Some lo) (Some hi) t cred) n)).
  Proof.
    intros L. cbn [leaf_sample]. unfold t_sample.
    rewrite (proj2 (qlt_false (num_q hi) (num_q lo))) by lra. rewrite qeqb_false by lra.
    pose proof (half_up _ _ L) as HU. split.
    - intros P T. rewrite qeqb_false by lra. cbv zeta.
      apply runs_bind; [apply runs_f; auto; apply div_pos; auto|]. intros zs.
      apply runs_bind; [apply runs_f; auto|]. intros cs. apply runs_ret.
    - intros P. rewrite qeqb_false by (destruct P; lra). cbv zeta.
      destruct P as [P|[P T]].
      + apply rejects_bind, rejects_f; auto. simpl. apply div_neg; auto.
      + intros s. destruct (runs_f Or NC (RNormal ((num_q hi + num_q lo) / 2)
           ((num_q hi - (num_q hi + num_q lo) / 2) / quantile cred)) n) with (s := s) as (zs & s1 & E).
        { simpl. apply div_pos; auto. }
        unfold bindS at 1. rewrite E. apply rejects_bind, rejects_f; auto.
  Qed.
  Lemma log_t_bounded lo hi t cred n : 0 < num_q lo -> num_q lo < num_q hi -> log_ Or (num_q lo) < log_ Or (num_q hi) ->
    (0 < quantile cred -> 0 < t -> runs Or (leaf_sample Or (LLogT (Some lo) (Some hi) t cred) n)) /\
    (quantile cred < 0 \/ (0 < quantile cred /\ ~ 0 < t) -> rejects Or (leaf_sample Or (LLogT (Some lo) (Some hi) t cred) n)).
  Proof.
    intros L0 L LL. cbn [leaf_sample]. unfold log_t_sample.
    rewrite (proj2 (qlt_false (num_q hi) (num_q lo))) by lra. rewrite (proj2 (qlt_false (num_q lo) 0)) by lra.
    rewrite !qeqb_false with (a := num_q lo) by lra.
    pose proof (half_up _ _ LL) as HU. split.
    - intros P T. rewrite qeqb_false by lra. cbv zeta.
      apply runs_bind; [apply runs_f; auto; apply div_pos; auto|]. intros zs.
      apply runs_bind; [apply runs_f; auto|]. intros cs. apply runs_ret.
    - intros P. rewrite qeqb_false by (destruct P; lra). cbv zeta.
      destruct P as [P|[P T]].
      + apply rejects_bind, rejects_f; auto. simpl. apply div_neg; auto.
      + intros s. destruct (runs_f Or NC (RNormal ((log_ Or (num_q hi) + log_ Or (num_q lo)) / 2)
           ((log_ Or (num_q hi) - (log_ Or (num_q hi) + log_ Or (num_q lo)) / 2) / quantile cred)) n) with (s := s) as (zs & s1 & E).
        { simpl. apply div_pos; auto. }
        unfold bindS at 1. rewrite E. apply rejects_bind, rejects_f; auto.
  Qed.

  Lemma bounded_t_samples k lo hi t cred lc rc n s :
    (k = LT (Some lo) (Some hi) t cred \/
     k = LLogT (Some lo) (Some hi) t cred /\ 0 < num_q lo /\ log_ Or (num_q lo) < log_ Or (num_q hi)) ->
    num_q lo < num_q hi -> (1 <= n)%nat ->
    (0 < quantile cred -> 0 < t -> exists v s', smp Or (ODist (DLeaf k lc rc)) n None None s = (Ok v, s')) /\
    (quantile cred < 0 \/ (0 < quantile cred /\ ~ 0 < t) ->
     exists msg s', smp Or (ODist (DLeaf k lc rc)) n None None s = (Err (ValueError msg), s')).
  Proof.
    intros [->|(-> & L0 & LL)] L N.
    - destruct (t_bounded lo hi t cred n L) as [A B]. split.
      + intros P T. apply smp_leaf_runs; auto. left. exact I.
      + intros P. apply smp_leaf_rejects; auto.
    - destruct (log_t_bounded lo hi t cred n L0 L LL) as [A B]. split.
      + intros P T. apply smp_leaf_runs; auto. left. exact I.
      + intros P. apply smp_leaf_rejects; auto.
  Qed.
End TBounds.

(** Weights that [_process_weights_values] rejects are only noticed when sampling. *)
Lemma discrete_rejected Or k e n s : (1 <= n)%nat ->
  (exists items, k = LCatList items /\ cat_list items = Err e) \/
  (exists items, k = LCatDict items /\ cat_dict items = Err e) ->
  smp Or (ODist (DLeaf k None None)) n None None s = (Err e, s).
Proof.
  intros N K. rewrite smp_odist, smp_leaf, wrap_none by auto.
  destruct K as [(items & -> & E)|(items & -> & E)]; cbn [leaf_sample]; unfold discrete_sample, bindS, lift; now rewrite E.
Qed.
