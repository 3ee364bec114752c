(** Each constructor samples the distribution it names (C115). *)
From Verif Require Import Base M_Weights SpecWeights P_Weights M_Pick M_Values M_Sampler M_Ctor
  SpecSampler SpecSampler2 SpecCtor P_Sampler P_Count P_Clip P_Ops P_Sampler2 P_Support P_Pure P_Mixture P_Ctor.
From Coq Require Import Lqa.
Open Scope Q_scope.

Section Request.
  Variable Or : oracle.
  Hypothesis RL : right_length Or.
  Notation St := (state (G Or)).

  Lemma frun (r : freq) (f : list Q -> val) n (s : St) v s' :
    (let! l := rngf Or r n in ret (f l)) s = (Ok v, s') <->
    exists xs g, drawf Or r n (rng s) = (Ok xs, g) /\ s' = mkState g (corr s) /\ v = f xs.
  Proof.
    unfold bindS, rngf. destruct (drawf Or r n (rng s)) as [[l|e] g] eqn:D; simpl; split.
    - intros H. inversion H; subst. eauto.
    - intros (xs & g' & E & -> & ->). inversion E; subst. reflexivity.
    - discriminate.
    - intros (xs & g' & E & _). discriminate.
  Qed.
  Lemma irun (r : ireq) (f : list Z -> val) n (s : St) v s' :
    (let! l := rngi Or r n in ret (f l)) s = (Ok v, s') <->
    exists xs g, drawi Or r n (rng s) = (Ok xs, g) /\ s' = mkState g (corr s) /\ v = f xs.
  Proof.
    unfold bindS, rngi. destruct (drawi Or r n (rng s)) as [[l|e] g] eqn:D; simpl; split.
    - intros H. inversion H; subst. eauto.
    - intros (xs & g' & E & -> & ->). inversion E; subst. reflexivity.
    - discriminate.
    - intros (xs & g' & E & _). discriminate.
  Qed.
  Lemma finish_run (m : M St val) s v s' (P : val -> Prop) :
    (forall w s1, m s = (Ok w, s1) -> P w) -> (forall w, P w -> finish_list Or w = w) ->
    (match m s with (Ok u, s') => (Ok (finish_list Or u), s') | (Err e, s') => (Err e, s') end = (Ok v, s') <->
     m s = (Ok v, s')).
  Proof.
    intros H1 H2. destruct (m s) as [[w|e] s1] eqn:E; [|tauto].
    rewrite (H2 w (H1 _ _ eq_refl)). reflexivity.
  Qed.
  Lemma finish_simplify l : np_array (fmt Or) l = l -> finish_list Or (simplify l) = simplify l.
  Proof. intros H. now rewrite simplify_finish, H. Qed.

  Lemma float_requests c d r f n s v s' : (1 <= n)%nat -> construct c = Ok d -> float_request c = Some (r, f) ->
    (smp Or (unclipped (ODist d)) n None None s = (Ok v, s') <->
     exists xs g, drawf Or r n (rng s) = (Ok xs, g) /\ s' = mkState g (corr s) /\ v = simplify (map f xs)).
  Proof.
    intros N C R.
    assert (K : exists k lc rc, d = DLeaf k lc rc /\
       forall s v s', leaf_sample Or k n s = (Ok v, s') <->
        exists xs g, drawf Or r n (rng s) = (Ok xs, g) /\ s' = mkState g (corr s) /\ v = simplify (map f xs)).
    { destruct c; try discriminate R; cbn [float_request] in R; cbn [construct] in C.
      all: try match goal with p : option Q |- _ => destruct p; try discriminate R end.
      all: repeat match type of C with (if ?b then _ else _) = _ => destruct b eqn:?; try discriminate C end.
      all: inversion C; inversion R; subst; do 3 eexists; split; [reflexivity|]; intros s0 v0 s0';
           cbn [leaf_sample]; unfold fsample, flts, bernoulli_sample, pareto_sample, pert_sample.
      all: try (rewrite frun; split; intros (xs & g & D & -> & ->); exists xs, g; repeat split; auto; fail).
      - unfold pert_alpha, pert_beta. destruct (Qeq_bool (r0 - l) 0) eqn:E.
        + exfalso. apply Qeq_bool_iff in E.
          match goal with H : Qeq_bool l r0 = false |- _ => apply Qeq_bool_neq in H; apply H; lra end.
        + rewrite frun. split; intros (xs & g & D & -> & ->); exists xs, g; repeat split; auto;
            unfold flts; now rewrite map_map.
      - rewrite frun. split; intros (xs & g & D & -> & ->); exists xs, g; repeat split; auto; unfold flts; now rewrite map_map. }
    destruct K as (k & lc & rc & -> & K). cbn [unclipped].
    rewrite smp_odist, smp_leaf, wrap_none by auto.
    rewrite (finish_run _ _ _ _ (fun w => exists xs, w = simplify (map f xs))).
    - apply K.
    - intros w s1 H. apply K in H as (xs & g & _ & _ & ->). eauto.
    - intros w (xs & ->). apply finish_simplify. apply np_array_uniform.
      destruct c; try discriminate R; cbn [float_request] in R;
        try match goal with p : option Q |- _ => destruct p; try discriminate R end;
        inversion R; subst;
        first [left; unfold floats; rewrite Forall_map; apply Forall_forall; now eauto
              |right; unfold integers; rewrite Forall_map; apply Forall_forall; now eauto].
  Qed.

  Lemma int_requests c d r f n s v s' : (1 <= n)%nat -> construct c = Ok d -> int_request c = Some (r, f) ->
    (smp Or (unclipped (ODist d)) n None None s = (Ok v, s') <->
     exists xs g, drawi Or r n (rng s) = (Ok xs, g) /\ s' = mkState g (corr s) /\ v = simplify (map f xs)).
  Proof.
    intros N C R.
    assert (K : exists k lc rc, d = DLeaf k lc rc /\
       forall s v s', leaf_sample Or k n s = (Ok v, s') <->
        exists xs g, drawi Or r n (rng s) = (Ok xs, g) /\ s' = mkState g (corr s) /\ v = simplify (map f xs)).
    { destruct c; try discriminate R; cbn [int_request] in R; cbn [construct] in C.
      all: repeat match type of C with (if ?b then _ else _) = _ => destruct b eqn:?; try discriminate C end.
      all: inversion C; inversion R; subst; do 3 eexists; split; [reflexivity|]; intros s0 v0 s0';
           cbn [leaf_sample]; unfold isample, ints.
      all: try (rewrite irun; split; intros (xs & g & D & -> & ->); exists xs, g; repeat split; auto; fail).
      unfold coin_sample. destruct n as [|[|n]]; [lia| |].
      - unfold one_int. split.
        + intros H. apply bindS_ok in H as (z & s1 & H & H'). apply ret_ok in H' as [<- <-].
          apply bindS_ok in H as (l & s2 & H & H'). pose proof (rngi_length Or RL _ _ _ _ _ H) as Ln.
          destruct l as [|y [|]]; try discriminate. apply ret_ok in H' as [<- <-].
          unfold rngi in H. destruct (drawi Or (RInt 0 2) 1 (rng s0)) as [x g] eqn:D. inversion H; subst.
          exists [y], g. auto.
        + intros (xs & g & D & -> & ->). pose proof (proj2 RL _ _ _ _ _ D) as Ln.
          destruct xs as [|y [|]]; try discriminate. unfold bindS, rngi. rewrite D. reflexivity.
      - rewrite irun. split; intros (xs & g & D & -> & ->); exists xs, g; repeat split; auto;
          pose proof (proj2 RL _ _ _ _ _ D) as Ln; destruct xs as [|x [|y xs]]; try discriminate; reflexivity. }
    destruct K as (k & lc & rc & -> & K). cbn [unclipped].
    rewrite smp_odist, smp_leaf, wrap_none by auto.
    rewrite (finish_run _ _ _ _ (fun w => exists xs, w = simplify (map f xs))).
    - apply K.
    - intros w s1 H. apply K in H as (xs & g & _ & _ & ->). eauto.
    - intros w (xs & ->). apply finish_simplify.
      destruct c; try discriminate R; cbn [int_request] in R; inversion R; subst.
      all: first [apply np_array_uniform; right; unfold integers; rewrite Forall_map; apply Forall_forall; now eauto
                 |apply np_array_strings; rewrite Forall_map; apply Forall_forall; now eauto].
  Qed.
  (** A failing call fails the sampling. *)
  Lemma request_errors c d n s e g : (1 <= n)%nat -> construct c = Ok d ->
    (exists r f, float_request c = Some (r, f) /\ drawf Or r n (rng s) = (Err e, g)) ->
    smp Or (ODist d) n None None s = (Err e, mkState g (corr s)).
  Proof.
    intros N C (r & f & R & D). destruct n as [|n]; [lia|].
    destruct c; try discriminate R; cbn [float_request] in R; cbn [construct] in C.
    all: try match goal with p : option Q |- _ => destruct p; try discriminate R end.
    all: repeat match type of C with (if ?b then _ else _) = _ => destruct b eqn:?; try discriminate C end.
    all: inversion C; inversion R; subst; rewrite smp_odist, smp_leaf; unfold wrap;
         cbn [leaf_sample]; unfold fsample, bernoulli_sample, pareto_sample, pert_sample.
    all: try (unfold bindS, rngf; rewrite D; reflexivity).
    destruct (Qeq_bool (r0 - l) 0) eqn:E.
    - exfalso. apply Qeq_bool_iff in E.
      match goal with H : Qeq_bool l r0 = false |- _ => apply Qeq_bool_neq in H; apply H; lra end.
    - unfold bindS, rngf, pert_alpha, pert_beta; rewrite D; reflexivity.
  Qed.
End Request.
