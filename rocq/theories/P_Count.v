(** How many samples come out (properties C13 and C14). *)
From Verif Require Import Base M_Weights SpecWeights P_Weights M_Pick M_Values M_Sampler SpecSampler P_Sampler.
Open Scope Q_scope.

Lemma n_simplify n l : length l = n -> n_samples n (simplify l).
Proof.
  intros <-. destruct l as [|x [|y l]]; simpl; eauto.
Qed.
Lemma n_arr n l : length l = n -> n <> 1%nat -> n_samples n (Arr l).
Proof. intros H N. unfold n_samples. destruct n as [|[|n]]; eauto. congruence. Qed.
Lemma n_elems n v : n_samples n v -> length (elems v) = n.
Proof.
  unfold n_samples. destruct n as [|[|n]]; intros H.
  - destruct H as (l & -> & H). auto.
  - destruct H as (x & ->). reflexivity.
  - destruct H as (l & -> & H). auto.
Qed.
Lemma n_cases n v : n_samples n v ->
  (n = 1%nat /\ exists x, v = Scalar x) \/ (n <> 1%nat /\ exists l, v = Arr l /\ length l = n).
Proof.
  destruct n as [|[|n]]; intros H; simpl in H; [right|left|right]; split; auto.
Qed.

Lemma np_array_length f l : length (np_array f l) = length l.
Proof.
  unfold np_array. repeat (destruct (existsb _ l); [try rewrite map_length; reflexivity|]). reflexivity.
Qed.

Section Count.
  Variable Or : oracle.
  Notation St := (state (G Or)).
  Hypothesis RL : right_length Or.

  Lemma rngf_length r n s l s' : rngf Or r n s = (Ok l, s') -> length l = n.
  Proof.
    unfold rngf. destruct (drawf Or r n (rng s)) eqn:E. intros H; inversion H; subst.
    eapply (proj1 RL); eauto.
  Qed.
  Lemma rngi_length r n s l s' : rngi Or r n s = (Ok l, s') -> length l = n.
  Proof.
    unfold rngi. destruct (drawi Or r n (rng s)) eqn:E. intros H; inversion H; subst.
    eapply (proj2 RL); eauto.
  Qed.

  Lemma n_finish n v : n_samples n v -> n_samples n (finish_list Or v).
  Proof.
    intros H. apply n_cases in H as [[-> (x & ->)]|[N (l & -> & L)]]; simpl; eauto.
    apply n_arr; auto. now rewrite np_array_length.
  Qed.
  Lemma n_lclip n c v w : n_samples n v -> apply_lclip c v = Ok w -> n_samples n w.
  Proof.
    intros H. destruct c as [b|]; simpl; [|congruence].
    apply n_cases in H as [[-> (x & ->)]|[N (l & -> & L)]].
    - intros E. apply bind_ok in E as (y & _ & E). inversion E. simpl; eauto.
    - intros E.
      assert (exists ys, mapM (np_max b) l = Ok ys /\ w = Arr ys) as (ys & Hy & ->).
      { destruct l as [|x [|y l]]; [|simpl in L; congruence|];
        apply bind_ok in E as (ys & Hy & E); inversion E; eauto. }
      apply n_arr; auto. rewrite <- L. now apply mapM_length in Hy.
  Qed.
  Lemma n_rclip n c v w : n_samples n v -> apply_rclip c v = Ok w -> n_samples n w.
  Proof.
    intros H. destruct c as [b|]; simpl; [|congruence].
    apply n_cases in H as [[-> (x & ->)]|[N (l & -> & L)]].
    - intros E. apply bind_ok in E as (y & _ & E). inversion E. simpl; eauto.
    - intros E.
      assert (exists ys, mapM (np_min b) l = Ok ys /\ w = Arr ys) as (ys & Hy & ->).
      { destruct l as [|x [|y l]]; [|simpl in L; congruence|];
        apply bind_ok in E as (ys & Hy & E); inversion E; eauto. }
      apply n_arr; auto. rewrite <- L. now apply mapM_length in Hy.
  Qed.

  Lemma n_wrap own body n lc rc s v s' :
    (forall n v s1 s2, body n s1 = (Ok v, s2) -> n_samples n v) ->
    wrap Or own body n lc rc s = (Ok v, s') -> (1 <= n)%nat /\ n_samples n v.
  Proof.
    intros HB H. unfold wrap in H. destruct n as [|n]; [discriminate|].
    inv_ok H. split; [lia|].
    apply n_finish. unfold apply_clips in Ha0.
    apply bind_ok in Ha0 as (w & E1 & E2).
    eapply n_rclip; [|eassumption]. eapply n_lclip; [|eassumption]. eauto.
  Qed.

  Lemma n_leaf_basic k n s v s' :
    covered_leaf k ->
    match k with LCatList _ | LCatDict _ => False | _ => True end ->
    leaf_sample Or k n s = (Ok v, s') -> n_samples n v.
  Proof.
    intros C NC H. destruct k; simpl in *; try contradiction;
      unfold fsample, isample, inverse_lognormal_sample, bernoulli_sample, pareto_sample in H;
      try (inv_ok H; apply n_simplify; unfold flts, ints; rewrite ?map_length;
           first [eapply rngf_length; eassumption | eapply rngi_length; eassumption]).
    - inv_ok H. apply n_simplify. rewrite np_array_length. apply repeat_length.
    - destruct sd; [|now apply raise_ok in H]. inv_ok H. apply n_simplify.
      unfold flts. rewrite map_length. eapply rngf_length; eassumption.
    - unfold pert_sample in H. destruct (Qeq_bool _ _); inv_ok H. apply n_simplify.
      unfold flts. rewrite !map_length. eapply rngf_length; eassumption.
    - destruct x as [x|], y as [y|]; try contradiction. unfold t_sample in H.
      destruct (Qlt_bool _ _); [inv_ok H|].
      destruct (Qeq_bool _ _) eqn:E; [apply Qeq_bool_eq in E; contradiction|]. destruct (Qeq_bool (ppf _ _) 0); [inv_ok H|].
      inv_ok H. apply n_simplify. unfold flts. rewrite !map_length, combine_length.
      apply rngf_length in Ha. apply rngf_length in Ha0. lia.
    - destruct x as [x|], y as [y|]; try contradiction. unfold log_t_sample in H.
      destruct (Qlt_bool _ _); [inv_ok H|]. destruct (Qlt_bool _ _); [inv_ok H|].
      destruct (Qeq_bool _ _) eqn:E; [apply Qeq_bool_eq in E; contradiction|]. destruct (Qeq_bool (num_q x) 0); [inv_ok H|]. destruct (Qeq_bool (ppf _ _) 0); [inv_ok H|].
      inv_ok H. apply n_simplify. unfold flts. rewrite !map_length, combine_length.
      apply rngf_length in Ha. apply rngf_length in Ha0. lia.
    - unfold die_sample in H. destruct n as [|[|n]]; inv_ok H; simpl; eauto;
        eexists; split; eauto; unfold ints; rewrite map_length;
        eapply replicateS_length in Ha; assumption.
    - unfold coin_sample in H. destruct n as [|[|n]]; inv_ok H; simpl; eauto;
        eexists; split; eauto; rewrite map_length; eapply rngi_length in Ha; assumption.
  Qed.

  Definition good_sampler (c : sampler Or) : Prop :=
    forall n s v s', c n s = (Ok v, s') -> n_samples n v.

  Lemma n_small comps ws n s v s' : small_n Or comps ws n s = (Ok v, s') -> n_samples n v.
  Proof.
    intros H. unfold small_n in H. apply bindS_ok in H as (l & s1 & Hl & H).
    apply ret_ok in H as [<- _]. apply n_simplify. eapply replicateS_length; eauto.
  Qed.
  Lemma n_large comps ws n s v s' : large_n Or comps ws n s = (Ok v, s') -> n_samples n v.
  Proof.
    intros H. unfold large_n in H. inv_ok H. apply n_simplify.
    apply zipM_length in Ha1 as [L _]. rewrite L. eapply rngf_length; eauto.
  Qed.

  Lemma mixture_comps (comps : list (sampler Or)) ws ws' comps' :
    fst (pwv (fun _ => None) (fun _ => false) (WList (map Num ws)) WNone (VList comps) false) = Ok (ws', comps') ->
    length ws' = length comps' /\ positive ws' /\ range_ok (total ws') /\ incl comps' comps.
  Proof.
    intros H. destruct (pwv _ _ _ _ _ _) as [r aft] eqn:E. cbn in H; subst r.
    destruct (pwv_usable _ _ _ _ _ _ _ _ _ E) as (k & gw & vals & fw & Hg & _ & [Hl Hc] & _ & Hp & Hr & _).
    { intros Hz. destruct Hz as (l0 & Hz & _). destruct Hz; discriminate. }
    repeat (split; [assumption|]).
    inversion Hg; subst; try discriminate. inversion H0; subst.
    intros c Hin. apply (In_nth _ _ c) in Hin as (i & Hi & <-).
    assert (In (nth i ws' 0, nth i comps' c) (combine ws' comps')) as K.
    { rewrite <- combine_nth by assumption. apply nth_In. rewrite combine_length. lia. }
    rewrite Hc in K. apply filter_In in K as [K _]. now apply in_combine_r in K.
  Qed.

  Lemma n_mixture comps ws : Forall good_sampler comps -> good_sampler (mixture_sample Or comps ws).
  Proof.
    intros F n s v s' H. unfold mixture_sample in H.
    destruct (fst _) as [[ws' comps']|e] eqn:E; [|now apply raise_ok in H].
    apply mixture_comps in E as (_ & _ & _ & I).
    destruct comps' as [|c [|c2 comps']].
    - destruct (Nat.ltb 100 n); [eapply n_large | eapply n_small]; eassumption.
    - rewrite Forall_forall in F. apply (F c) in H; auto. apply I. now left.
    - destruct (Nat.ltb 100 n); [eapply n_large | eapply n_small]; eassumption.
  Qed.
  Lemma const_good x : good_sampler (const_sampler Or x).
  Proof.
    intros n s v s' H. unfold const_sampler in H. inv_ok H. apply n_simplify.
    rewrite np_array_length. apply repeat_length.
  Qed.
  Lemma n_leaf k : covered_leaf k -> good_sampler (leaf_sample Or k).
  Proof.
    intros C n s v s' H. destruct k; try (eapply n_leaf_basic; [exact C| |exact H]; exact I);
      simpl in H; unfold discrete_sample in H; inv_ok H;
      (eapply n_mixture; [|exact H]); apply Forall_forall; intros c Hc;
      apply in_map_iff in Hc as (x & <- & _); apply const_good.
  Qed.

  (** Elementwise functions keep the number of samples. *)
  Lemma n_lift2 f n a b v : n_samples n a -> n_samples n b -> lift2 f a b = Ok v -> n_samples n v.
  Proof.
    intros Ha Hb H.
    apply n_cases in Ha as [[-> (x & ->)]|[N (l & -> & L)]].
    - destruct Hb as (y & ->). simpl in H. apply bind_ok in H as (z & _ & E). inversion E; simpl; eauto.
    - apply n_cases in Hb as [[-> _]|[_ (m & -> & L')]]; [congruence|].
      assert (exists zs, zipM (f true) l m = Ok zs /\ v = Arr zs) as (zs & Hz & ->).
      { simpl in H. destruct l as [|x [|x2 l]]; [|simpl in L; congruence|];
        destruct m as [|y [|y2 m]]; try (simpl in L'; congruence);
        apply bind_ok in H as (zs & Hz & E); inversion E; eauto. }
      apply n_arr; auto. apply zipM_length in Hz as [Hz _]. congruence.
  Qed.
  Lemma n_lift1 f n a v : n_samples n a -> lift1 f a = Ok v -> n_samples n v.
  Proof.
    intros Ha H.
    apply n_cases in Ha as [[-> (x & ->)]|[N (l & -> & L)]]; simpl in H;
      apply bind_ok in H as (z & Hz & E); inversion E; simpl; eauto.
    apply n_arr; auto. apply mapM_length in Hz. congruence.
  Qed.
  Lemma n_vec_cast l r : vec_cast l = Ok r -> length r = length l.
  Proof. destruct l; [discriminate|]. apply mapM_length. Qed.
  Lemma n_vec1 f n a v : n_samples n a -> vectorize1 f a = Ok v -> n_samples n v.
  Proof.
    intros Ha H.
    apply n_cases in Ha as [[-> (x & ->)]|[N (l & -> & L)]]; simpl in H;
      apply bind_ok in H as (z & Hz & E).
    - inversion E; simpl; eauto.
    - apply bind_ok in E as (zs & Hz' & E). inversion E. apply n_arr; auto.
      apply mapM_length in Hz. apply n_vec_cast in Hz'. congruence.
  Qed.
  Lemma n_vec2 f n a b v : n_samples n a -> n_samples n b -> vectorize2 f a b = Ok v -> n_samples n v.
  Proof.
    intros Ha Hb H. unfold vectorize2 in H. apply bind_ok in H as (w & Hw & H).
    eapply n_lift2 in Hw; eauto. apply n_cases in Hw as [[-> (x & ->)]|[N (l & -> & L)]].
    - inversion H; simpl; eauto.
    - apply bind_ok in H as (zs & Hz' & E). inversion E. apply n_arr; auto.
      apply n_vec_cast in Hz'. congruence.
  Qed.
  Lemma n_apply f n a b v : n_samples n a -> match b with Some y => n_samples n y | None => True end ->
    apply_fn Or f a b = Ok v -> n_samples n v.
  Proof.
    intros Ha Hb H. destruct f, b; simpl in H; try discriminate;
      eauto using n_lift2, n_lift1, n_vec1, n_vec2.
  Qed.

  (** [covered] in the form the induction needs. *)
  Definition P_n (o : obj (G Or)) : Prop :=
    covered o -> forall n lc rc s v s', smp Or o n lc rc s = (Ok v, s') -> n_samples n v.
  Definition R_n (d : dist (G Or)) : Prop :=
    covered_dist d -> forall b n lc rc s v s', smp_dist Or b d n lc rc s = (Ok v, s') -> n_samples n v.

  Lemma sample_count o : P_n o.
  Proof.
    apply (obj_ind' P_n R_n); unfold P_n, R_n.
    - intros x _ n lc rc s v s' H. rewrite smp_lit in H. eapply n_wrap; [|exact H].
      intros m w s1 s2 E. inv_ok E. apply n_simplify. apply repeat_length.
    - intros f IH C n lc rc s v s' H. rewrite smp_call in H. eapply n_wrap; [|exact H].
      intros m w s1 s2 E. inv_ok E. apply n_simplify. rewrite np_array_length.
      apply replicateS_length in Ha. apply seqS_length in Ha0. rewrite map_length in Ha0. congruence.
    - intros d IH C n lc rc s v s' H. rewrite smp_odist in H. eapply IH; eauto.
    - intros _ n lc rc s v s' H. rewrite smp_other in H. eapply n_wrap; [|exact H].
      intros m w s1 s2 E. inv_ok E.
    - intros k l r C b n lc rc s v s' H. rewrite smp_leaf in H. eapply n_wrap; [|exact H].
      intros m w s1 s2 E. eapply n_leaf; eauto.
    - intros ws ds l r IH C b n lc rc s v s' H. rewrite smp_mix in H. eapply n_wrap; [|exact H].
      intros m w s1 s2 E. eapply n_mixture; [|exact E].
      simpl in C. clear -IH C. induction IH; simpl in *; constructor.
      + intros n s v s' H'. eapply H; eauto. tauto.
      + apply IHIH. tauto.
    - intros l r f IHl IHr IHf C b n lc rc s v s' H. rewrite smp_complex in H.
      simpl in C. destruct C as (Cl & Cr & Cf).
      eapply n_wrap; [|exact H]. clear n lc rc s v s' H.
      intros n v s s' H. apply bindS_ok in H as (a & s1 & Ha & H). apply bindS_ok in H as (y & s2 & Hy & H).
      assert (Na : n_samples n a) by eauto.
      assert (Ny : match y with Some w => n_samples n w | None => True end).
      { destruct y as [w|]; auto. unfold right_sample in Hy.
        destruct r as [[]| | |]; inv_ok Hy; try discriminate;
          match goal with E : Some _ = Some _ |- _ => inversion E; subst end; eauto. }
      unfold fn_result in H.
      assert (U : forall x, (forall v s', x = (Ok (inl v), s') -> n_samples n v) ->
                  (forall o' s', x = (Ok (inr o'), s') -> P_n o' /\ covered o') ->
                  user_result Or n x = (Ok v, s') -> n_samples n v).
      { intros [[[u|o']|e] s3] H1 H2 H3; simpl in H3; try discriminate.
        - inversion H3; subst. eauto.
        - destruct (is_dist_or_callable o'); [|discriminate].
          destruct (H2 _ _ eq_refl) as [K1 K2]. eapply K1; eauto. }
      clear l r IHl IHr Cl Cr Ha Hy.
      destruct f; destruct y; cbn -[apply_fn user_result] in H; try discriminate.
      all: try (apply pair_equal_spec in H as [H _]; revert H;
                match goal with |- apply_fn _ _ _ ?y = _ -> _ =>
                  intros H; apply (n_apply _ n a y v Na) in H; assumption end).
      + destruct Cf as [C1 C2]. apply U in H; auto.
        * intros u s3 E. eapply C1; eauto.
        * intros o' s3 E. split; [exact (IHf _ _ _ _ E)|]. specialize (C2 a s2). rewrite E in C2. auto.
      + destruct Cf as [C1 C2]. apply U in H; auto.
        * intros u s3 E. eapply C1 in E; eauto.
        * intros o' s3 E. split; [exact (IHf _ _ _ _ _ E)|]. specialize (C2 a v0 s2). rewrite E in C2. auto.
    - intros g i ms _ C. destruct C.
  Qed.
  Lemma sample_needs_n o n lc rc s v s' : smp Or o n lc rc s = (Ok v, s') -> (1 <= n)%nat.
  Proof.
    destruct n; [|lia].
    destruct o; try discriminate. rewrite smp_odist. destruct d; discriminate.
  Qed.
End Count.
