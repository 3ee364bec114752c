(** Proofs about class tests, the correlation flag, [@], and seeding. *)
From Verif Require Import Base M_Weights SpecWeights P_Weights M_Pick M_Values M_Sampler M_Kinds
  SpecSampler SpecSampler2 SpecKinds P_Sampler P_Count P_Clip P_Ops P_Sampler2 P_Support P_Pure.
From Coq Require Import Qabs.
Open Scope Q_scope.

Lemma sampleable_iff {T} (a : anything T) :
  is_sampleable a = true <->
  (exists v, a = APython v) \/ (exists x, a = AFloat64 x) \/ (exists f, a = AFunction f) \/ (exists d, a = ADist d).
Proof.
  split.
  - destruct a; try discriminate; eauto 6.
  - intros [(v & ->)|[(x & ->)|[(f & ->)|(d & ->)]]]; try reflexivity. destruct v; reflexivity.
Qed.
Lemma unsampleable_raises Or (a : anything (G Or)) n s : (1 <= n)%nat -> is_sampleable a = false ->
  sample_any Or a n s = (Err (ValueError "input to sample is malformed"), s).
Proof. intros N H. unfold sample_any. destruct n; [lia|]. now rewrite H. Qed.
Lemma one_value_sampled Or (a : anything (G Or)) n s : (1 <= n)%nat -> one_value a -> is_sampleable a = true ->
  exists x, sample_any Or a n s = (Ok (finish_list Or (simplify (repeat x n))), s) /\
    (a = APython x \/ exists y, a = AFloat64 y /\ x = PFlt y).
Proof.
  intros N V H. destruct n as [|n]; [lia|]. unfold sample_any. rewrite H.
  destruct a; try contradiction; try discriminate.
  - exists v. split; auto.
  - exists (PFlt x). split; eauto.
Qed.

(* ------------------------------------------------------------------ *)
Lemma continuous_iff {T} (o : obj T) : is_continuous o = true <-> made_of_continuous o.
Proof.
  apply (obj_ind' (fun o => is_continuous o = true <-> made_of_continuous o)
                  (fun d => is_continuous_dist d = true <-> made_of_continuous (ODist d))).
  - intros v. split; [discriminate|]. intros H; inversion H.
  - intros f _. split; [discriminate|]. intros H; inversion H.
  - intros d IH. exact IH.
  - split; [discriminate|]. intros H; inversion H.
  - intros k lc rc. simpl. split; intros H; [now constructor|]. now inversion H.
  - intros ws ds lc rc IH. cbn. rewrite forallb_forall. rewrite Forall_forall in IH. split.
    + intros H. constructor. apply Forall_forall. intros x Hx. apply IH; auto.
    + intros H. inversion H; subst. rewrite Forall_forall in H1. intros x Hx. apply IH; auto.
  - intros l r f Hl Hr _. cbn. rewrite andb_true_iff, Hl, Hr. split.
    + intros [A B]. now constructor.
    + intros H. inversion H; subst. auto.
  - intros g i ms IH. cbn [is_continuous_dist].
    destruct (nth_error ms i) as [m|] eqn:E.
    + assert (N : nth i (map is_continuous_dist ms) false = is_continuous_dist m).
      { apply nth_error_nth. now rewrite nth_error_map, E. }
      rewrite N. rewrite Forall_forall in IH. rewrite (IH m) by (eapply nth_error_In; eassumption). split.
      * intros H. econstructor; eassumption.
      * intros H. inversion H; subst. congruence.
    + rewrite nth_overflow.
      * split; [discriminate|]. intros H; inversion H; subst. congruence.
      * rewrite map_length. now apply nth_error_None.
Qed.

Lemma floats_np f l : floats l -> np_array f l = l.
Proof. intros H. apply np_array_uniform. unfold uniform_kind. auto. Qed.

Section Floats.
  Variable Or : oracle.
  Notation St := (state (G Or)).
  Definition fl (v : val) : Prop := floats (elems v).

  Lemma fl_simplify l : floats l -> fl (simplify l).
  Proof. unfold fl. now rewrite elems_simplify. Qed.
  Lemma fl_flts l : floats (flts l).
  Proof. unfold floats, flts. rewrite Forall_map. apply Forall_forall. eauto. Qed.
  Lemma fl_finish v : fl v -> fl (finish_list Or v).
  Proof. unfold fl. destruct v; simpl; auto. intros H. now rewrite floats_np. Qed.
  Lemma fl_mapM (f : pv -> res pv) l r :
    (forall x y, (exists q, x = PFlt q) -> f x = Ok y -> exists q, y = PFlt q) ->
    floats l -> mapM f l = Ok r -> floats r.
  Proof.
    intros Hf Hl H. apply mapM_forall2 in H. unfold floats in *. clear -Hf Hl H.
    induction H; constructor; inversion Hl; subst; eauto.
  Qed.
  Lemma np_max_fl b x y : float_bound (Some b) -> (exists q, x = PFlt q) -> np_max b x = Ok y -> exists q, y = PFlt q.
  Proof.
    intros Hb (q & ->). unfold np_max. simpl. intros H. inversion H; subst.
    destruct b; [destruct Hb|]. destruct (xlt _ _); simpl; eauto.
  Qed.
  Lemma np_min_fl b x y : float_bound (Some b) -> (exists q, x = PFlt q) -> np_min b x = Ok y -> exists q, y = PFlt q.
  Proof.
    intros Hb (q & ->). unfold np_min. simpl. intros H. inversion H; subst.
    destruct b; [destruct Hb|]. destruct (xlt _ _); simpl; eauto.
  Qed.
  Lemma sc_max_fl b x y : float_bound (Some b) -> (exists q, x = PFlt q) -> sc_max b x = Ok y -> exists q, y = PFlt q.
  Proof.
    intros Hb (q & ->). unfold sc_max. simpl. intros H. inversion H; subst.
    destruct b; [destruct Hb|]. destruct (xlt _ _); simpl; eauto.
  Qed.
  Lemma sc_min_fl b x y : float_bound (Some b) -> (exists q, x = PFlt q) -> sc_min b x = Ok y -> exists q, y = PFlt q.
  Proof.
    intros Hb (q & ->). unfold sc_min. simpl. intros H. inversion H; subst.
    destruct b; [destruct Hb|]. destruct (xlt _ _); simpl; eauto.
  Qed.
  Lemma fl_one x : floats [x] <-> exists q, x = PFlt q.
  Proof. unfold floats. split; [intros H; now inversion H|intros H; constructor; auto]. Qed.
  Lemma fl_lclip c v w : float_bound c -> fl v -> apply_lclip c v = Ok w -> fl w.
  Proof.
    intros Hc Hv. destruct c as [b|]; simpl; [|congruence]. unfold fl in *.
    destruct v as [x|l]; [|destruct l as [|x [|x2 l]]].
    - intros E. apply bind_ok in E as (y & E1 & E). inversion E; subst. simpl in *. rewrite fl_one in *.
      eapply sc_max_fl; eassumption.
    - intros E. simpl in E. inversion E. constructor.
    - intros E. apply bind_ok in E as (y & E1 & E). destruct (as_x x); [|discriminate].
      destruct (xlt _ _); inversion E; subst; auto. simpl in *. rewrite fl_one in *. eapply sc_max_fl; eassumption.
    - intros E. apply bind_ok in E as (y & E1 & E). inversion E; subst. simpl elems in *.
      eapply fl_mapM; [|exact Hv|exact E1]. intros a c A B. eapply np_max_fl; eassumption.
  Qed.
  Lemma fl_rclip c v w : float_bound c -> fl v -> apply_rclip c v = Ok w -> fl w.
  Proof.
    intros Hc Hv. destruct c as [b|]; simpl; [|congruence]. unfold fl in *.
    destruct v as [x|l]; [|destruct l as [|x [|x2 l]]].
    - intros E. apply bind_ok in E as (y & E1 & E). inversion E; subst. simpl in *. rewrite fl_one in *.
      eapply sc_min_fl; eassumption.
    - intros E. simpl in E. inversion E. constructor.
    - intros E. apply bind_ok in E as (y & E1 & E). destruct (as_x x); [|discriminate].
      destruct (xlt _ _); inversion E; subst; auto. simpl in *. rewrite fl_one in *. eapply sc_min_fl; eassumption.
    - intros E. apply bind_ok in E as (y & E1 & E). inversion E; subst. simpl elems in *.
      eapply fl_mapM; [|exact Hv|exact E1]. intros a c A B. eapply np_min_fl; eassumption.
  Qed.
  Lemma fb_merge_l a b : float_bound a -> float_bound b -> float_bound (merge_l a b).
  Proof. destruct a, b; simpl; auto. destruct (Qlt_bool _ _); auto. Qed.
  Lemma fb_merge_r a b : float_bound a -> float_bound b -> float_bound (merge_r a b).
  Proof. destruct a, b; simpl; auto. destruct (Qlt_bool _ _); auto. Qed.

  Lemma fl_wrap own body n lc rc s v s' :
    float_bound (fst own) -> float_bound (snd own) -> float_bound lc -> float_bound rc ->
    (forall n v s1 s2, body n s1 = (Ok v, s2) -> fl v) ->
    wrap Or own body n lc rc s = (Ok v, s') -> fl v.
  Proof.
    intros F1 F2 F3 F4 HB H. unfold wrap in H. destruct n as [|n]; [discriminate|]. inv_ok H.
    apply fl_finish. unfold apply_clips in Ha0. apply bind_ok in Ha0 as (w & E1 & E2).
    eapply fl_rclip; [|eapply fl_lclip; [|eapply HB; exact Ha|exact E1]|exact E2];
      [apply fb_merge_r|apply fb_merge_l]; auto.
  Qed.

  Lemma fl_map {A} (f : A -> pv) l : (forall a, exists q, f a = PFlt q) -> floats (map f l).
  Proof. intros H. unfold floats. rewrite Forall_map. apply Forall_forall. auto. Qed.
  Lemma num_fl b : float_bound (Some b) -> exists q, num_pv b = PFlt q.
  Proof. destruct b; simpl; [tauto|eauto]. Qed.

  Lemma fl_leaf k n s v s' : continuous_leaf k = true -> float_leaf k ->
    leaf_sample Or k n s = (Ok v, s') -> fl v.
  Proof.
    intros C F H. destruct k; try discriminate; simpl in H;
      unfold fsample, inverse_lognormal_sample, pareto_sample in H;
      try (inv_ok H; apply fl_simplify; first [apply fl_flts | apply fl_map; eauto]).
    - destruct sd; inv_ok H. apply fl_simplify, fl_flts.
    - unfold pert_sample in H. destruct (Qeq_bool _ _); inv_ok H. apply fl_simplify, fl_flts.
    - destruct F as [Fx Fy]. unfold t_sample in H. destruct x as [x|], y as [y|]; try (inv_ok H; fail).
      + destruct (Qlt_bool _ _); [inv_ok H|]. destruct (Qeq_bool _ _); [inv_ok H|destruct (Qeq_bool (ppf _ _) 0); [inv_ok H|]; inv_ok H].
        * unfold fl. simpl. apply fl_one. now apply num_fl.
        * apply fl_simplify, fl_flts.
      + inv_ok H. unfold fl. simpl. apply fl_flts.
    - destruct F as [Fx Fy]. unfold log_t_sample in H. destruct x as [x|], y as [y|]; try (inv_ok H; fail).
      + destruct (Qlt_bool _ _); [inv_ok H|]. destruct (Qlt_bool _ _); [inv_ok H|].
        destruct (Qeq_bool _ _); [inv_ok H|destruct (Qeq_bool _ 0); [inv_ok H|]; destruct (Qeq_bool (ppf _ _) 0); [inv_ok H|]; inv_ok H].
        * unfold fl. simpl. apply fl_one. now apply num_fl.
        * apply fl_simplify, fl_flts.
      + apply bindS_ok in H as (l & s1 & H1 & H). destruct l as [|q [|]]; inv_ok H.
        unfold fl. simpl. apply fl_one. eauto.
  Qed.

  Definition fl_sampler (c : sampler Or) : Prop := forall n s v s', c n s = (Ok v, s') -> fl v.
  Lemma replicateS_floats (m : M St pv) n :
    (forall s x s', m s = (Ok x, s') -> exists q, x = PFlt q) ->
    forall s l s', replicateS n m s = (Ok l, s') -> floats l.
  Proof.
    intros Hm. induction n; intros s l s' H; simpl in H; inv_ok H; constructor; eauto. eapply IHn; eauto.
  Qed.
  Lemma fl_small comps ws n s v s' : Forall fl_sampler comps -> small_n Or comps ws n s = (Ok v, s') -> fl v.
  Proof.
    intros F H. unfold small_n in H. apply bindS_ok in H as (l & s1 & Hl & H).
    apply ret_ok in H as [<- _]. apply fl_simplify. revert Hl. apply replicateS_floats.
    clear s s1 s'. intros s x s' H. inv_ok H.
    unfold nth_res in Ha2. destruct (nth_error comps a1) as [c|] eqn:E; inversion Ha2; subst.
    apply nth_error_In in E. rewrite Forall_forall in F. pose proof (F _ E _ _ _ _ Ha3) as K.
    destruct a3 as [y|ys]; simpl in H; inv_ok H. apply fl_one. exact K.
  Qed.
  Lemma mapS_floats comps n : Forall fl_sampler comps -> forall s cols s',
    mapS (fun c : sampler Or => bindS (c n) (fun v => ret (enlist v))) comps s = (Ok cols, s') ->
    Forall floats cols.
  Proof.
    induction 1; intros s cols s' K; simpl in K; inv_ok K; constructor.
    - match goal with E : x n _ = (Ok _, _) |- _ => apply H in E; exact E end.
    - eauto.
  Qed.
  Lemma fl_large comps ws n s v s' : Forall fl_sampler comps -> large_n Or comps ws n s = (Ok v, s') -> fl v.
  Proof.
    intros F H. unfold large_n in H. inv_ok H. apply fl_simplify.
    apply mapS_floats in Ha; auto. clear Ha0. revert Ha1. generalize (seq 0 (length a0)).
    intros idx. revert idx a1. induction a0 as [|u us IH]; intros [|i idx] r E; simpl in E; try discriminate.
    - inversion E; subst. constructor.
    - apply bind_ok in E as (c & E1 & E). apply bind_ok in E as (cs & E2 & E). inversion E; subst.
      constructor; [|eapply IH; eassumption].
      apply bind_ok in E1 as (k & _ & E1). apply bind_ok in E1 as (col & E3 & E1).
      unfold nth_res in *. destruct (nth_error a k) as [col'|] eqn:Ek; inversion E3; subst.
      destruct (nth_error col i) as [x|] eqn:Ex; inversion E1; subst.
      apply nth_error_In in Ek. apply nth_error_In in Ex. rewrite Forall_forall in Ha.
      specialize (Ha _ Ek). unfold floats in Ha. rewrite Forall_forall in Ha. auto.
  Qed.
  Lemma fl_mixture comps ws : Forall fl_sampler comps -> fl_sampler (mixture_sample Or comps ws).
  Proof.
    intros F n s v s' H. unfold mixture_sample in H.
    destruct (fst _) as [[ws' comps']|e] eqn:E; [|now apply raise_ok in H].
    apply mixture_comps in E as (_ & _ & _ & I).
    assert (F' : Forall fl_sampler comps') by (rewrite Forall_forall in *; auto).
    destruct comps' as [|c [|c2 comps']].
    - destruct (Nat.ltb 100 n); [eapply fl_large | eapply fl_small]; eassumption.
    - inversion F'; subst. eapply H2; eassumption.
    - destruct (Nat.ltb 100 n); [eapply fl_large | eapply fl_small]; eassumption.
  Qed.

  Definition float_op (o : opn) : bool :=
    match o with Add | Sub | Mul | Div | FloorDiv | Pow => true | _ => false end.
  Lemma xpow_fl pw arr a b r : xpow pw arr a b = Ok r -> exists q, r = PFlt q.
  Proof.
    apply xpow_float.
  Qed.
  Lemma binop_fl pw arr o x y r : float_op o = true -> (exists q, x = PFlt q) -> (exists q, y = PFlt q) ->
    binop pw arr o x y = Ok r -> exists q, r = PFlt q.
  Proof.
    intros Ho (a & ->) (b & ->). simpl. intros H. destruct o; try discriminate; simpl in H;
      try (inversion H; eauto; fail).
    - destruct (_ && _); inversion H; eauto.
    - destruct (xzero b); [destruct arr|]; inversion H; eauto.
    - eapply xpow_fl; eassumption.
  Qed.
  Lemma fl_zipM (f : pv -> pv -> res pv) l :
    (forall x y z, (exists q, x = PFlt q) -> (exists q, y = PFlt q) -> f x y = Ok z -> exists q, z = PFlt q) ->
    forall m r, floats l -> floats m -> zipM f l m = Ok r -> floats r.
  Proof.
    intros Hf. induction l as [|x l IH]; intros [|y m] r Hl Hm H; simpl in H; try discriminate.
    - inversion H. constructor.
    - apply bind_ok in H as (c & E1 & H). apply bind_ok in H as (cs & E2 & H). inversion H; subst.
      inversion Hl; inversion Hm; subst. constructor; [eapply Hf; [| |exact E1]; assumption|].
      eapply IH; [| |exact E2]; assumption.
  Qed.
  Lemma fl_lift2 o a b v : float_op o = true -> fl a -> fl b -> lift2 (fun arr => binop (pow_ Or) arr o) a b = Ok v -> fl v.
  Proof.
    intros Ho Ha Hb H. unfold fl in *.
    assert (B := fun arr x y r => binop_fl (pow_ Or) arr o x y r Ho).
    destruct a as [x|l], b as [y|m]; simpl in Ha, Hb.
    - simpl in H. apply bind_ok in H as (z & Hz & E). inversion E; subst. simpl. apply fl_one in Ha. apply fl_one in Hb. apply fl_one. eapply B; [exact Ha|exact Hb|exact Hz].
    - simpl in H. apply bind_ok in H as (z & Hz & E). inversion E; subst. simpl. apply fl_one in Ha.
      eapply fl_mapM; [|exact Hb|exact Hz]. intros u w U W. eapply B; [| |exact W]; assumption.
    - simpl in H. apply bind_ok in H as (z & Hz & E). inversion E; subst. simpl. apply fl_one in Hb.
      eapply fl_mapM; [|exact Ha|exact Hz]. intros u w U W. eapply B; [| |exact W]; assumption.
    - assert (K1 : forall x, (exists q, x = PFlt q) -> forall m z, floats m -> mapM (fun y => binop (pow_ Or) true o x y) m = Ok z -> floats z).
      { intros x X m0 z Hm Hz. eapply fl_mapM; [|exact Hm|exact Hz]. intros u w U W. eapply B; [| |exact W]; assumption. }
      assert (K2 : forall y, (exists q, y = PFlt q) -> forall m z, floats m -> mapM (fun x => binop (pow_ Or) true o x y) m = Ok z -> floats z).
      { intros x X m0 z Hm Hz. eapply fl_mapM; [|exact Hm|exact Hz]. intros u w U W. eapply B; [| |exact W]; assumption. }
      assert (K3 : forall l m z, floats l -> floats m -> zipM (binop (pow_ Or) true o) l m = Ok z -> floats z).
      { intros l0 m0 z Hl Hm Hz. eapply fl_zipM; [|exact Hl|exact Hm|exact Hz]. intros. eapply B; [| |eassumption]; assumption. }
      unfold lift2 in H.
      destruct l as [|x [|x2 l]]; [|apply bind_ok in H as (z & Hz & E); inversion E; subst; eapply K1; [|exact Hb|exact Hz]; now apply fl_one|];
        (destruct m as [|y [|y2 m]]; apply bind_ok in H as (z & Hz & E); inversion E; subst;
         first [eapply K3; [| |exact Hz]; assumption | eapply K2; [|exact Ha|exact Hz]; now apply fl_one]).
  Qed.

  Definition P_f (o : obj (G Or)) : Prop :=
    is_continuous o = true -> arithmetic o -> forall n lc rc s v s', float_bound lc -> float_bound rc ->
    smp Or o n lc rc s = (Ok v, s') -> fl v.
  Definition R_f (d : dist (G Or)) : Prop :=
    is_continuous_dist d = true -> arithmetic_dist d -> forall b n lc rc s v s', float_bound lc -> float_bound rc ->
    smp_dist Or b d n lc rc s = (Ok v, s') -> fl v.
  Lemma continuous_floats o : P_f o.
  Proof.
    apply (obj_ind' P_f R_f); unfold P_f, R_f; try discriminate.
    - intros d IH C A n lc rc s v s' L R H. rewrite smp_odist in H. eapply IH; [exact C|exact A|exact L|exact R|exact H].
    - intros k l r C (F & Fl & Fr) b n lc rc s v s' L R H. rewrite smp_leaf in H.
      eapply fl_wrap; [| | | | |exact H]; auto. intros m w s1 s2 E. eapply fl_leaf; eauto.
    - intros ws ds l r IH C (Fl & Fr & A) b n lc rc s v s' L R H. rewrite smp_mix in H.
      eapply fl_wrap; [| | | | |exact H]; auto.
      intros m w s1 s2 E. eapply fl_mixture; [|exact E]. cbn in C. clear -IH C A.
      induction IH; simpl in *; constructor.
      + intros n s v s' H'. apply andb_true_iff in C. eapply H; [tauto|tauto| | |exact H']; exact I.
      + apply IHIH; [|tauto]. now apply andb_true_iff in C.
    - intros l r f IHl IHr IHf C (Al & Ar & Af) b n lc rc s v s' L R H. rewrite smp_complex in H.
      cbn in C. apply andb_true_iff in C as [Cl Cr].
      eapply fl_wrap; [| | | | |exact H]; simpl; auto. clear n lc rc s v s' H L R.
      intros n v s s' H. apply bindS_ok in H as (a & s1 & Ha & H). apply bindS_ok in H as (y & s2 & Hy & H).
      assert (Na : fl a) by (eapply IHl; [| | | |exact Ha]; simpl; auto).
      assert (Ny : match y with Some w => fl w | None => True end).
      { destruct y as [w|]; auto. unfold right_sample in Hy.
        destruct r as [[]| | |]; inv_ok Hy; try discriminate;
          match goal with E : Some _ = Some _ |- _ => inversion E; subst end.
        eapply IHr; [| | | |eassumption]; simpl; auto. }
      unfold fn_result in H. destruct f; try contradiction.
      destruct y; cbn -[apply_fn] in H; [|discriminate].
      apply pair_equal_spec in H as [H _]. simpl in H. eapply fl_lift2; [|exact Na|exact Ny|exact H].
      destruct o0; try contradiction; reflexivity.
    - intros g i ms _ C A. destruct A.
  Qed.
End Floats.

Lemma negation_floats :
  exists o : obj (G ex_oracle), is_continuous o = false /\
    forall n s v s', smp ex_oracle o n None None s = (Ok v, s') -> floats (elems v).
Proof.
  exists (ODist (DComplex (ODist (DLeaf (LUniform 0 1) None None)) (OLit PNone) FNeg)). split; [reflexivity|].
  intros n s v s' H. rewrite smp_odist, smp_complex in H. revert H. apply fl_wrap; simpl; auto.
  clear. intros n v s s' H. apply bindS_ok in H as (a & s1 & Ha & H). apply bindS_ok in H as (y & s2 & Hy & H).
  assert (Fa : fl a).
  { revert Ha. apply (fl_wrap ex_oracle); simpl; auto. intros m w t t' W.
    apply (fl_leaf ex_oracle (LUniform 0 1) m t w t'); simpl; auto. }
  clear Ha. rename Fa into Ha. simpl in Hy. apply ret_ok in Hy as [<- <-].
  cbn in H. unfold fl in *. destruct a as [x|l]; simpl in Ha, H; apply pair_equal_spec in H as [H _];
    apply bind_ok in H as (z & Hz & E); inversion E; subst; simpl.
  - apply fl_one in Ha as (q & ->). inversion Hz. apply fl_one. eauto.
  - eapply fl_mapM; [|exact Ha|exact Hz]. intros x w (q & ->) W. inversion W. eauto.
Qed.

(* ------------------------------------------------------------------ *)
Lemma check_true l : check_correlated l = Some true <-> Exists (fun p => fst p = true \/ snd p = Some true) l.
Proof.
  induction l as [|[g [[]|]] l IH]; simpl; rewrite ?Exists_cons.
  - split; [discriminate|]. intros H; inversion H.
  - destruct g; split; simpl; auto.
  - destruct g; simpl; [split; auto|]. rewrite IH. split; auto. intros [[]|]; [discriminate|discriminate|auto].
  - destruct g; simpl; [split; auto|]. rewrite IH. split; auto. intros [[]|]; [discriminate|discriminate|auto].
Qed.
Lemma check_values l : check_correlated l = None \/ check_correlated l = Some true.
Proof. induction l as [|[g [[]|]] l IH]; simpl; auto; destruct g; auto. Qed.

Fixpoint tree_ind' (P : tree -> Prop) (H0 : P TOther) (H1 : forall g, P (TSimple g))
  (H2 : forall g l, Forall P l -> P (TComposite g l)) (t : tree) : P t :=
  match t with
  | TOther => H0
  | TSimple g => H1 g
  | TComposite g l => H2 g l ((fix go l : Forall P l := match l with [] => Forall_nil P | x :: r => Forall_cons x (tree_ind' P H0 H1 H2 x) (go r) end) l)
  end.
Lemma correlated_flag t : contains_correlated t = Some true <-> exists p, part_of p t /\ has_group p = true.
Proof.
  induction t as [|g|g l IH] using tree_ind'; cbn [contains_correlated].
  - split; [discriminate|]. intros (p & H & _). inversion H.
  - split; [discriminate|]. intros (p & H & _). inversion H.
  - rewrite check_true, Exists_exists. rewrite Forall_forall in IH. split.
    + intros (x & Hx & H). apply in_map_iff in Hx as (p & <- & Hp). simpl in H. destruct H as [H|H].
      * exists p. split; auto. now constructor.
      * apply IH in H as (q & Hq & K); auto. exists q. split; auto. econstructor 2; eassumption.
    + intros (p & Hp & K). inversion Hp; subst.
      * exists (has_group p, contains_correlated p). split; [|simpl; auto]. apply in_map_iff. eauto.
      * exists (has_group q, contains_correlated q). split; [apply in_map_iff; eauto|]. simpl. right.
        apply IH; eauto.
Qed.
Lemma correlated_flag_none t : (contains_correlated t = None <-> ~ exists p, part_of p t /\ has_group p = true).
Proof.
  rewrite <- correlated_flag. split; [congruence|]. intros H. destruct t; auto.
  cbn in *. destruct (check_values (map (fun p => (has_group p, contains_correlated p)) parts)); congruence.
Qed.

Lemma has_group_spec t : has_group t = true <-> grouped_dist t.
Proof.
  split.
  - destruct t; simpl; try discriminate; intros ->; constructor.
  - intros []; reflexivity.
Qed.
Lemma correlated_flag_spec t : contains_correlated t = Some true <-> exists p, part_of p t /\ grouped_dist p.
Proof. rewrite correlated_flag. setoid_rewrite has_group_spec. reflexivity. Qed.
Lemma correlated_flag_none_spec t : contains_correlated t = None <-> ~ exists p, part_of p t /\ grouped_dist p.
Proof. rewrite correlated_flag_none. setoid_rewrite has_group_spec. reflexivity. Qed.

(* ------------------------------------------------------------------ *)
Lemma qtrunc_spec q : (Z.abs (qtrunc q) = Qfloor (Qabs.Qabs q))%Z.
Proof.
  destruct q as [a b]. unfold qtrunc, Qfloor, Qabs.Qabs; simpl. rewrite <- Z.quot_abs by lia.
  rewrite (Z.abs_eq (Z.pos b)) by lia. apply Z.quot_div_nonneg; lia.
Qed.
Lemma matmul_count Or : right_length Or -> forall d, covered_dist d -> forall n k s v s',
  int_of n = Ok k -> matmul Or d n s = (Ok v, s') -> (1 <= k)%Z /\ n_samples (Z.to_nat k) v.
Proof.
  intros RL d C n k s v s' E H. unfold matmul in H. rewrite E in H. inv_ok H. inversion Ha; subst.
  pose proof (sample_needs_n _ _ _ _ _ _ _ _ H) as N. split; [lia|]. apply (sample_count Or RL (ODist d) C _ _ _ _ _ _ H).
Qed.
Lemma invert_one Or d s : invert Or d s = matmul Or d (PInt 1) s.
Proof. reflexivity. Qed.
Lemma matmul_too_few Or d n k s : int_of n = Ok k -> (k <= 0)%Z ->
  matmul Or d n s = (Err (ValueError "n must be >= 1"), s).
Proof.
  intros E K. unfold matmul, bindS, lift. rewrite E. replace (Z.to_nat k) with O by lia.
  destruct d; reflexivity.
Qed.

(* ------------------------------------------------------------------ *)
Lemma seed_self_contained Or (seeded : Z -> G Or) o n lc rc z s1 s2 : self_contained o ->
  let r1 := smp Or o n lc rc (set_seed seeded z s1) in
  let r2 := smp Or o n lc rc (set_seed seeded z s2) in
  fst r1 = fst r2 /\ rng (snd r1) = rng (snd r2).
Proof.
  intros H r1 r2. destruct (sample_reproducible Or o n lc rc (set_seed seeded z s1) (set_seed seeded z s2) H eq_refl)
    as (A & B & _). auto.
Qed.
Lemma seed_generator Or (seeded : Z -> G Or) o n lc rc z s s0 : self_contained o -> rng s0 = seeded z ->
  let r := smp Or o n lc rc (set_seed seeded z s) in let r0 := smp Or o n lc rc s0 in
  fst r = fst r0 /\ rng (snd r) = rng (snd r0).
Proof.
  intros H E r r0. destruct (sample_reproducible Or o n lc rc (set_seed seeded z s) s0 H (eq_sym E)) as (A & B & _). auto.
Qed.
Lemma seed_pending :
  exists (o : obj (G ex_oracle)) n s0 v,
    fst (smp ex_oracle o n None None (set_seed Z.to_nat 7 (ex_state 0))) = Ok v /\
    (exists other, s0 = snd (smp ex_oracle other n None None (ex_state 0))) /\
    fst (smp ex_oracle o n None None (set_seed Z.to_nat 7 s0)) <> Ok v.
Proof.
  set (ms := [@DLeaf (G ex_oracle) (LUniform 0 1) None None; DLeaf (LUniform 0 1) None None]).
  exists (ODist (DCorr 0 1 ms)), 2%nat, (snd (smp ex_oracle (ODist (DCorr 0 0 ms)) 2 None None (ex_state 0))).
  eexists. split; [vm_compute; reflexivity|]. split; [eexists; reflexivity|]. vm_compute. discriminate.
Qed.

Lemma matmul_is_sample Or d n k s : int_of n = Ok k -> (1 <= k)%Z ->
  matmul Or d n s = smp Or (ODist d) (Z.to_nat k) None None s.
Proof. intros E _. unfold matmul, bindS, lift. now rewrite E. Qed.
Lemma fraction_cut q k : int_of (PFlt (Fin q)) = Ok k -> (Z.abs k = Qfloor (Qabs.Qabs q))%Z /\ 0 <= q * inject_Z k.
Proof.
  intros H. inversion H; subst. split; [apply qtrunc_spec|]. destruct q as [a b].
  unfold qtrunc, Qle, Qmult, inject_Z; simpl. rewrite Z.mul_1_r.
  destruct (Z.le_ge_cases 0 a).
  - apply Z.mul_nonneg_nonneg; auto. apply Z.quot_pos; lia.
  - apply Z.mul_nonpos_nonpos; auto. rewrite <- (Z.opp_involutive a), Z.quot_opp_l by lia.
    enough (0 <= Z.quot (- a) (Z.pos b))%Z by lia. apply Z.quot_pos; lia.
Qed.
Lemma named_powers i : (i < length named_numbers)%nat ->
  nth i named_numbers 0%Z = (1000 ^ Z.of_nat (i + 1))%Z.
Proof. intros H. do 11 (destruct i as [|i]; [reflexivity|]). simpl in H. lia. Qed.
