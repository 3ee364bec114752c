(** Sampling a discrete distribution (C99). *)
From Verif Require Import Base M_Weights SpecWeights P_Weights P_Weights2 M_Pick P_Pick M_Values M_Sampler M_Ops
  SpecSampler SpecSampler2 SpecOps SpecMixture SpecDiscrete P_Sampler P_Count P_Clip P_Ops P_Sampler2 P_Support P_Pure P_Mixture P_Ctor.
From Coq Require Import Lqa.
Open Scope Q_scope.

Lemma no_weight_vector : ~ (exists l, weight_vector WNone l /\ Forall (fun q => q == 0) l).
Proof. intros (l & H & _). inversion H. Qed.

Lemma cat_list_ready items ws its : cat_list items = Ok (ws, its) -> ready ws its.
Proof.
  unfold cat_list, pdwv. intros H.
  destruct (pwv item_pair _ _ _ _ _) as [r aft] eqn:E. cbn in H. subst r.
  destruct (pwv_usable _ _ _ _ _ _ _ _ _ E no_weight_vector) as (k & gw & vals & fw & _ & _ & [L _] & _ & P & R & _).
  split; auto.
Qed.
Lemma cat_dict_ready items ws its : cat_dict items = Ok (ws, its) -> ready ws its.
Proof.
  unfold cat_dict. intros H.
  destruct (pwv item_pair _ _ _ _ _) as [r aft] eqn:E. cbn in H. subst r.
  destruct (pwv_usable _ _ _ _ _ _ _ _ _ E no_weight_vector) as (k & gw & vals & fw & _ & _ & [L _] & _ & P & R & _).
  split; auto.
Qed.

Section Discrete.
  Variable Or : oracle.
  Hypothesis RL : right_length Or.
  Notation St := (state (G Or)).
  Notation con it := (const_sampler Or (item_pv it)).

  Lemma const_run x n s : const_sampler Or x n s = (Ok (simplify (repeat x n)), s).
  Proof. unfold const_sampler. rewrite np_array_repeat. reflexivity. Qed.

  Lemma discrete_small_step ws its s x s' : nonneg ws -> length ws = length its ->
    ((let! us := rngf Or (RUniform 0 1) 1 in
      let! u := lift (nth_res us 0) in
      let! i := lift (small_pick ws u) in
      let! c := lift (nth_res (map (fun it => con it) its) i) in
      let! v := c 1%nat in
      as_scalar Or v) s = (Ok x, s') <->
     exists u g i it, drawf Or (RUniform 0 1) 1 (rng s) = (Ok [u], g) /\ falls ws u i /\
       nth_error its i = Some it /\ x = item_pv it /\ s' = mkState g (corr s)).
  Proof.
    intros Hn L. split.
    - intros H.
      apply bindS_ok in H as (us & s1 & Hu & H). apply rngf_draw in Hu as (g & D & ->).
      pose proof (proj1 RL _ _ _ _ _ D) as LL. destruct us as [|u [|? ?]]; try discriminate.
      apply bindS_ok in H as (u' & s1 & Hu & H). apply lift_ok in Hu as [Hu <-]. inversion Hu; subst u'.
      apply bindS_ok in H as (i & s1 & Hi & H). apply lift_ok in Hi as [Hi <-].
      apply bindS_ok in H as (c & s1 & Hc & H). apply lift_ok in Hc as [Hc <-].
      apply bindS_ok in H as (v & s1 & Hv & H).
      unfold nth_res in Hc. rewrite nth_error_map in Hc.
      destruct (nth_error its i) as [it|] eqn:E; [|discriminate]. simpl in Hc. inversion Hc; subst c.
      rewrite const_run in Hv. simpl in Hv. inversion Hv as [[Ev Es]]. rewrite <- Ev in H. apply ret_ok in H as [Ex Es'].
      exists u, g, i, it. apply falls_small in Hi; auto. repeat split; auto; try apply Hi; congruence.
    - intros (u & g & i & it & D & F & E & -> & ->). apply falls_small in F; auto.
      assert (R : rngf Or (RUniform 0 1) 1 s = (Ok [u], mkState g (corr s))) by (apply rngf_draw; eauto).
      unfold bindS, lift. rewrite R. change (nth_res [u] 0) with (Ok u). cbv beta iota. rewrite F.
      unfold nth_res. rewrite nth_error_map, E.
      simpl option_map. cbv beta iota. rewrite const_run. reflexivity.
  Qed.

  Lemma discrete_small_run ws its N n : nonneg ws -> length ws = length its -> (N <= 100)%nat -> forall s xs s',
    replicateS n (let! us := rngf Or (RUniform 0 1) 1 in
      let! u := lift (nth_res us 0) in
      let! i := lift (small_pick ws u) in
      let! c := lift (nth_res (map (fun it => con it) its) i) in
      let! v := c 1%nat in
      as_scalar Or v) s = (Ok xs, s') <->
    exists us, single_draws Or n s us s' /\ Forall2 (selects N ws its) us xs.
  Proof.
    intros Hn L HN. induction n; intros s xs s'; split; intros H.
    - simpl in H. apply ret_ok in H as [<- <-]. exists []. split; constructor.
    - destruct H as (us & D & F). inversion D; subst. inversion F; subst. reflexivity.
    - cbn [replicateS] in H. apply bindS_ok in H as (x & s1 & Hx & H). apply bindS_ok in H as (l & s2 & Hl & H).
      apply ret_ok in H as [<- <-]. apply discrete_small_step in Hx as (u & g & i & it & D & F & E & -> & ->); auto.
      apply IHn in Hl as (us & Ds & Fs). exists (u :: us). split; [econstructor; eauto|].
      constructor; auto. exists i, it. repeat split; auto; try apply F. lia.
    - destruct H as (us & D & F). inversion D; subst. inversion F as [|? x ? xs1 Sx Fx]; subst.
      destruct Sx as (i & it & Fa & _ & E & ->).
      cbn [replicateS]. unfold bindS at 1.
      match goal with |- context[match ?e with _ => _ end] =>
        replace e with (Ok (item_pv it), mkState g (corr s)) end.
      + unfold bindS at 1.
        match goal with |- context[match ?e with _ => _ end] => replace e with (Ok xs1, s') end; [reflexivity|].
        symmetry. apply IHn. eauto.
      + symmetry. apply discrete_small_step; auto. exists u, g, i, it. auto.
  Qed.

  Lemma const_columns n its : forall s,
    mapS (fun c : sampler Or => let! v := c n in ret (enlist v)) (map (fun it => con it) its) s =
    (Ok (map (fun it => repeat (item_pv it) n) its), s).
  Proof.
    induction its as [|it its]; intros s; [reflexivity|]. cbn [map mapS].
    unfold bindS at 1. unfold bindS at 1. rewrite const_run. cbn [ret].
    unfold bindS at 1. rewrite IHits. cbn [ret]. do 3 f_equal.
    destruct n as [|[|n]]; reflexivity.
  Qed.

  Lemma nth_error_repeat' {A} (x : A) n j : (j < n)%nat -> nth_error (repeat x n) j = Some x.
  Proof. revert n; induction j; intros [|n] H; try lia; simpl; auto. apply IHj. lia. Qed.

  Lemma const_selected ws its us xs n : length us = n -> (100 < n)%nat ->
    (selected ws us (map (fun it => repeat (item_pv it) n) its) xs <-> Forall2 (selects n ws its) us xs).
  Proof.
    intros L N. unfold selected. split.
    - intros [Lx H].
      assert (G : forall j u x, nth_error us j = Some u -> nth_error xs j = Some x -> selects n ws its u x).
      { intros j u x Hu Hx. destruct (H j u Hu) as (i & col & F & T & C & E & _).
        rewrite nth_error_map in C. destruct (nth_error its i) as [it|] eqn:I; [|discriminate].
        simpl in C. inversion C; subst col. rewrite Hx, nth_error_repeat' in E by (rewrite <- L; apply nth_error_Some; congruence).
        inversion E. exists i, it. auto. }
      clear H N L. revert xs G Lx.
      induction us as [|u us]; intros [|x xs] G Lx; try discriminate; constructor.
      + apply (G 0%nat); reflexivity.
      + apply IHus; auto. intros j u' x' A B. apply (G (S j)); auto.
    - intros H. split; [symmetry; clear L; induction H; simpl; congruence|].
      intros j u Hu. assert (Hj : (j < n)%nat) by (rewrite <- L; apply nth_error_Some; congruence).
      clear L. revert j Hu Hj. induction H as [|v x us xs Sx H IH]; intros j Hu Hj; [destruct j; discriminate|].
      destruct j as [|j]; simpl in Hu.
      + inversion Hu; subst v. destruct Sx as (i & it & F & T & E & ->).
        exists i, (repeat (item_pv it) n). rewrite nth_error_map, E. cbn [option_map].
        rewrite nth_error_repeat' by auto. repeat split; auto; try apply F; discriminate.
      + destruct (IH j Hu ltac:(lia)) as (i & col & F & T & C & E & Nn).
        exists i, col. repeat split; auto; try apply F. change (nth_error (x :: xs) (S j)) with (nth_error xs j). rewrite <- E.
        rewrite nth_error_map in C. destruct (nth_error its i); [|discriminate]. simpl in C. inversion C; subst col.
        rewrite !nth_error_repeat' by lia. reflexivity.
  Qed.

  Lemma discrete_run (r : res (list Q * list exv_item)) ws its n s v s' :
    r = Ok (ws, its) -> ready ws its -> (1 <= n)%nat -> (2 <= length its)%nat ->
    ((match discrete_sample Or r n s with (Ok u, s') => (Ok (finish_list Or u), s') | (Err e, s') => (Err e, s') end) = (Ok v, s') <->
     exists us xs, uniform_draws Or n s us s' /\ Forall2 (selects n ws its) us xs /\
       v = simplify (np_array (fmt Or) xs)).
  Proof.
    intros -> (L & P & R) Hn Hd. unfold discrete_sample. unfold bindS at 1. cbn [lift fst snd]. unfold mixture_sample.
    rewrite (reprocess _ _ ws (map (fun i => con i) its)); [|rewrite map_length; auto|auto|auto].
    cbn [fst]. pose proof (positive_nonneg _ P) as NN.
    assert (Hne : ws <> []) by (intros ->; simpl in L; lia).
    assert (M : (match map (fun i => con i) its with [c] => c n | _ =>
        if Nat.ltb 100 n then large_n Or (map (fun i => con i) its) ws n else small_n Or (map (fun i => con i) its) ws n end) =
        if Nat.ltb 100 n then large_n Or (map (fun i => con i) its) ws n else small_n Or (map (fun i => con i) its) ws n)
      by (destruct its as [|? [|? ?]]; simpl in Hd; try lia; reflexivity).
    rewrite M. clear M. unfold uniform_draws. destruct (Nat.ltb_spec 100 n) as [B|B].
    - assert (Nat.leb n 100 = false) as -> by (apply Nat.leb_gt; lia). unfold large_n.
      rewrite (bindS_run _ _ _ _ _ (const_columns n its s)). split.
      + destruct (bindS _ _ s) as [[u|e] s1] eqn:E; [|discriminate]. intros H; inversion H; subst; clear H.
        apply bindS_ok in E as (us & s3 & Hu & E). apply rngf_draw in Hu as (g & D & ->).
        apply bindS_ok in E as (xs & s4 & Hx & E). apply lift_ok in Hx as [Hx <-]. apply ret_ok in E as [<- <-].
        apply select_run in Hx; auto. pose proof (proj1 RL _ _ _ _ _ D) as LL. apply const_selected in Hx; auto.
        exists us, xs. rewrite simplify_finish. eauto.
      + intros (us & xs & (g & D & ->) & F & ->). pose proof (proj1 RL _ _ _ _ _ D) as LL.
        apply const_selected in F; auto. apply select_run in F; auto.
        assert (Rr : rngf Or (RUniform 0 1) n s = (Ok us, mkState g (corr s))) by (apply rngf_draw; eauto).
        rewrite (bindS_run _ _ _ _ _ Rr). unfold bindS, lift. rewrite F. cbn [ret]. now rewrite simplify_finish.
    - assert (Nat.leb n 100 = true) as -> by (apply Nat.leb_le; lia). unfold small_n. split.
      + destruct (bindS _ _ s) as [[u|e] s1] eqn:E; [|discriminate]. intros H; inversion H; subst; clear H.
        apply bindS_ok in E as (xs & s2 & Hx & E). apply ret_ok in E as [<- <-].
        apply (discrete_small_run ws its n) in Hx as (us & D & F); auto. exists us, xs. rewrite simplify_finish. auto.
      + intros (us & xs & D & F & ->).
        assert (X := proj2 (discrete_small_run ws its n n NN L B s xs s') (ex_intro _ us (conj D F))).
        rewrite (bindS_run _ _ _ _ _ X). cbn [ret]. now rewrite simplify_finish.
  Qed.

  Lemma discrete_one (r : res (list Q * list exv_item)) ws it n s :
    r = Ok (ws, [it]) -> ready ws [it] ->
    discrete_sample Or r n s = (Ok (simplify (repeat (item_pv it) n)), s).
  Proof.
    intros -> (L & P & R). unfold discrete_sample, bindS. cbn [lift fst snd]. unfold mixture_sample.
    rewrite (reprocess _ _ ws (map (fun i => con i) [it])); auto. cbn [fst map]. apply const_run.
  Qed.

  (** A leaf that is one of the two discrete forms. *)
  Lemma discrete_values k ws its n s v s' :
    (exists items, k = LCatList items /\ cat_list items = Ok (ws, its)) \/
    (exists items, k = LCatDict items /\ cat_dict items = Ok (ws, its)) ->
    (1 <= n)%nat -> (2 <= length its)%nat ->
    (smp Or (ODist (DLeaf k None None)) n None None s = (Ok v, s') <->
     exists us xs, uniform_draws Or n s us s' /\ Forall2 (selects n ws its) us xs /\
       v = simplify (np_array (fmt Or) xs)).
  Proof.
    intros K Hn Hd. rewrite smp_odist, smp_leaf, wrap_none by auto.
    destruct K as [(items & -> & E)|(items & -> & E)]; cbn [leaf_sample]; apply discrete_run; auto.
    - eapply cat_list_ready; eauto. - eapply cat_dict_ready; eauto.
  Qed.

  Lemma discrete_single k ws it n s :
    (exists items, k = LCatList items /\ cat_list items = Ok (ws, [it])) \/
    (exists items, k = LCatDict items /\ cat_dict items = Ok (ws, [it])) ->
    (1 <= n)%nat ->
    smp Or (ODist (DLeaf k None None)) n None None s = (Ok (simplify (repeat (item_pv it) n)), s).
  Proof.
    intros K Hn. rewrite smp_odist, smp_leaf, wrap_none by auto.
    destruct K as [(items & -> & E)|(items & -> & E)]; cbn [leaf_sample]; rewrite (discrete_one _ ws it); auto;
      try (rewrite simplify_finish, np_array_repeat; reflexivity).
    - eapply cat_list_ready; eauto. - eapply cat_dict_ready; eauto.
  Qed.
End Discrete.

(** What explicit pairs and dicts are turned into: the entries of positive weight. *)
Definition positive_entries (l : list (Q * pv)) : list (Q * pv) := filter (fun e => Qlt_bool 0 (fst e)) l.

Lemma filter_loop_entries {A} (ws : list Q) : nonneg ws -> forall vs : list A, length ws = length vs ->
  filter_loop ws vs = Ok (map fst (filter (fun e => Qlt_bool 0 (fst e)) (combine ws vs)),
                          map snd (filter (fun e => Qlt_bool 0 (fst e)) (combine ws vs))).
Proof.
  induction 1 as [|w ws H HN]; intros [|v vs] L; try discriminate; [reflexivity|].
  cbn [filter_loop combine filter fst]. assert (Qlt_bool w 0 = false) as -> by (apply qlt_false; auto).
  rewrite IHHN by (simpl in L; congruence). cbn [bind fst snd].
  destruct (Qlt_bool 0 w); reflexivity.
Qed.

Lemma mapM_ok {A B} (f : A -> res B) (g : A -> B) l : (forall x, In x l -> f x = Ok (g x)) -> mapM f l = Ok (map g l).
Proof.
  induction l; simpl; intros H; auto. rewrite H by auto. simpl. rewrite IHl; auto.
Qed.


Lemma filter_combine_map {A B C} (f : B -> C) (p : A -> bool) (l : list A) : forall m : list B,
  filter (fun e => p (fst e)) (combine l (map f m)) =
  map (fun e => (fst e, f (snd e))) (filter (fun e => p (fst e)) (combine l m)).
Proof.
  induction l; intros [|b m]; simpl; auto. destruct (p a); simpl; rewrite IHl; reflexivity.
Qed.
Lemma combine_split' {A B} (l : list (A * B)) : combine (map fst l) (map snd l) = l.
Proof. induction l as [|[a b] l]; simpl; congruence. Qed.

Lemma entries_processed l : l <> [] -> nonneg (map fst l) -> 99#100 < total (map fst l) -> total (map fst l) < 101#100 ->
  fst (finish false (map Num (map fst l)) PFresh (map (fun e => IPlain (snd e)) l)) =
  Ok (map fst (positive_entries l), map (fun e => IPlain (snd e)) (positive_entries l)).
Proof.
  intros Hl HN T1 T2. unfold finish. rewrite any_na_num, cell_q_num, !map_length.
  assert (Nat.eqb (S (length l)) (length l) = false) as -> by (apply Nat.eqb_neq; lia). cbn [andb].
  assert (Qle_bool (qsum (map fst l)) (99#100) = false) as ->.
  { apply qle_false. rewrite qsum_total. auto. }
  assert (Qle_bool (101#100) (qsum (map fst l)) = false) as ->.
  { apply qle_false. rewrite qsum_total. auto. }
  rewrite Nat.eqb_refl. cbn [orb negb fst].
  rewrite filter_loop_entries; auto; [|now rewrite !map_length].
  replace (map (fun e => IPlain (snd e)) l) with (map IPlain (map snd l)) by now rewrite map_map.
  rewrite (filter_combine_map IPlain (fun q => Qlt_bool 0 q)), combine_split', !map_map. reflexivity.
Qed.

Lemma pairs_processed l : l <> [] -> nonneg (map fst l) -> 99#100 < total (map fst l) -> total (map fst l) < 101#100 ->
  cat_list (map (fun e => IPair (Num (fst e)) (snd e)) l) =
  Ok (map fst (positive_entries l), map (fun e => IPlain (snd e)) (positive_entries l)).
Proof.
  intros Hl HN T1 T2. unfold cat_list, pdwv.
  assert (C : compresses (forallb (fun i => negb (item_is_list i))) item_is_list
                (map (fun e : Q * pv => IPair (Num (fst e)) (snd e)) l) = false).
  { destruct l as [|e l]; [congruence|]. unfold compresses. cbn [map item_is_list negb]. now rewrite andb_false_r. }
  rewrite C. rewrite <- (entries_processed l Hl HN T1 T2). unfold pwv. cbn [wnone negb andb].
  assert (values_missing (VList (map (fun e : Q * pv => IPair (Num (fst e)) (snd e)) l)) = false) as ->.
  { destruct l; [congruence|reflexivity]. }
  cbn [weights_of_warg]. cbn [fst]. unfold fill_weights.
  destruct l as [|e l]; [congruence|]. cbn [map item_pair]. cbn [andb].
  set (L := e :: l). change (IPair (Num (fst e)) (snd e) :: map (fun e : Q * pv => IPair (Num (fst e)) (snd e)) l)
    with (map (fun e : Q * pv => IPair (Num (fst e)) (snd e)) L).
  assert (M : mapM (fun v => match item_pair v with Some wx => Ok wx | None => Err TypeError end)
               (map (fun e : Q * pv => IPair (Num (fst e)) (snd e)) L) = Ok (map (fun e => (Num (fst e), IPlain (snd e))) L)).
  { clear. induction L; simpl; auto. now rewrite IHL. }
  rewrite M. cbn [fst]. rewrite !map_map. cbn [fst snd]. unfold L. cbn [map]. rewrite <- (map_map fst Num). reflexivity.
Qed.

Lemma dict_processed l : l <> [] -> nonneg (map fst l) -> 99#100 < total (map fst l) -> total (map fst l) < 101#100 ->
  cat_dict (map (fun e => (snd e, Num (fst e))) l) =
  Ok (map fst (positive_entries l), map (fun e => IPlain (snd e)) (positive_entries l)).
Proof.
  intros Hl HN T1 T2. unfold cat_dict. rewrite <- (entries_processed l Hl HN T1 T2). unfold pwv. cbn [wnone negb andb].
  rewrite map_map. cbn [fst snd].
  assert (values_missing (VDict (map (fun e : Q * pv => (IPlain (snd e), Num (fst e))) l)) = false) as ->.
  { destruct l; [congruence|reflexivity]. }
  cbn [weights_of_warg fst]. rewrite !map_map. cbn [fst snd]. rewrite <- (map_map fst Num). reflexivity.
Qed.
