(** How tdist(low, high) reacts to scaling and shifting its bounds (C113). *)
From Verif Require Import Base M_Weights SpecWeights P_Weights M_Pick M_Values M_Sampler
  SpecSampler SpecSampler2 SpecT P_Sampler P_Count P_Clip P_Ops P_Sampler2 P_Support P_Pure P_Mixture P_Ctor P_Example.
From Coq Require Import Lqa.
Open Scope Q_scope.

Lemma forall2_trans_len {A B} (P : A -> B -> Prop) l m : Forall2 P l m -> length l = length m.
Proof. induction 1; simpl; auto. Qed.

Section T.
  Variable Or : oracle.
  Hypothesis RL : right_length Or.
  Hypothesis LS : location_scale Or.

  Lemma t_run lo hi t cred n s v s' : num_q lo < num_q hi -> positive_quantile Or cred ->
    t_sample Or (Some lo) (Some hi) t cred n s = (Ok v, s') ->
    exists zs g cs g', 
      (forall m sd, 0 <= sd -> exists l, drawf Or (RNormal m sd) n (rng s) = (Ok l, g) /\
          Forall2 (fun z x => x == m + sd * z) zs l) /\
      drawf Or (RChi t) n g = (Ok cs, g') /\ s' = mkState g' (corr s) /\
      length zs = n /\ length cs = n /\
      exists l, Forall2 (fun z x => x == (num_q hi + num_q lo) / 2 +
                   (num_q hi - (num_q hi + num_q lo) / 2) / ppf Or ((1#2) + (1#2) * (cred / 100)) * z) zs l /\
        v = simplify (flts (map (fun zc => t_ratio Or t (fst zc) (snd zc)) (combine l cs))).
  Proof.
    intros L P H. unfold t_sample in H.
    assert (Qlt_bool (num_q hi) (num_q lo) = false) as E1 by (apply qlt_false; lra).
    assert (Qeq_bool (num_q lo) (num_q hi) = false) as E2.
    { apply not_true_is_false. intros C. apply Qeq_bool_iff in C. lra. }
    assert (Qeq_bool (ppf Or ((1#2) + (1#2) * (cred / 100))) 0 = false) as E3.
    { apply not_true_is_false. intros C. apply Qeq_bool_iff in C. unfold positive_quantile in P. lra. }
    rewrite E1, E2, E3 in H. cbv zeta in H.
    apply bindS_ok in H as (l & s1 & H1 & H). apply bindS_ok in H as (cs & s2 & H2 & H).
    apply ret_ok in H as [<- <-].
    unfold rngf in H1, H2. destruct (drawf Or (RNormal _ _) n (rng s)) as [l' g] eqn:D1.
    inversion H1; subst. simpl in H2. destruct (drawf Or (RChi t) n g) as [cs' g'] eqn:D2. inversion H2; subst.
    destruct LS as (std & St). destruct (St n (rng s)) as [Ls K].
    assert (S0 : 0 <= (num_q hi - (num_q hi + num_q lo) / 2) / ppf Or ((1#2) + (1#2) * (cred / 100))).
    { unfold positive_quantile in P. apply Qle_shift_div_l; auto. 
      assert ((num_q hi + num_q lo) / 2 == (1#2) * num_q hi + (1#2) * num_q lo) as -> by field. lra. }
    destruct (K ((num_q hi + num_q lo) / 2) _ S0) as (l2 & D3 & F). rewrite D1 in D3. inversion D3; subst.
    exists (fst (std n (rng s))), (snd (std n (rng s))), cs, g'. split; [exact K|].
    split; [exact D2|]. split; [reflexivity|]. split; [exact Ls|].
    split; [eapply (proj1 RL); exact D2|]. exists l2. auto.
  Qed.
  Lemma t_run_back lo hi t cred n s zs g cs g' : (1 <= n)%nat -> num_q lo < num_q hi -> positive_quantile Or cred ->
    (forall m sd, 0 <= sd -> exists l, drawf Or (RNormal m sd) n (rng s) = (Ok l, g) /\
          Forall2 (fun z x => x == m + sd * z) zs l) ->
    drawf Or (RChi t) n g = (Ok cs, g') ->
    exists l, Forall2 (fun z x => x == (num_q hi + num_q lo) / 2 +
                   (num_q hi - (num_q hi + num_q lo) / 2) / ppf Or ((1#2) + (1#2) * (cred / 100)) * z) zs l /\
      t_sample Or (Some lo) (Some hi) t cred n s =
      (Ok (simplify (flts (map (fun zc => t_ratio Or t (fst zc) (snd zc)) (combine l cs)))), mkState g' (corr s)).
  Proof.
    intros N L P K D2. unfold t_sample.
    assert (Qlt_bool (num_q hi) (num_q lo) = false) as -> by (apply qlt_false; lra).
    assert (Qeq_bool (num_q lo) (num_q hi) = false) as ->.
    { apply not_true_is_false. intros C. apply Qeq_bool_iff in C. lra. }
    assert (Qeq_bool (ppf Or ((1#2) + (1#2) * (cred / 100))) 0 = false) as ->.
    { apply not_true_is_false. intros C. apply Qeq_bool_iff in C. unfold positive_quantile in P. lra. }
    assert (S0 : 0 <= (num_q hi - (num_q hi + num_q lo) / 2) / ppf Or ((1#2) + (1#2) * (cred / 100))).
    { unfold positive_quantile in P. apply Qle_shift_div_l; auto.
      assert ((num_q hi + num_q lo) / 2 == (1#2) * num_q hi + (1#2) * num_q lo) as -> by field. lra. }
    destruct (K ((num_q hi + num_q lo) / 2) _ S0) as (l & D1 & F). exists l. split; auto.
    cbv zeta. unfold bindS, rngf. rewrite D1. simpl. rewrite D2. reflexivity.
  Qed.

  Lemma pw_of (P : Q -> Q -> Q -> Prop) t (zs : list Q) : forall l1 l2 cs,
    Forall2 (fun a b => forall c, P c (t_ratio Or t a c) (t_ratio Or t b c)) l1 l2 ->
    length cs = length l1 ->
    pairwise3 P cs (flts (map (fun zc => t_ratio Or t (fst zc) (snd zc)) (combine l1 cs)))
                   (flts (map (fun zc => t_ratio Or t (fst zc) (snd zc)) (combine l2 cs))).
  Proof.
    intros l1 l2 cs F. revert cs. induction F; intros [|c cs] L; simpl in *; try discriminate; constructor; auto.
  Qed.
  Lemma forall2_join {A B C} (P : A -> B -> Prop) (R : A -> C -> Prop) (S : B -> C -> Prop) zs :
    (forall z a b, P z a -> R z b -> S a b) -> forall l m, Forall2 P zs l -> Forall2 R zs m -> Forall2 S l m.
  Proof.
    intros H. induction zs; intros l m F1 F2; inversion F1; inversion F2; subst; constructor; eauto.
  Qed.

  (** Scaling both bounds scales every sample. *)
  Lemma t_scale lo hi lo' hi' c t cred n s v s' :
    num_q lo < num_q hi -> 0 < c -> num_q lo' == c * num_q lo -> num_q hi' == c * num_q hi ->
    positive_quantile Or cred ->
    smp Or (ODist (DLeaf (LT (Some lo) (Some hi) t cred) None None)) n None None s = (Ok v, s') ->
    exists w, smp Or (ODist (DLeaf (LT (Some lo') (Some hi') t cred) None None)) n None None s = (Ok w, s') /\
      Forall2 (float_pair (fun a b => b == c * a)) (elems v) (elems w).
  Proof.
    intros L C Elo Ehi P H. pose proof (sample_needs_n _ _ _ _ _ _ _ _ H) as N.
    rewrite smp_odist, smp_leaf, wrap_none in * by auto.
    apply bindS_ok in H as (u & s1 & H & H'). apply ret_ok in H' as [<- <-].
    cbn [leaf_sample] in *. apply t_run in H; auto.
    destruct H as (zs & g & cs & g' & K & D2 & -> & Lz & Lc & l & F & ->).
    assert (L' : num_q lo' < num_q hi') by (rewrite Elo, Ehi; nra).
    destruct (t_run_back lo' hi' t cred n s zs g cs g' N L' P K D2) as (l' & F' & R).
    eexists. split. { unfold bindS. rewrite R. reflexivity. }
    rewrite !simplify_finish, !elems_simplify.
    assert (Q1 : forall xs, floats xs -> np_array (fmt Or) xs = xs).
    { intros xs X. apply np_array_uniform. left. exact X. }
    rewrite !Q1 by (unfold floats, flts; rewrite Forall_map; apply Forall_forall; eauto).
    assert (J : Forall2 (fun a b => b == c * a) l l').
    { eapply (forall2_join _ _ _ zs); [|exact F|exact F']. intros z a b -> ->. rewrite Elo, Ehi.
      unfold positive_quantile in P. field. intros Z. rewrite Z in P. lra. }
    assert (length l = length cs) by (apply forall2_trans_len in F; congruence).
    clear -J H. revert cs H. induction J; intros [|k cs] H'; simpl in *; try discriminate; constructor; auto.
    exists (t_ratio Or t x k), (t_ratio Or t y k). repeat split. unfold t_ratio. rewrite H. unfold Qdiv. ring.
  Qed.

  (** Shifting both bounds by [c] adds [c] divided by the chi-square factor. *)
  Lemma t_shift lo hi lo' hi' c t cred n s v s' :
    num_q lo < num_q hi -> num_q lo' == num_q lo + c -> num_q hi' == num_q hi + c ->
    positive_quantile Or cred ->
    smp Or (ODist (DLeaf (LT (Some lo) (Some hi) t cred) None None)) n None None s = (Ok v, s') ->
    exists w g cs, smp Or (ODist (DLeaf (LT (Some lo') (Some hi') t cred) None None)) n None None s = (Ok w, s') /\
      drawf Or (RChi t) n g = (Ok cs, rng s') /\
      pairwise3 (fun x a b => b == a + c / sqrt_ Or (x / t)) cs (elems v) (elems w).
  Proof.
    intros L Elo Ehi P H. pose proof (sample_needs_n _ _ _ _ _ _ _ _ H) as N.
    rewrite smp_odist, smp_leaf, wrap_none in * by auto.
    apply bindS_ok in H as (u & s1 & H & H'). apply ret_ok in H' as [<- <-].
    cbn [leaf_sample] in *. apply t_run in H; auto.
    destruct H as (zs & g & cs & g' & K & D2 & -> & Lz & Lc & l & F & ->).
    assert (L' : num_q lo' < num_q hi') by (rewrite Elo, Ehi; lra).
    destruct (t_run_back lo' hi' t cred n s zs g cs g' N L' P K D2) as (l' & F' & R).
    eexists. exists g, cs. split. { unfold bindS. rewrite R. reflexivity. }
    split; [exact D2|].
    rewrite !simplify_finish, !elems_simplify.
    assert (Q1 : forall xs, floats xs -> np_array (fmt Or) xs = xs).
    { intros xs X. apply np_array_uniform. left. exact X. }
    rewrite !Q1 by (unfold floats, flts; rewrite Forall_map; apply Forall_forall; eauto).
    assert (J : Forall2 (fun a b => b == a + c) l l').
    { eapply (forall2_join _ _ _ zs); [|exact F|exact F']. intros z a b -> ->. rewrite Elo, Ehi.
      unfold positive_quantile in P. field. intros Z. rewrite Z in P. lra. }
    apply (pw_of (fun x a b => b == a + c / sqrt_ Or (x / t)) t zs).
    - clear -J. induction J; constructor; auto. intros c0. unfold t_ratio. rewrite H. unfold Qdiv. ring.
    - apply forall2_trans_len in F. congruence.
  Qed.
End T.

Lemma t_oracle_length : right_length t_oracle.
Proof.
  split; intros r n g l g' H; simpl in H; [|discriminate].
  destruct r; inversion H; rewrite ?map_length, ?repeat_length; auto. apply ex_fracs_length.
Qed.
Lemma t_oracle_ls : location_scale t_oracle.
Proof.
  exists (fun n g => (ex_fracs n g, (g + n)%nat)). intros n g. split; [apply ex_fracs_length|].
  intros m sd _. eexists. split; [reflexivity|]. simpl. generalize (ex_fracs n g). intros l.
  induction l; constructor; auto. reflexivity.
Qed.
Lemma t_shift_fails : exists lo hi c t cred,
  lo < hi /\ ~ c == 0 /\ positive_quantile t_oracle cred /\
  forall n s v s',
    smp t_oracle (ODist (DLeaf (LT (Some (NF lo)) (Some (NF hi)) t cred) None None)) n None None s = (Ok v, s') ->
    exists w, smp t_oracle (ODist (DLeaf (LT (Some (NF (lo + c))) (Some (NF (hi + c))) t cred) None None)) n None None s = (Ok w, s') /\
      Forall2 (float_pair (fun a b => b == a + (1#2) * c)) (elems v) (elems w).
Proof.
  exists 0, 1, 10, 1, 90. split; [lra|]. split; [lra|]. split; [reflexivity|].
  intros n s v s' H.
  destruct (t_shift t_oracle t_oracle_length t_oracle_ls (NF 0) (NF 1) (NF (0 + 10)) (NF (1 + 10)) 10 1 90 n s v s')
    as (w & g & cs & R & D & P); auto; try reflexivity.
  exists w. split; auto. simpl in D. inversion D; subst. clear D R H. revert P.
  generalize (elems v) (elems w). intros a b P. remember (repeat 4 n) as cs. revert n Heqcs.
  induction P; intros n E; constructor.
  - destruct n; inversion E; subst. exists a, b. split; [reflexivity|]. split; [reflexivity|].
    change (sqrt_ t_oracle (4 / 1)) with 2 in H. rewrite H. field.
  - destruct n; inversion E. eauto.
Qed.

(* ------------------------------------------------------------------ C120 *)
Section LogT.
  Variable Or : oracle.
  Lemma simplify_map (f : pv -> pv) l : simplify (map f l) = on_val f (simplify l).
  Proof. destruct l as [|x [|y l]]; reflexivity. Qed.
  Lemma log_t_is_exp lo hi t cred n s : 0 < num_q lo -> num_q lo < num_q hi ->
    log_ Or (num_q lo) < log_ Or (num_q hi) ->
    smp Or (ODist (DLeaf (LLogT (Some lo) (Some hi) t cred) None None)) n None None s =
    match smp Or (ODist (DLeaf (LT (Some (NF (log_ Or (num_q lo)))) (Some (NF (log_ Or (num_q hi)))) t cred) None None)) n None None s with
    | (Ok v, s') => (Ok (on_val (on_floats (exp_ Or)) v), s')
    | (Err e, s') => (Err e, s')
    end.
  Proof.
    intros P L LL. rewrite !smp_odist, !smp_leaf. destruct n as [|n]; [reflexivity|].
    rewrite !wrap_none by lia. cbn [leaf_sample]. unfold log_t_sample, t_sample. cbn [num_q].
    assert (Qlt_bool (num_q hi) (num_q lo) = false) as -> by (apply qlt_false; lra).
    assert (Qlt_bool (num_q lo) 0 = false) as -> by (apply qlt_false; lra).
    assert (Qlt_bool (log_ Or (num_q hi)) (log_ Or (num_q lo)) = false) as -> by (apply qlt_false; lra).
    assert (Qeq_bool (num_q lo) (num_q hi) = false) as ->.
    { apply not_true_is_false. intros C. apply Qeq_bool_iff in C. lra. }
    assert (Qeq_bool (num_q lo) 0 = false) as ->.
    { apply not_true_is_false. intros C. apply Qeq_bool_iff in C. lra. }
    assert (Qeq_bool (log_ Or (num_q lo)) (log_ Or (num_q hi)) = false) as ->.
    { apply not_true_is_false. intros C. apply Qeq_bool_iff in C. lra. }
    destruct (Qeq_bool (ppf _ _) 0); [reflexivity|].
    cbv zeta. unfold bindS. destruct (rngf Or (RNormal _ _) (S n) s) as [[zs|e] s1]; [|reflexivity].
    destruct (rngf Or (RChi t) (S n) s1) as [[cs|e] s2]; [|reflexivity]. cbn [ret].
    rewrite !simplify_finish.
    rewrite !np_array_uniform.
    2,3: left; unfold floats, flts; rewrite Forall_map; apply Forall_forall; now eauto.
    rewrite <- simplify_map. unfold flts. rewrite !map_map. reflexivity.
  Qed.
End LogT.
