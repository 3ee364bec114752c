(** Samples drawn in batches (C198). *)
From Coq Require Import Qabs ZArith Lia Lqa.
From Verif Require Import Base M_Weights M_Values M_Sampler SpecWeights SpecSampler SpecMixture SpecShare P_Count P_Sampler P_Mixture P_Program P_Program2 P_Large P_Indep P_Columns P_Columns2 SpecBatches.
From Verif Require Import M_SampleApi M_Bayesnet SpecBayes SpecProgram SpecLarge SpecIndep SpecColumns.
Open Scope Q_scope.

Definition kind_of (v : pv) : nat := match v with PInt _ => 0 | PFlt _ => 1 | PBool _ => 2 | PStr _ => 3 | PNone => 4 end%nat.
Definition one_kind (t : nat) (l : list pv) : Prop := Forall (fun v => kind_of v = t) l.
Lemma map_self (f : pv -> pv) l : Forall (fun v => f v = v) l -> map f l = l.
Proof. induction 1; cbn; congruence. Qed.
Lemma array_self f t l : one_kind t l -> np_array f l = l.
Proof.
  intros K. unfold np_array.
  destruct (existsb is_none l) eqn:A; [reflexivity|]. destruct (existsb is_str l) eqn:B.
  { apply existsb_exists in B as (x & I & X). assert (t = 3)%nat. { unfold one_kind in K. rewrite Forall_forall in K. rewrite <- (K x I). destruct x; try discriminate; reflexivity. }
    subst. apply map_self. eapply Forall_impl; [|exact K]. intros [] Y; try discriminate; reflexivity. }
  destruct (existsb is_flt l) eqn:C.
  { apply existsb_exists in C as (x & I & X). assert (t = 1)%nat. { unfold one_kind in K. rewrite Forall_forall in K. rewrite <- (K x I). destruct x; try discriminate; reflexivity. }
    subst. apply map_self. eapply Forall_impl; [|exact K]. intros [] Y; try discriminate; reflexivity. }
  destruct (existsb is_int l) eqn:D; [|reflexivity].
  apply existsb_exists in D as (x & I & X). assert (t = 0)%nat. { unfold one_kind in K. rewrite Forall_forall in K. rewrite <- (K x I). destruct x; try discriminate; reflexivity. }
  subst. apply map_self. eapply Forall_impl; [|exact K]. intros [] Y; try discriminate; reflexivity.
Qed.
Lemma one_kind_map {A} t (f : A -> pv) l : (forall a, kind_of (f a) = t) -> one_kind t (map f l).
Proof. intros H. unfold one_kind. apply Forall_map, Forall_forall. auto. Qed.
Lemma elems_simplify l : elems (simplify l) = l.
Proof. destruct l as [|x [|y l]]; reflexivity. Qed.
Section Leaves.
  Variable Or : oracle.
  Notation St := (state (G Or)).
  Hypothesis RL : right_length Or.
  Hypothesis SD : steady Or.
  (** What a body does in batches. *)
  Definition grows (f : nat -> M St val) : Prop :=
    exists t, (forall n s v s1, f n s = (Ok v, s1) -> one_kind t (elems v)) /\
    forall n m s v s1 w s2, (1 <= n)%nat -> (1 <= m)%nat -> f n s = (Ok v, s1) -> f m s1 = (Ok w, s2) ->
      exists u, f (n + m)%nat s = (Ok u, s2) /\ elems u = elems v ++ elems w.
  Lemma grows_f r (h : Q -> pv) t (g : list pv -> val) : (forall l, elems (g l) = l) -> (forall q, kind_of (h q) = t) ->
    grows (fun n => let! l := rngf Or r n in ret (g (map h l))).
  Proof.
    intros Hg K. exists t. unfold bindS, rngf, ret. split.
    - intros n s v s1 H. destruct (drawf Or r n (rng s)) as [[l|e] g1]; inversion H; subst. rewrite Hg. now apply one_kind_map.
    - intros n m s v s1 w s2 _ _ H1 H2. destruct (drawf Or r n (rng s)) as [[l|e] g1] eqn:A; inversion H1; subst. cbn [rng corr] in H2.
      destruct (drawf Or r m g1) as [[l'|e] g2] eqn:B; inversion H2; subst. rewrite (proj1 SD _ _ _ _ _ _ _ _ A B). eexists. split; [reflexivity|]. rewrite !Hg. apply map_app.
  Qed.
  Lemma grows_i r (h : Z -> pv) t (g : list pv -> val) : (forall l, elems (g l) = l) -> (forall q, kind_of (h q) = t) ->
    grows (fun n => let! l := rngi Or r n in ret (g (map h l))).
  Proof.
    intros Hg K. exists t. unfold bindS, rngi, ret. split.
    - intros n s v s1 H. destruct (drawi Or r n (rng s)) as [[l|e] g1]; inversion H; subst. rewrite Hg. now apply one_kind_map.
    - intros n m s v s1 w s2 _ _ H1 H2. destruct (drawi Or r n (rng s)) as [[l|e] g1] eqn:A; inversion H1; subst. cbn [rng corr] in H2.
      destruct (drawi Or r m g1) as [[l'|e] g2] eqn:B; inversion H2; subst. rewrite (proj2 SD _ _ _ _ _ _ _ _ A B). eexists. split; [reflexivity|]. rewrite !Hg. apply map_app.
  Qed.
  Lemma grows_same f f' : (forall n s, f n s = f' n s) -> grows f -> grows f'.
  Proof.
    intros E (t & K & H). exists t. split; [intros n s v s1 X; rewrite <- E in X; eauto|]. intros n m s v s1 w s2 Hn Hm A B. rewrite <- E in A, B. rewrite <- E. eauto.
  Qed.
  Lemma replicate_app {A} (p : M St A) n m : forall s xs s1 ys s2, replicateS n p s = (Ok xs, s1) -> replicateS m p s1 = (Ok ys, s2) -> replicateS (n + m) p s = (Ok (xs ++ ys), s2).
  Proof.
    induction n as [|n IH]; intros s xs s1 ys s2 R1 R2.
    - cbn in R1. inversion R1; subst. exact R2.
    - cbn [replicateS Nat.add] in *. unfold bindS in *. destruct (p s) as [[a|e] s0]; [|discriminate]. destruct (replicateS n p s0) as [[l|e] s1'] eqn:E; [|discriminate].
      cbn in R1. inversion R1; subst. rewrite (IH _ _ _ _ _ E R2). reflexivity.
  Qed.
  (** One element, or many as an array. *)
  Definition one_or_many {A} (p : M St A) (h : A -> pv) (n : nat) : M St val :=
    match n with
    | 1%nat => let! a := p in ret (Scalar (h a))
    | _ => let! l := replicateS n p in ret (Arr (map h l))
    end.
  Lemma one_or_many_run {A} (p : M St A) h n s v s1 : one_or_many p h n s = (Ok v, s1) <-> exists l, replicateS n p s = (Ok l, s1) /\ v = simplify (map h l).
  Proof.
    unfold one_or_many. assert (L : forall l, replicateS n p s = (Ok l, s1) -> length l = n) by (intros l; apply replicateS_length).
    destruct n as [|[|n]].
    - cbn. split; [intros H; inversion H; exists []; auto|intros (l & H & ->); inversion H; reflexivity].
    - cbn [replicateS]. unfold bindS, ret. destruct (p s) as [[a|e] s0]; [|split; [discriminate|intros (l & H & _); discriminate]].
      split; [intros H; inversion H; subst; exists [a]; auto|intros (l & H & ->); inversion H; reflexivity].
    - unfold bindS at 1. destruct (replicateS (S (S n)) p s) as [[l|e] s0]; [|split; [discriminate|intros (l & H & _); discriminate]]. unfold ret. split.
      + intros H. inversion H; subst. exists l. split; [reflexivity|]. specialize (L l eq_refl). destruct l as [|a [|b l]]; try discriminate. reflexivity.
      + intros (l' & H & ->). inversion H; subst. specialize (L l' eq_refl). destruct l' as [|a [|b l']]; try discriminate. reflexivity.
  Qed.
  Lemma grows_many {A} (p : M St A) h t : (forall a, kind_of (h a) = t) -> grows (one_or_many p h).
  Proof.
    intros K. exists t. split.
    - intros n s v s1 H. apply one_or_many_run in H as (l & _ & ->). rewrite elems_simplify. now apply one_kind_map.
    - intros n m s v s1 w s2 _ _ H1 H2. apply one_or_many_run in H1 as (l & E1 & ->). apply one_or_many_run in H2 as (l' & E2 & ->).
      exists (simplify (map h (l ++ l'))). split; [apply one_or_many_run; eexists; split; [eapply replicate_app; eauto|reflexivity]|]. rewrite !elems_simplify. apply map_app.
  Qed.
  Lemma coin_simple n s : coin_sample Or n s = (let! l := rngi Or (RInt 0 2) n in ret (simplify (map face l))) s.
  Proof.
    unfold coin_sample. destruct n as [|[|n]].
    - unfold bindS, rngi, ret. destruct (drawi Or (RInt 0 2) 0 (rng s)) as [[l|e] g] eqn:E; [|reflexivity]. apply (proj2 RL) in E. destruct l; [reflexivity|discriminate].
    - unfold one_int, bindS, rngi, ret. destruct (drawi Or (RInt 0 2) 1 (rng s)) as [[l|e] g] eqn:E; [|reflexivity]. apply (proj2 RL) in E. destruct l as [|z [|]]; try discriminate. reflexivity.
    - unfold bindS, rngi, ret. destruct (drawi Or (RInt 0 2) (S (S n)) (rng s)) as [[l|e] g] eqn:E; [|reflexivity]. apply (proj2 RL) in E. destruct l as [|z [|]]; try discriminate. reflexivity.
  Qed.
  Lemma grows_fails e : grows (fun _ => raise e).
  Proof. exists 0%nat. split; intros; discriminate. Qed.
  Lemma leaf_grows k : stepwise k -> grows (leaf_sample Or k).
  Proof.
    assert (F : forall r, grows (fsample Or r)) by (intros r; apply (grows_f r (fun q => PFlt (Fin q)) 1%nat simplify elems_simplify); reflexivity).
    assert (I : forall r, grows (isample Or r)) by (intros r; apply (grows_i r PInt 0%nat simplify elems_simplify); reflexivity).
    intros S. destruct k; cbn [leaf_sample]; try (exact (F _)); try (exact (I _)); try destruct S.
    - (* const *) exists (kind_of x). assert (K : forall n, one_kind (kind_of x) (repeat x n)) by (intros n; apply Forall_forall; intros y Y; apply repeat_spec in Y; now subst). unfold ret. split.
      + intros n s v s1 H. inversion H; subst. rewrite elems_simplify, (array_self _ _ _ (K n)). apply K.
      + intros n m s v s1 w s2 _ _ H1 H2. inversion H1; inversion H2; subst. eexists. split; [reflexivity|]. rewrite !elems_simplify, !(array_self _ _ _ (K _)). apply repeat_app.
    - destruct sd as [sd|]; [exact (F _)|apply grows_fails].
    - apply (grows_f _ (fun q => PFlt (xdiv (Fin 1) (Fin q))) 1%nat simplify elems_simplify). reflexivity.
    - apply (grows_f _ (fun u => PInt (b2z (Qlt_bool u p))) 0%nat simplify elems_simplify). reflexivity.
    - change (grows (pareto_sample Or shape)). eapply grows_same; [|apply (grows_f (RPareto shape) (fun q => PFlt (Fin (q + 1))) 1%nat simplify elems_simplify); reflexivity].
      intros n s. unfold pareto_sample, flts, bindS. destruct (rngf Or _ n s) as [[l0|e] s0]; [|reflexivity]. unfold ret. now rewrite map_map.
    - change (grows (pert_sample Or l m r lam)). unfold pert_sample. destruct (Qeq_bool _ 0); [apply grows_fails|].
      eapply grows_same; [|apply (grows_f (RBeta (pert_alpha l m r lam) (pert_beta l m r lam)) (fun q => PFlt (Fin (l + q * (r - l)))) 1%nat simplify elems_simplify); reflexivity].
      intros n s. unfold flts, bindS. destruct (rngf Or _ n s) as [[l0|e] s0]; [|reflexivity]. unfold ret. now rewrite map_map.
    - subst. apply (grows_f _ (fun q => PFlt (Fin q)) 1%nat Arr); reflexivity.
    - apply (grows_many (single_roll Or sides explode) PInt 0%nat). reflexivity.
    - change (grows (coin_sample Or)). eapply grows_same; [|apply (grows_i (RInt 0 2) face 3%nat simplify elems_simplify); reflexivity]. intros n s. now rewrite coin_simple.
  Qed.
  Lemma leaf_wrap k n s : (1 <= n)%nat -> smp Or (ODist (DLeaf k None None)) n None None s = match leaf_sample Or k n s with (Ok v, s1) => (Ok (finish_list Or v), s1) | (Err e, s1) => (Err e, s1) end.
  Proof.
    intros Hn. destruct n; [lia|]. rewrite smp_odist, smp_leaf. unfold wrap, bindS. destruct (leaf_sample Or k (S n) s) as [[v|e] s1]; [|reflexivity]. cbn. destruct v; reflexivity.
  Qed.
  Lemma leaf_continues k n m s : stepwise k -> (1 <= n)%nat -> (1 <= m)%nat -> continues Or (ODist (DLeaf k None None)) n m s.
  Proof.
    intros S Hn Hm v s1 w s2 A B. rewrite leaf_wrap in A, B by assumption. rewrite leaf_wrap by lia. destruct (leaf_grows k S) as (t & K & H).
    assert (Fi : forall n s v s1, leaf_sample Or k n s = (Ok v, s1) -> elems (finish_list Or v) = elems v).
    { intros n0 s0 v0 s0' E. pose proof (K _ _ _ _ E) as T. destruct v0; [reflexivity|]. cbn [finish_list elems] in *. now apply (array_self _ t). }
    destruct (leaf_sample Or k n s) as [[v0|e] s1'] eqn:E1; [|discriminate]. inversion A; subst. destruct (leaf_sample Or k m s1) as [[w0|e] s2'] eqn:E2; [|discriminate]. inversion B; subst.
    destruct (H _ _ _ _ _ _ _ Hn Hm E1 E2) as (u & E3 & E). rewrite E3. eexists. split; [reflexivity|]. rewrite (Fi _ _ _ _ E1), (Fi _ _ _ _ E2), (Fi _ _ _ _ E3). exact E.
  Qed.
  Lemma obo_app ws ds n m : forall s xs s1 ys s2, one_by_one Or ws ds n s xs s1 -> one_by_one Or ws ds m s1 ys s2 -> one_by_one Or ws ds (n + m) s (xs ++ ys) s2.
  Proof. intros s xs s1 ys s2 A B. induction A; [exact B|]. cbn. econstructor; eauto. Qed.
  Lemma mixture_continues ws ds n m s v s1 w s2 : (1 <= n)%nat -> (1 <= m)%nat -> (n + m <= 100)%nat -> ready ws ds -> (2 <= length ds)%nat ->
    smp Or (ODist (DMixture ws ds None None)) n None None s = (Ok v, s1) -> smp Or (ODist (DMixture ws ds None None)) m None None s1 = (Ok w, s2) ->
    exists xs ys, elems v = np_array (fmt Or) xs /\ elems w = np_array (fmt Or) ys /\
      smp Or (ODist (DMixture ws ds None None)) (n + m) None None s = (Ok (Arr (np_array (fmt Or) (xs ++ ys))), s2).
  Proof.
    intros Hn Hm H R L A B. apply (mixture_small Or RL) in A as (xs & X & ->); [|lia|exact R|exact L]. apply (mixture_small Or RL) in B as (ys & Y & ->); [|lia|exact R|exact L].
    exists xs, ys. split; [apply elems_simplify|]. split; [apply elems_simplify|]. apply (mixture_small Or RL); [lia|exact R|exact L|]. exists (xs ++ ys). split; [eapply obo_app; eauto|].
    assert (Lx : length (np_array (fmt Or) (xs ++ ys)) = (n + m)%nat).
    { assert (Q : length (xs ++ ys) = (n + m)%nat) by (apply (obo_app _ _ _ _ _ _ _ _ _ X) in Y; eapply obo_length; eauto). unfold np_array. destruct (existsb _ _); [exact Q|]. repeat (destruct (existsb _ _); [rewrite map_length; exact Q|]). exact Q. }
    destruct (np_array (fmt Or) (xs ++ ys)) as [|a [|b l]]; cbn in Lx; try lia; reflexivity.
  Qed.
End Leaves.
Lemma repeated_first {A} (p : prog A) L c n m : fits p L c -> forall F, expect (repeated (n + m) p) (fun l => F (firstn n l)) == expect (repeated n p) F.
Proof.
  intros Fi. induction n as [|n IH]; intros F.
  - cbn [repeated expect Nat.add]. rewrite (expect_ext _ _ (fun _ => F [])) by reflexivity. apply (expect_const _ _ _ _ (fits_repeated _ _ _ m Fi)).
  - cbn [repeated Nat.add]. rewrite !expect_after. apply expect_ext. intros a. rewrite !expect_after. rewrite <- (IH (fun l => expect (Return (a :: l)) F)). apply expect_ext. intros l. reflexivity.
Qed.
Section Law.
  Variables (Or : oracle) (N : nat) (ahead : G Or -> nat -> nat).
  Hypotheses (HN : (0 < N)%nat) (RL : right_length Or) (RA : reads_all Or N ahead).
  Lemma first_share e n m P ss : sound e -> (1 <= n)%nat -> of_number_lists P -> each_once N ((n + m) * work e) (map (coming Or ahead ((n + m) * work e)) ss) ->
    Qabs (qnat (count (samples_in Or (obj_of e) (n + m) (fun xs => P (firstn n xs))) ss) / qnat (N ^ ((n + m) * work e)) - chance (repeated n (prog_of e)) P) <= qnat ((n + m) * spread e) / qnat N.
  Proof.
    intros S Hn HP Eo.
    assert (HP' : of_number_lists (fun xs => P (firstn n xs))). { intros xs ys F. apply HP. clear -F. revert n. induction F; intros [|n]; cbn; constructor; auto. }
    pose proof (samples_share Or N ahead HN RL RA e (n + m) _ ss S ltac:(lia) HP' Eo) as H.
    assert (X : chance (repeated (n + m) (prog_of e)) (fun xs => P (firstn n xs)) == chance (repeated n (prog_of e)) P).
    { rewrite !expect_chance. apply (repeated_first (prog_of e) _ _ n m (fits_prog e S) (fun l => if P l then 1 else 0)). }
    rewrite X in H. exact H.
  Qed.
End Law.
