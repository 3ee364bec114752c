(** Supports (C22), purity (C23), model functions (C24), events (C25). *)
From Verif Require Import Base M_Weights SpecWeights P_Weights P_Weights2 M_Pick M_Values M_Sampler M_Ops
  SpecSampler SpecSampler2 SpecOps P_Sampler P_Count P_Clip P_Ops P_Sampler2.
From Coq Require Import Lqa.
Open Scope Q_scope.

Lemma qlt_true a b : Qlt_bool a b = true <-> a < b.
Proof.
  unfold Qlt_bool. rewrite negb_true_iff. split; intros H.
  - apply Qnot_le_lt. intros C. apply Qle_bool_iff in C. congruence.
  - apply not_true_is_false. intros C. apply Qle_bool_iff in C. lra.
Qed.
Lemma qlt_false a b : Qlt_bool a b = false <-> b <= a.
Proof.
  unfold Qlt_bool. rewrite negb_false_iff. apply Qle_bool_iff.
Qed.

(* ------------------------------------------------------------------ *)
(** * C22 *)
Lemma np_array_strings f l : Forall (fun v => exists s, v = PStr s) l -> np_array f l = l.
Proof.
  intros U. unfold np_array.
  assert (existsb is_none l = false) as ->.
  { apply not_true_is_false. intros C. apply existsb_exists in C as (y & Hy & E).
    rewrite Forall_forall in U; destruct (U y Hy) as (q & ->); discriminate. }
  assert (map (to_str f) l = l) as ->.
  { induction U; simpl; auto. destruct H as (q & ->). simpl. congruence. }
  destruct l as [|x l]; auto. inversion U; subst. destruct H1 as (q & ->). reflexivity.
Qed.

Lemma finish_elems Or (P : pv -> Prop) v :
  (uniform_kind (elems v) \/ Forall (fun x => exists s, x = PStr s) (elems v)) ->
  Forall P (elems v) -> Forall P (elems (finish_list Or v)).
Proof.
  destruct v as [x|l]; simpl; auto. intros [U|U] H.
  - now rewrite np_array_uniform.
  - now rewrite np_array_strings.
Qed.
Lemma elems_simplify l : elems (simplify l) = l.
Proof. destruct l as [|x [|y l]]; reflexivity. Qed.
Lemma floats_of (P : Q -> Prop) l : Forall (float_in P) l -> floats l.
Proof. intros H. eapply Forall_impl; [|exact H]. intros a (q & -> & _). eauto. Qed.
Lemma ints_of (P : Z -> Prop) l : Forall (int_in P) l -> integers l.
Proof. intros H. eapply Forall_impl; [|exact H]. intros a (q & -> & _). eauto. Qed.

Section Support.
  Variable Or : oracle.
  Hypothesis IS : in_support Or.
  Notation St := (state (G Or)).

  Lemma rngf_range r n s l s' : rngf Or r n s = (Ok l, s') -> Forall (frange r) l.
  Proof.
    unfold rngf. destruct (drawf Or r n (rng s)) as [x g] eqn:E. intros H. inversion H; subst.
    eapply (proj1 IS); eauto.
  Qed.
  Lemma rngi_range r n s l s' : rngi Or r n s = (Ok l, s') -> Forall (irange r) l.
  Proof.
    unfold rngi. destruct (drawi Or r n (rng s)) as [x g] eqn:E. intros H. inversion H; subst.
    eapply (proj2 IS); eauto.
  Qed.

  Lemma fsample_in (P : Q -> Prop) r n s v s' : (forall q, frange r q -> P q) ->
    fsample Or r n s = (Ok v, s') -> Forall (float_in P) (elems v).
  Proof.
    intros HP H. unfold fsample in H. inv_ok H. apply rngf_range in Ha. rewrite elems_simplify.
    unfold flts. clear -Ha HP. induction Ha; simpl; constructor; auto. eexists; eauto.
  Qed.
  Lemma isample_in (P : Z -> Prop) r n s v s' : (forall q, irange r q -> P q) ->
    isample Or r n s = (Ok v, s') -> Forall (int_in P) (elems v).
  Proof.
    intros HP H. unfold isample in H. inv_ok H. apply rngi_range in Ha. rewrite elems_simplify.
    unfold ints. clear -Ha HP. induction Ha; simpl; constructor; auto. eexists; eauto.
  Qed.

  Lemma one_int_in lo hi s z s' : one_int Or lo hi s = (Ok z, s') -> (lo <= z < hi)%Z.
  Proof.
    unfold one_int. intros H. inv_ok H. apply rngi_range in Ha.
    destruct a as [|x [|y l]]; inv_ok H. inversion Ha; subst. exact H1.
  Qed.
  Lemma explode_ge fuel sides ex : forall roll tot s z s',
    explode_loop Or fuel sides ex roll tot s = (Ok z, s') -> (tot <= z)%Z.
  Proof.
    induction fuel; intros roll tot s z s' H; simpl in H; destruct (existsb _ ex); inv_ok H; try lia.
    - apply one_int_in in Ha. apply IHfuel in H. lia.
  Qed.
  Lemma roll_in sides ex s z s' : single_roll Or sides ex s = (Ok z, s') ->
    (1 <= z)%Z /\ (ex = None -> (z <= sides)%Z).
  Proof.
    unfold single_roll. intros H. inv_ok H. apply one_int_in in Ha. destruct ex; [|inv_ok H].
    - apply explode_ge in H. split; [lia|discriminate].
    - split; lia.
  Qed.
  Lemma replicateS_all {A} (P : A -> Prop) (m : M St A) n :
    (forall s a s', m s = (Ok a, s') -> P a) ->
    forall s l s', replicateS n m s = (Ok l, s') -> Forall P l.
  Proof.
    intros HP. induction n; intros s l s' H; simpl in H; inv_ok H; constructor; eauto.
  Qed.

  Lemma face_coin z : (face z = PStr "heads" \/ face z = PStr "tails") /\ exists s, face z = PStr s.
  Proof. unfold face. destruct (z =? 1)%Z; eauto. Qed.

  (** The samples of one leaf distribution, before the final array conversion. *)
  Lemma leaf_support k n s v s' : (match k with LConst _ | LCatList _ | LCatDict _ | LT _ _ _ _ | LLogT _ _ _ _ => False | _ => True end) ->
    (match k with LUniform x y => x < y | LPert l _ r _ => l <= r | _ => True end) ->
    leaf_sample Or k n s = (Ok v, s') ->
    Forall (support k) (elems v) /\
    (uniform_kind (elems v) \/ Forall (fun x => exists s, x = PStr s) (elems v)).
  Proof.
    intros HK HV H.
    destruct k; simpl in H; try destruct HK; simpl support.
    - (* uniform *)
      apply (fsample_in (fun q => x <= q /\ q < y)) in H; [|simpl; auto].
      split; [|left; left; eapply floats_of; eauto]. eapply Forall_impl; [|exact H]. simpl; auto.
    - destruct sd; [|destruct (raise_ok _ _ _ _ H)].
      apply (fsample_in (fun q => True)) in H; [|simpl; auto]. split; auto. left; left; eapply floats_of; eauto.
    - apply (fsample_in (fun q => 0 < q)) in H; [|simpl; auto]. split; auto. left; left; eapply floats_of; eauto.
    - unfold inverse_lognormal_sample in H. inv_ok H. apply rngf_range in Ha. rewrite elems_simplify in *.
      assert (X : Forall (float_in (fun q => 0 < q)) (map (fun q => PFlt (xdiv (Fin 1) (Fin q))) a)).
      { clear -Ha. induction Ha; simpl; constructor; auto. simpl in H.
        assert (Qeq_bool x 0 = false) as ->.
        { apply not_true_is_false. intros C. apply Qeq_bool_iff in C. lra. }
        eexists; split; [reflexivity|]. unfold Qdiv. rewrite Qmult_1_l. now apply Qinv_lt_0_compat. }
      split; auto. left; left; eapply floats_of; eauto.
    - apply (isample_in (fun z => 0 <= z <= n0)%Z) in H; [|simpl; auto]. split; auto. left; right; eapply ints_of; eauto.
    - apply (fsample_in (fun q => 0 <= q /\ q <= 1)) in H; [|simpl; auto]. split; auto. left; left; eapply floats_of; eauto.
    - unfold bernoulli_sample in H. inv_ok H. rewrite elems_simplify in *. split.
      + clear. induction a; simpl; constructor; auto. destruct (Qlt_bool a p); simpl; auto.
      + left; right. clear. induction a; simpl; constructor; eauto.
    - apply (isample_in (fun z => 0 <= z)%Z) in H; [|simpl; auto]. split; auto. left; right; eapply ints_of; eauto.
    - apply (fsample_in (fun q => 0 <= q)) in H; [|simpl; auto]. split; auto. left; left; eapply floats_of; eauto.
    - apply (fsample_in (fun q => 0 <= q)) in H; [|simpl; auto]. split; auto. left; left; eapply floats_of; eauto.
    - apply (fsample_in (fun q => 0 <= q)) in H; [|simpl; auto]. split; auto. left; left; eapply floats_of; eauto.
    - unfold pareto_sample in H. inv_ok H. apply rngf_range in Ha. rewrite elems_simplify in *.
      assert (X : Forall (float_in (fun q => 1 <= q)) (flts (map (fun q => q + 1) a))).
      { clear -Ha. induction Ha; simpl; constructor; auto. simpl in H.
        eexists; split; [reflexivity|]. lra. }
      split; auto. left; left; eapply floats_of; eauto.
    - apply (fsample_in (fun q => l <= q /\ q <= r)) in H; [|simpl; auto]. split; auto. left; left; eapply floats_of; eauto.
    - unfold pert_sample in H. destruct (Qeq_bool (r - l) 0) eqn:E; inv_ok H.
      apply rngf_range in Ha. rewrite elems_simplify in *.
      assert (X : Forall (float_in (fun q => l <= q /\ q <= r)) (flts (map (fun x => l + x * (r - l)) a))).
      { clear -Ha HV. induction Ha; simpl; constructor; auto. simpl in H.
        eexists; split; [reflexivity|]. split; nra. }
      split; [eapply Forall_impl; [|exact X]; simpl; auto|]. left; left; eapply floats_of; eauto.
    - apply (isample_in (fun z => 1 <= z)%Z) in H; [|simpl; auto]. split; auto. left; right; eapply ints_of; eauto.
    - unfold die_sample in H.
      set (P := fun z => (1 <= z)%Z /\ (explode = None -> (z <= sides)%Z)).
      assert (Forall (int_in P) (elems v)) as X.
      { destruct n as [|[|n]]; inv_ok H; simpl.
        - simpl in Ha. inv_ok Ha. constructor.
        - constructor; [|constructor]. eexists; split; [reflexivity|]. eapply roll_in; eauto.
        - apply (replicateS_all P (single_roll Or sides explode) (S (S n))) in Ha; [|intros; eapply roll_in; eauto].
          clear -Ha. unfold ints. induction Ha; simpl; constructor; auto. eexists; eauto. }
      split; [|left; right; eapply ints_of; eauto].
      eapply Forall_impl; [|exact X]. intros a (z & -> & H1 & H2). destruct explode; exists z; split; auto.
    - unfold coin_sample in H.
      assert (forall zs, Forall (fun v => (v = PStr "heads" \/ v = PStr "tails") /\ exists s, v = PStr s) (map face zs)) as X.
      { induction zs; simpl; constructor; auto. apply face_coin. }
      assert (exists zs, elems v = map face zs) as (zs & ->).
      { destruct n as [|[|n]]; inv_ok H; simpl; eauto. exists [a]; reflexivity. }
      split; [|right]; (eapply Forall_impl; [|apply X]); intros a [A B]; auto.
  Qed.

  Lemma leaf_in_support k n s v s' :
    smp Or (ODist (DLeaf k None None)) n None None s = (Ok v, s') -> Forall (support k) (elems v).
  Proof.
    intros H. pose proof (sample_needs_n _ _ _ _ _ _ _ _ H) as Hn.
    rewrite smp_odist, smp_leaf, wrap_none in H by assumption.
    destruct (leaf_sample Or k n s) as [[u|e] s1] eqn:E; [|discriminate]. inversion H; subst. clear H.
    destruct k; try (apply Forall_forall; intros; exact I).
    all: try (match type of E with leaf_sample _ ?k _ _ = _ => destruct (leaf_support k _ _ _ _ I I E) as [A B] end; apply finish_elems; assumption).
    - simpl in E. inversion E; subst.
      assert (Z : elems (finish_list Or (simplify (np_array (fmt Or) (repeat x n)))) = repeat x n).
      { rewrite np_array_repeat. pose proof (finish_copies Or x n) as F. unfold copies in F. rewrite F. apply elems_simplify. }
      rewrite Z. apply Forall_forall. intros y Hy. simpl. now apply repeat_spec in Hy.
    - destruct (Qlt_le_dec x y) as [L|L].
      + destruct (leaf_support (LUniform x y) _ _ _ _ I L E) as [A B]; apply finish_elems; assumption.
      + apply Forall_forall. intros v _. simpl. intros C. exfalso. lra.
    - destruct (Qlt_le_dec r l) as [L|L].
      + apply Forall_forall. intros v _. simpl. intros C. exfalso. lra.
      + destruct (leaf_support (LPert l m r lam) _ _ _ _ I L E) as [A B]; apply finish_elems; assumption.
  Qed.

  (** bernoulli: one uniform draw per sample, compared with p. *)
  Lemma bernoulli_draws p n s v s' : (1 <= n)%nat ->
    smp Or (ODist (DLeaf (LBernoulli p) None None)) n None None s = (Ok v, s') ->
    exists us g, drawf Or (RUniform 0 1) n (rng s) = (Ok us, g) /\ s' = mkState g (corr s) /\
      Forall2 (fun u x => 0 <= u < 1 /\ (x = PInt 1 /\ u < p \/ x = PInt 0 /\ p <= u)) us (elems v).
  Proof.
    intros Hn H. rewrite smp_odist, smp_leaf, wrap_none in H by assumption.
    destruct (leaf_sample Or (LBernoulli p) n s) as [[u|e] s1] eqn:E; [|discriminate]. inversion H; subst. clear H.
    simpl in E. unfold bernoulli_sample in E. inv_ok E. pose proof (rngf_range _ _ _ _ _ Ha) as R.
    unfold rngf in Ha. destruct (drawf Or (RUniform 0 1) n (rng s)) as [x g] eqn:D. inversion Ha; subst.
    exists a, g. split; [auto|]. split; [auto|].
    assert (X : integers (map (fun u => PInt (b2z (Qlt_bool u p))) a)).
    { clear. induction a; simpl; constructor; eauto. }
    assert (Z : elems (finish_list Or (simplify (map (fun u => PInt (b2z (Qlt_bool u p))) a))) =
            map (fun u => PInt (b2z (Qlt_bool u p))) a).
    { rewrite finish_simplify by (right; now right). apply elems_simplify. }
    rewrite Z. clear -R. induction R; simpl; constructor; auto.
    split; [apply H; lra|]. destruct (Qlt_bool x p) eqn:Q; [left|right]; split; auto.
    - now apply qlt_true. - now apply qlt_false.
  Qed.
End Support.
