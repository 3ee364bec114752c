(** Lemmas for [Props_RisingMix]. *)
From Coq Require Import Lqa.
From Verif Require Import Base M_Weights M_Values M_Sampler M_Ops SpecWeights SpecSampler SpecOps SpecMixture SpecRising
  P_Sampler P_Count P_Ops P_Support P_Mixture P_Share P_Rising.
Open Scope Q_scope.

Lemma forall2_nth_error {A B} (R : A -> B -> Prop) l m : Forall2 R l m -> forall i x, nth_error l i = Some x -> exists y, nth_error m i = Some y /\ R x y.
Proof.
  induction 1 as [|a b l m H F IH]; intros [|i] x E; try discriminate; cbn in *; [inversion E; subst; eauto|auto].
Qed.

Section Mix.
  Variable Or : oracle.
  Lemma read_scalar a xs : numbers 1 (Scalar a) xs -> exists x, xs = [x] /\ plain a x.
  Proof. intros [_ F]. cbn in F. inversion F as [|? x ? l P N]; subst. inversion N; subst. eauto. Qed.
  Lemma one_by_one_rise ws ds ds' : nonneg ws -> Forall2 (never_above Or 1) ds ds' -> forall n s xs s1, one_by_one Or ws ds n s xs s1 ->
    forall xs' s2, one_by_one Or ws ds' n s xs' s2 ->
    s1 = s2 /\ exists qs qs', Forall2 plain xs qs /\ Forall2 plain xs' qs' /\ Forall2 Qle qs qs'.
  Proof.
    intros Hn F n s xs s1 H. induction H as [s|n s u g i o x s1 xs s2 D Fa N S H IH]; intros xs' s3 H'.
    - inversion H'; subst. split; auto. exists [], []. repeat split; constructor.
    - inversion H' as [|? ? u' g' i' o' x' t1 ys t2 D' Fa' N' S' K]; subst.
      rewrite D in D'. inversion D'; subst. assert (i' = i) as -> by (eapply falls_unique; eauto).
      destruct (forall2_nth_error _ _ _ F _ _ N) as (o2 & N2 & A). rewrite N' in N2. inversion N2; subst.
      destruct (A _ _ _ _ _ S S') as ((q & q' & R & R' & L) & <-).
      apply read_scalar in R as (a & -> & Pa). apply read_scalar in R' as (b & -> & Pb).
      destruct (IH _ _ K) as (-> & qs & qs' & P & P' & Ls). split; auto.
      exists (a :: qs), (b :: qs'). inversion L; subst. repeat split; constructor; auto.
  Qed.

  Lemma column_numbers n v xs : numbers n v xs -> Forall2 plain (match v with Scalar x => [x] | Arr l => l end) xs.
  Proof. intros [_ F]. destruct v; exact F. Qed.
  Definition columns_below (c c' : list pv) : Prop := exists q q', Forall2 plain c q /\ Forall2 plain c' q' /\ Forall2 Qle q q'.
  Lemma columns_rise n ds ds' : Forall2 (never_above Or n) ds ds' -> forall s cols s1, all_columns Or n ds s cols s1 ->
    forall cols' s2, all_columns Or n ds' s cols' s2 -> s1 = s2 /\ Forall2 columns_below cols cols'.
  Proof.
    induction 1 as [|o o' ds ds' A F IH]; intros s cols s1 H cols' s2 H'.
    - inversion H; subst. inversion H'; subst. split; constructor.
    - inversion H as [|? ? ? v t cs ? E K]; subst. inversion H' as [|? ? ? v' t' cs' ? E' K']; subst.
      destruct (A _ _ _ _ _ E E') as ((q & q' & R & R' & L) & <-). destruct (IH _ _ _ K _ _ K') as [-> G]. split; auto.
      constructor; auto. exists q, q'. split; [eapply column_numbers; eauto|]. split; [eapply column_numbers; eauto|exact L].
  Qed.
  Lemma column_at c c' j x y : columns_below c c' -> nth_error c j = Some x -> nth_error c' j = Some y ->
    exists a b, plain x a /\ plain y b /\ a <= b.
  Proof.
    intros (q & q' & P & P' & L) X Y.
    destruct (forall2_nth_error _ _ _ P _ _ X) as (a & A & Pa). destruct (forall2_nth_error _ _ _ P' _ _ Y) as (b & B & Pb).
    destruct (forall2_nth_error _ _ _ L _ _ A) as (b' & B' & Lab). rewrite B in B'. inversion B'; subst. eauto.
  Qed.
  Lemma pointwise_numbers xs : forall ys, length xs = length ys ->
    (forall j x y, nth_error xs j = Some x -> nth_error ys j = Some y -> exists a b, plain x a /\ plain y b /\ a <= b) ->
    exists qs qs', Forall2 plain xs qs /\ Forall2 plain ys qs' /\ Forall2 Qle qs qs'.
  Proof.
    induction xs as [|x xs IH]; intros ys L H; destruct ys as [|y ys]; try discriminate.
    - exists [], []. repeat split; constructor.
    - destruct (H 0%nat x y eq_refl eq_refl) as (a & b & A & B & Lab).
      destruct (IH ys) as (qs & qs' & P & P' & Ls); [now inversion L|intros j u w U W; apply (H (S j)); auto|].
      exists (a :: qs), (b :: qs'). repeat split; constructor; auto.
  Qed.
  Lemma selected_rise ws us cols cols' xs xs' : nonneg ws -> Forall2 columns_below cols cols' ->
    selected ws us cols xs -> selected ws us cols' xs' ->
    exists qs qs', Forall2 plain xs qs /\ Forall2 plain xs' qs' /\ Forall2 Qle qs qs'.
  Proof.
    intros Hn F [L S] [L' S']. apply pointwise_numbers; [congruence|]. intros j x y X Y.
    assert (j < length us)%nat as J by (rewrite <- L; apply nth_error_Some; congruence).
    destruct (nth_error us j) as [u|] eqn:U; [|apply nth_error_None in U; lia].
    destruct (S _ _ U) as (i & col & Fa & _ & C & N & _). destruct (S' _ _ U) as (i' & col' & Fa' & _ & C' & N' & _).
    assert (i' = i) as -> by (eapply falls_unique; eauto).
    destruct (forall2_nth_error _ _ _ F _ _ C) as (c2 & C2 & B). rewrite C' in C2. inversion C2; subst.
    apply (column_at _ _ j x y B); congruence.
  Qed.

  Lemma drawn_below n xs xs' qs qs' : length xs = n -> length xs' = n -> Forall2 plain xs qs -> Forall2 plain xs' qs' -> Forall2 Qle qs qs' ->
    samples_below n (simplify (np_array (fmt Or) xs)) (simplify (np_array (fmt Or) xs')).
  Proof.
    intros N N' P P' L. exists qs, qs'.
    split; [split; [apply n_simplify; now rewrite np_array_length|rewrite elems_simplify; now apply np_array_plain]|].
    split; [split; [apply n_simplify; now rewrite np_array_length|rewrite elems_simplify; now apply np_array_plain]|exact L].
  Qed.
  Lemma one_by_one_length ws ds n s xs s' : one_by_one Or ws ds n s xs s' -> length xs = n.
  Proof. induction 1; cbn; auto. Qed.

  Lemma mixture_rises ws ds ds' n : right_length Or -> (1 <= n)%nat -> ready ws ds -> ready ws ds' ->
    Forall2 (never_above Or 1) ds ds' -> Forall2 (never_above Or n) ds ds' ->
    never_above Or n (ODist (DMixture ws ds None None)) (ODist (DMixture ws ds' None None)).
  Proof.
    intros RL Hn U U' F1 Fn s v v' s1 s2 E E'.
    assert (NN : nonneg ws) by (apply positive_nonneg, U).
    destruct F1 as [|o o' ds ds' A1 F1].
    { exfalso. destruct U as (L & _ & T & _). destruct ws; [|discriminate]. cbn in T. lra. }
    destruct F1 as [|p p' ds ds' A2 F1].
    { destruct U as (L & U). destruct ws as [|w [|w' ws]]; try discriminate. rewrite mixture_single in E by (auto; split; auto).
      rewrite mixture_single in E' by auto. inversion Fn as [|? ? ? ? A _]; subst.
      destruct (smp Or o n None None s) as [[a|e] t] eqn:Ea; [|discriminate]. destruct (smp Or o' n None None s) as [[a'|e] t'] eqn:Ea'; [|discriminate].
      inversion E; subst. inversion E'; subst. destruct (A _ _ _ _ _ Ea Ea') as ((q & q' & [Na Pa] & [Nb Pb] & L') & ->). split; auto.
      exists q, q'. split; [split; [now apply n_finish|now apply finish_plain]|]. split; [split; [now apply n_finish|now apply finish_plain]|auto]. }
    destruct (Nat.leb_spec n 100).
    - apply mixture_small in E as (xs & X & ->); auto; [|cbn; lia]. apply mixture_small in E' as (xs' & X' & ->); auto; [|cbn; lia].
      destruct (one_by_one_rise ws (o :: p :: ds) (o' :: p' :: ds') NN ltac:(constructor; [|constructor]; auto) _ _ _ _ X _ _ X') as (-> & qs & qs' & P & P' & L).
      split; auto. eapply drawn_below; eauto using one_by_one_length.
    - apply mixture_large in E as (cols & t & us & g & xs & C & D & -> & S & ->); auto; [|cbn; lia].
      apply mixture_large in E' as (cols' & t' & us' & g' & xs' & C' & D' & -> & S' & ->); auto; [|cbn; lia].
      destruct (columns_rise _ _ _ Fn _ _ _ C _ _ C') as [<- B]. rewrite D in D'. inversion D'; subst. split; auto.
      destruct (selected_rise ws us' cols cols' xs xs' NN B S S') as (qs & qs' & P & P' & L).
      assert (length us' = n) by (eapply RL; eauto).
      eapply drawn_below; eauto; [destruct S|destruct S']; congruence.
  Qed.
End Mix.
