(** [dist_ceil] and [dist_floor] (C123). *)
From Verif Require Import Base M_Weights P_Weights M_Pick M_Values M_Sampler M_Ops
  SpecSampler SpecOps P_Sampler P_Count P_Clip P_Ops.
From Coq Require Import Lqa Qround.
Open Scope Q_scope.

Section One.
  Variable Or : oracle.
  Lemma pure1_pointwise f d n s a s1 :
    (forall x z, f x = Ok z -> numeric z) ->
    (1 <= n)%nat -> smp Or d n None None s = (Ok a, s1) -> n_samples n a ->
    Forall (fun x => exists z, f x = Ok z) (elems a) ->
    exists v, smp Or (fold_fns d (OLit PNone) [pure1 (lift1 (fun _ => f))]) n None None s = (Ok v, s1) /\ n_samples n v /\
      Forall2 (fun x y => exists z, f x = Ok z /\ same_number z y) (elems a) (elems v).
  Proof.
    intros Nf Hn Ha Na F. unfold fold_fns. cbn [fold_left].
    rewrite (complex_run1 _ _ _ _ _ _ _ Hn Ha).
    assert (exists zs, mapM f (elems a) = Ok zs) as (zs & Z).
    { clear -F. induction F; simpl; eauto. destruct H as (z & ->), IHF as (zs & ->). simpl; eauto. }
    assert (Nz : Forall numeric zs /\ Forall2 (fun x z => f x = Ok z) (elems a) zs).
    { apply mapM_forall2 in Z. split; auto. clear -Z Nf. induction Z; constructor; eauto. }
    assert (exists v, lift1 (fun _ => f) a = Ok v /\ n_samples n v /\ elems v = zs) as (v & E0 & Nv & E).
    { apply n_cases in Na as [[-> (x & ->)]|[N (l & -> & L)]]; simpl in Z |- *.
      - destruct (f x) as [z|]; [|discriminate]. simpl in *. inversion Z. eexists; repeat split; eauto.
      - rewrite Z. simpl. eexists; repeat split; eauto. apply n_arr; auto. apply mapM_length in Z. congruence. }
    unfold pure1. cbn [fn_result apply_fn]. rewrite E0. cbn [bind].
    eexists; split; [reflexivity|]. split; [now apply n_finish|].
    destruct Nz as [N1 N2]. rewrite <- E in N1. apply (finish_same Or) in N1.
    rewrite E in N1. revert N2 N1. generalize (elems (finish_list Or v)) (elems a). clear.
    intros lv la H. revert lv. induction H; intros lv K; inversion K; subst; constructor; eauto.
  Qed.

  Lemma ceil_numeric x z : ceil_pv x = Ok z -> numeric z.
  Proof. destruct x as [|[]| | |]; simpl; intros H; inversion H; eexists; reflexivity. Qed.
  Lemma floor_numeric x z : floor_pv x = Ok z -> numeric z.
  Proof. destruct x as [|[]| | |]; simpl; intros H; inversion H; eexists; reflexivity. Qed.
  Lemma qceil_spec q : inject_Z (Qceiling q) - 1 < q /\ q <= inject_Z (Qceiling q).
  Proof.
    split; [|apply Qle_ceiling]. pose proof (Qceiling_lt q) as H. unfold Z.sub in H.
    rewrite inject_Z_plus in H. exact H.
  Qed.
  Lemma qfloor_spec q : inject_Z (Qfloor q) <= q /\ q < inject_Z (Qfloor q) + 1.
  Proof.
    split; [apply Qfloor_le|]. pose proof (Qlt_floor q) as H. rewrite inject_Z_plus in H. exact H.
  Qed.
  Lemma reads_same z y q : plain z q -> same_number z y -> reads y q.
  Proof.
    unfold plain, same_number, reads. destruct z as [z|[x| | |]| | |]; try contradiction; simpl; intros H;
      destruct (as_x y) as [[r| | |]|]; simpl; try contradiction; try discriminate; intros K; lra.
  Qed.
  Lemma ceil_run d n s a s1 : (1 <= n)%nat -> smp Or d n None None s = (Ok a, s1) -> n_samples n a ->
    Forall (fun x => exists q, plain x q) (elems a) ->
    exists v, smp Or (dist_ceil d) n None None s = (Ok v, s1) /\ n_samples n v /\ Forall2 rounded_up (elems a) (elems v).
  Proof.
    intros Hn Ha Na F.
    destruct (pure1_pointwise ceil_pv d n s a s1 ceil_numeric Hn Ha Na) as (v & E & Nv & P).
    { eapply Forall_impl; [|exact F]. intros x (q & Hq). destruct x as [|[]| | |]; simpl in *; try contradiction; eauto. }
    exists v. split; [exact E|]. split; auto. clear -F P. revert F.
    induction P as [|x y la lv (z & Hz & S) P IH]; intros F; constructor; inversion F; subst; auto.
    destruct H1 as (q & Hq). exists q. destruct x as [k|[x| | |]| | |]; simpl in Hz, Hq; try contradiction; inversion Hz; subst.
    - exists k. split; [exact Hq|]. split; [eapply reads_same; [|exact S]; simpl; reflexivity|]. lra.
    - exists (Qceiling x). split; [exact Hq|]. split; [eapply reads_same; [|exact S]; simpl; reflexivity|].
      pose proof (qceil_spec x). lra.
  Qed.
  Lemma floor_run d n s a s1 : (1 <= n)%nat -> smp Or d n None None s = (Ok a, s1) -> n_samples n a ->
    Forall (fun x => exists q, plain x q) (elems a) ->
    exists v, smp Or (dist_floor d) n None None s = (Ok v, s1) /\ n_samples n v /\ Forall2 rounded_down (elems a) (elems v).
  Proof.
    intros Hn Ha Na F.
    destruct (pure1_pointwise floor_pv d n s a s1 floor_numeric Hn Ha Na) as (v & E & Nv & P).
    { eapply Forall_impl; [|exact F]. intros x (q & Hq). destruct x as [|[]| | |]; simpl in *; try contradiction; eauto. }
    exists v. split; [exact E|]. split; auto. clear -F P. revert F.
    induction P as [|x y la lv (z & Hz & S) P IH]; intros F; constructor; inversion F; subst; auto.
    destruct H1 as (q & Hq). exists q. destruct x as [k|[x| | |]| | |]; simpl in Hz, Hq; try contradiction; inversion Hz; subst.
    - exists k. split; [exact Hq|]. split; [eapply reads_same; [|exact S]; simpl; reflexivity|]. lra.
    - exists (Qfloor x). split; [exact Hq|]. split; [eapply reads_same; [|exact S]; simpl; reflexivity|].
      pose proof (qfloor_spec x). lra.
  Qed.
  (** Texts and None cannot be rounded. *)
  Lemma ceil_floor_text d n s a s1 : (1 <= n)%nat -> smp Or d n None None s = (Ok a, s1) -> n_samples n a ->
    Forall (fun x => as_x x = None) (elems a) ->
    smp Or (dist_ceil d) n None None s = (Err TypeError, s1) /\ smp Or (dist_floor d) n None None s = (Err TypeError, s1).
  Proof.
    intros Hn Ha Na F.
    assert (C : forall x, as_x x = None -> ceil_pv x = Err TypeError /\ floor_pv x = Err TypeError)
      by (intros [|[]| | |]; simpl; intros; try discriminate; auto).
    unfold dist_ceil, dist_floor, fold_fns. cbn [fold_left].
    rewrite !(complex_run1 _ _ _ _ _ _ _ Hn Ha). unfold pure1. cbn [fn_result apply_fn].
    apply n_cases in Na as [[-> (x & ->)]|[N (l & -> & L)]]; simpl in F |- *.
    - inversion F; subst. destruct (C _ H1) as [-> ->]. auto.
    - destruct l as [|x l]; [simpl in L; lia|]. inversion F; subst. simpl. destruct (C _ H1) as [-> ->]. auto.
  Qed.
End One.
