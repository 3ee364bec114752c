(** Clip functions, supports, purity, model functions, events, zero inflation
    (C12, C21-C25). *)
From Verif Require Import Base M_Weights SpecWeights P_Weights P_Weights2 M_Pick M_Values M_Sampler M_Ops
  SpecSampler SpecSampler2 SpecOps P_Sampler P_Count P_Clip P_Ops.
From Coq Require Import Lqa.
Open Scope Q_scope.

(* ------------------------------------------------------------------ *)
(** * C21 *)
Definition clamp_num (lo hi : num) (v : pv) : pv :=
  let w := match as_x v with Some x => if xlt x (Fin (num_q lo)) then num_pv lo else v | None => v end in
  match as_x w with Some x => if xlt (Fin (num_q hi)) x then num_pv hi else w | None => w end.
Definition lo_num (lo : num) (v : pv) : pv :=
  match as_x v with Some x => if xlt x (Fin (num_q lo)) then num_pv lo else v | None => v end.
Definition hi_num (hi : num) (v : pv) : pv :=
  match as_x v with Some x => if xlt (Fin (num_q hi)) x then num_pv hi else v | None => v end.

Lemma clamp_num_eq lo hi v : clamp_num lo hi v = hi_num hi (lo_num lo v).
Proof. reflexivity. Qed.

Lemma lclip_fn_num lo v : numeric v -> lclip_fn v (num_pv lo) = Ok (lo_num lo v).
Proof.
  intros (x & E). unfold lclip_fn, lo_num, py_lt. rewrite E, num_pv_x.
  destruct lo; simpl num_pv; cbn [bind]; destruct (xlt x _); reflexivity.
Qed.
Lemma rclip_fn_num hi v : numeric v -> rclip_fn v (num_pv hi) = Ok (hi_num hi v).
Proof.
  intros (x & E). unfold rclip_fn, hi_num, py_lt. rewrite E, num_pv_x.
  destruct hi; simpl num_pv; cbn [bind]; destruct (xlt _ x); reflexivity.
Qed.

(** All elements of one dtype. *)
Definition uniform_kind (l : list pv) : Prop := floats l \/ integers l.
Lemma uniform_numeric l : uniform_kind l -> Forall numeric l.
Proof.
  intros [H|H]; (eapply Forall_impl; [|exact H]); intros a (x & ->); eexists; reflexivity.
Qed.
Lemma vec_cast_uniform l : l <> [] -> uniform_kind l -> vec_cast l = Ok l.
Proof.
  intros N U. destruct l as [|x l]; [congruence|]. unfold vec_cast.
  apply mapM_of_forall2. 
  assert (forall y, In y (x :: l) -> cast_like x y = Ok y) as H.
  { destruct U as [U|U]; unfold floats, integers in U; rewrite Forall_forall in U; intros y Hy;
      destruct (U y Hy) as (q & ->); destruct (U x (or_introl eq_refl)) as (p & ->); reflexivity. }
  revert H. generalize (x :: l). induction l0; intros H; constructor.
  - apply H. now left.
  - apply IHl0. intros y Hy. apply H. now right.
Qed.
Lemma np_array_uniform f l : uniform_kind l -> np_array f l = l.
Proof.
  intros U. unfold np_array.
  assert (existsb is_none l = false) as ->.
  { apply not_true_is_false. intros C. apply existsb_exists in C as (y & Hy & E).
    destruct U as [U|U]; unfold floats, integers in U; rewrite Forall_forall in U; destruct (U y Hy) as (q & ->); discriminate. }
  assert (existsb is_str l = false) as ->.
  { apply not_true_is_false. intros C. apply existsb_exists in C as (y & Hy & E).
    destruct U as [U|U]; unfold floats, integers in U; rewrite Forall_forall in U; destruct (U y Hy) as (q & ->); discriminate. }
  destruct U as [U|U].
  - assert (map to_flt l = l) as E.
    { induction U; simpl; auto. destruct H as (q & ->). simpl. congruence. }
    rewrite E. destruct (existsb is_flt l) eqn:F; auto. 
    destruct l as [|x l]; auto. inversion U; subst. destruct H1 as (q & ->). discriminate F.
  - assert (existsb is_flt l = false) as ->.
    { apply not_true_is_false. intros C. apply existsb_exists in C as (y & Hy & E).
      unfold integers in U; rewrite Forall_forall in U; destruct (U y Hy) as (q & ->); discriminate. }
    assert (map to_int l = l) as E.
    { induction U; simpl; auto. destruct H as (q & ->). simpl. congruence. }
    rewrite E. destruct (existsb is_int l); auto.
Qed.
Lemma floats_map_lo lo l : floats l -> (exists a, lo = NF a) -> floats (map (lo_num lo) l).
Proof.
  intros H (a & ->). induction H; simpl; constructor; auto. destruct H as (q & ->).
  unfold lo_num; simpl. destruct (xlt q (Fin a)); eauto.
Qed.
Lemma floats_map_hi hi l : floats l -> (exists a, hi = NF a) -> floats (map (hi_num hi) l).
Proof.
  intros H (a & ->). induction H; simpl; constructor; auto. destruct H as (q & ->).
  unfold hi_num; simpl. destruct (xlt (Fin a) q); eauto.
Qed.
Lemma ints_map_lo lo l : integers l -> (exists a, lo = NI a) -> integers (map (lo_num lo) l).
Proof.
  intros H (a & ->). induction H; simpl; constructor; auto. destruct H as (q & ->).
  unfold lo_num; simpl. destruct (xlt _ _); eauto.
Qed.
Lemma ints_map_hi hi l : integers l -> (exists a, hi = NI a) -> integers (map (hi_num hi) l).
Proof.
  intros H (a & ->). induction H; simpl; constructor; auto. destruct H as (q & ->).
  unfold hi_num; simpl. destruct (xlt _ _); eauto.
Qed.

Section ClipFn.
  Variable Or : oracle.
  Notation St := (state (G Or)).

  (** One vectorised clip of n samples by a number. *)
  Lemma vectorize2_copies f h n a b :
    (1 <= n)%nat -> n_samples n a ->
    (forall x, In x (elems a) -> f x b = Ok (h x)) ->
    (n = 1%nat \/ uniform_kind (map h (elems a))) ->
    vectorize2 f a (copies b n) = Ok (simplify (map h (elems a))).
  Proof.
    intros Hn Na Hf U. unfold vectorize2.
    pose proof (lift2_run (fun _ => f) n a (copies b n) Na (copies_n b n)) as L.
    rewrite copies_elems in L.
    assert (Z : zipM f (elems a) (repeat b n) = Ok (map h (elems a))).
    { apply n_elems in Na. rewrite <- Na. revert Hf. clear. induction (elems a); simpl; intros Hf; auto.
      rewrite (Hf a0) by now left. simpl. rewrite IHl by (intros; apply Hf; now right). reflexivity. }
    cbv beta in L. rewrite Z in L. destruct L as (v & -> & Nv & E). cbn [bind].
    apply n_cases in Nv as [[-> (x & ->)]|[N (l & -> & L)]].
    - simpl in E. rewrite <- E. reflexivity.
    - simpl in E. subst l. destruct U as [->|U]; [congruence|].
      rewrite vec_cast_uniform; auto.
      + cbn [bind]. f_equal. destruct (map h (elems a)) as [|x [|y l]]; try reflexivity. simpl in L; congruence.
      + intros C. rewrite C in L. simpl in L. lia.
  Qed.

  Lemma finish_simplify l : (length l = 1%nat \/ uniform_kind l) -> finish_list Or (simplify l) = simplify l.
  Proof.
    intros H. destruct l as [|x [|y l]]; try reflexivity. destruct H as [H|H]; [simpl in H; congruence|].
    simpl. f_equal. now apply np_array_uniform.
  Qed.

  Lemma clip_samples d lo hi n s a s1 :
    (1 <= n)%nat -> smp Or d n None None s = (Ok a, s1) -> n_samples n a ->
    Forall numeric (elems a) -> (n = 1%nat \/ one_kind (elems a) lo hi) ->
    smp Or (clip_d d (Some lo) (Some hi)) n None None s =
      (Ok (simplify (map (clamp_num lo hi) (elems a))), s1).
  Proof.
    intros Hn Ha Na Nu K. unfold clip_d.
    assert (L : smp Or (lclip_d d (Some lo)) n None None s = (Ok (simplify (map (lo_num lo) (elems a))), s1)).
    { unfold lclip_d. erewrite complex_run; [|exact Hn|destruct lo; discriminate|exact Ha|apply sample_lit; exact Hn].
      - cbn [fn_result apply_fn]. rewrite (vectorize2_copies _ (lo_num lo)); auto.
        + rewrite finish_simplify; auto. rewrite map_length. destruct K as [->|K]; [left; now apply n_elems|].
          right. destruct K as [(A & B & C)|(A & B & C)]; [left; now apply floats_map_lo|right; now apply ints_map_lo].
        + intros x Hx. apply lclip_fn_num. rewrite Forall_forall in Nu. auto.
        + destruct K as [->|K]; auto. right.
          destruct K as [(A & B & C)|(A & B & C)]; [left; now apply floats_map_lo|right; now apply ints_map_lo]. }
    set (l1 := map (lo_num lo) (elems a)) in *.
    assert (Len : length l1 = n) by (unfold l1; rewrite map_length; now apply n_elems).
    assert (E1 : elems (simplify l1) = l1) by (destruct l1 as [|x [|y l]]; reflexivity).
    assert (N1 : Forall numeric l1).
    { unfold l1. clear -Nu. induction Nu; simpl; constructor; auto. unfold lo_num. destruct H as (q & E).
      rewrite E. destruct (xlt _ _); [|eexists; eauto]. destruct lo; eexists; reflexivity. }
    unfold rclip_d. erewrite complex_run; [|exact Hn|destruct hi; discriminate|exact L|apply sample_lit; exact Hn].
    - cbn [fn_result apply_fn]. rewrite (vectorize2_copies _ (hi_num hi)); auto; rewrite ?E1; auto.
      + replace (map (hi_num hi) l1) with (map (clamp_num lo hi) (elems a)).
        * rewrite finish_simplify; auto. rewrite map_length. destruct K as [->|K]; [left; now apply n_elems|].
          right. erewrite map_ext by (intros; apply clamp_num_eq). rewrite <- map_map.
          destruct K as [(A & B & C)|(A & B & C)];
            [left; apply floats_map_hi; auto; now apply floats_map_lo|right; apply ints_map_hi; auto; now apply ints_map_lo].
        * unfold l1. rewrite map_map. apply map_ext. intros; apply clamp_num_eq.
      + apply n_simplify; auto.
      + intros x Hx. apply rclip_fn_num. rewrite Forall_forall in N1. auto.
      + destruct K as [->|K]; auto. right.
        destruct K as [(A & B & C)|(A & B & C)];
          [left; apply floats_map_hi; auto; now apply floats_map_lo|right; apply ints_map_hi; auto; now apply ints_map_lo].
  Qed.

  Lemma clamp_num_clamp lo hi v x : as_x v = Some x ->
    exists y, as_x (clamp_num lo hi v) = Some y /\ y = clamp (Some (num_q lo)) (Some (num_q hi)) x.
  Proof.
    intros E. unfold clamp_num, clamp. rewrite E.
    destruct (xlt x (Fin (num_q lo))).
    - rewrite num_pv_x. destruct (xlt (Fin (num_q hi)) (Fin (num_q lo))); rewrite num_pv_x; eauto.
    - rewrite E. destruct (xlt (Fin (num_q hi)) x); [rewrite num_pv_x|rewrite E]; eauto.
  Qed.
  Lemma clamp_num_idem lo hi v : clamp_num lo hi (clamp_num lo hi v) = clamp_num lo hi v.
  Proof.
    destruct (as_x v) as [x|] eqn:E.
    - unfold clamp_num at 2 3. rewrite E.
      destruct (xlt x (Fin (num_q lo))) eqn:A.
      + rewrite num_pv_x. destruct (xlt (Fin (num_q hi)) (Fin (num_q lo))) eqn:B.
        * unfold clamp_num. rewrite num_pv_x. change (Qlt_bool (num_q hi) (num_q lo) = true) in B.
          change (xlt (Fin (num_q hi)) (Fin (num_q lo))) with (Qlt_bool (num_q hi) (num_q lo)). rewrite B.
          rewrite num_pv_x. change (xlt (Fin (num_q hi)) (Fin (num_q lo))) with (Qlt_bool (num_q hi) (num_q lo)). rewrite B. reflexivity.
        * unfold clamp_num. rewrite num_pv_x.
          destruct (xlt (Fin (num_q lo)) (Fin (num_q lo))) eqn:D; rewrite num_pv_x, B; reflexivity.
      + rewrite E. destruct (xlt (Fin (num_q hi)) x) eqn:B.
        * unfold clamp_num. rewrite num_pv_x.
          destruct (xlt (Fin (num_q hi)) (Fin (num_q lo))) eqn:C.
          -- rewrite num_pv_x, C. reflexivity.
          -- rewrite num_pv_x. destruct (xlt (Fin (num_q hi)) (Fin (num_q hi))); reflexivity.
        * unfold clamp_num. rewrite E, A, E, B. reflexivity.
    - unfold clamp_num. rewrite !E. reflexivity.
  Qed.

  (** No bounds: unchanged. *)
  Lemma clip_none d n s a s1 :
    (1 <= n)%nat -> smp Or d n None None s = (Ok a, s1) -> n_samples n a ->
    (n = 1%nat \/ uniform_kind (elems a)) ->
    smp Or (clip_d d None None) n None None s = (Ok a, s1).
  Proof.
    intros Hn Ha Na K.
    assert (V : vectorize1 (fun x => Ok x) a = Ok a /\ finish_list Or a = a).
    { apply n_cases in Na as [[-> (x & ->)]|[N (l & -> & L)]]; [split; reflexivity|].
      destruct K as [->|K]; [congruence|]. simpl in K. split.
      - simpl. assert (forall l : list pv, mapM (fun x => Ok x) l = Ok l) as ->.
        { clear. induction l; simpl; auto. now rewrite IHl. }
        simpl. rewrite vec_cast_uniform; auto. intros ->. simpl in L; lia.
      - simpl. now rewrite np_array_uniform. }
    destruct V as [V1 V2].
    assert (L : smp Or (lclip_d d None) n None None s = (Ok a, s1)).
    { unfold lclip_d. cbn [bound_obj]. rewrite (complex_run1 _ _ _ _ _ _ _ Hn Ha). cbn [fn_result apply_fn].
      rewrite V1. now rewrite V2. }
    unfold clip_d, rclip_d. cbn [bound_obj]. rewrite (complex_run1 _ _ _ _ _ _ _ Hn L). cbn [fn_result apply_fn].
    rewrite V1. now rewrite V2.
  Qed.
End ClipFn.
