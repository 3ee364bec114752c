(** Clipping in [sample] (properties C15 and C16). *)
From Verif Require Import Base M_Weights P_Weights M_Pick M_Values M_Sampler SpecSampler P_Sampler P_Count.
From Coq Require Import Lqa.
Open Scope Q_scope.

Arguments xlt : simpl never.
Lemma ok_inj {A} (a b : A) : Ok a = Ok b -> a = b.
Proof. congruence. Qed.

Definition numeric (v : pv) : Prop := exists x, as_x v = Some x.

Lemma xsame_refl x : xsame x x.
Proof. destruct x; simpl; auto; reflexivity. Qed.
Lemma xsame_trans x y z : xsame x y -> xsame y z -> xsame x z.
Proof. destruct x, y, z; simpl; try congruence. intros -> ->. reflexivity. Qed.
Lemma xsame_sym x y : xsame x y -> xsame y x.
Proof. destruct x, y; simpl; intros A; try congruence; now rewrite A. Qed.
Lemma same_refl v : same_number v v.
Proof. unfold same_number. destruct (as_x v); auto using xsame_refl. Qed.
Lemma same_trans a b c : same_number a b -> same_number b c -> same_number a c.
Proof.
  unfold same_number. destruct (as_x a), (as_x b), (as_x c); try tauto; try congruence.
  apply xsame_trans.
Qed.
Lemma same_sym a b : same_number a b -> same_number b a.
Proof.
  unfold same_number. destruct (as_x a), (as_x b); try tauto; try congruence. apply xsame_sym.
Qed.

Lemma to_flt_same v : same_number v (to_flt v).
Proof. destruct v; simpl; try apply same_refl; unfold same_number; simpl; reflexivity. Qed.
Lemma to_int_same v : same_number v (to_int v).
Proof. destruct v; simpl; try apply same_refl; unfold same_number; simpl; reflexivity. Qed.

Lemma forall2_map_same (f : pv -> pv) l : (forall v, same_number v (f v)) ->
  Forall2 same_number l (map f l).
Proof. intros H. induction l; simpl; constructor; auto. Qed.
Lemma forall2_same l : Forall2 same_number l l.
Proof. induction l; constructor; auto using same_refl. Qed.

Lemma np_array_same f l : Forall numeric l -> Forall2 same_number l (np_array f l).
Proof.
  intros H. unfold np_array.
  assert (existsb is_none l = false) as ->.
  { induction H; simpl; auto. destruct H as [? E]. destruct x; simpl in E; try discriminate; auto. }
  assert (existsb is_str l = false) as ->.
  { induction H; simpl; auto. destruct H as [? E]. destruct x; simpl in E; try discriminate; auto. }
  destruct (existsb is_flt l); [apply forall2_map_same, to_flt_same|].
  destruct (existsb is_int l); [apply forall2_map_same, to_int_same|].
  apply forall2_same.
Qed.

Lemma num_pv_x b : as_x (num_pv b) = Some (Fin (num_q b)).
Proof. destruct b; reflexivity. Qed.

Definition clamp_lo (b : num) (x : xnum) : xnum := if xlt x (Fin (num_q b)) then Fin (num_q b) else x.
Definition clamp_hi (b : num) (x : xnum) : xnum := if xlt (Fin (num_q b)) x then Fin (num_q b) else x.

(** One value after a clip step: numerically clamped. *)
Definition step (f : xnum -> xnum) (a b : pv) : Prop :=
  exists x y, as_x a = Some x /\ as_x b = Some y /\ xsame y (f x).

Lemma wider_same v b x : same_number x (wider v b x).
Proof. unfold wider. destruct v, b; auto using to_flt_same, to_int_same. Qed.

Lemma step_of_same f a b c : step f a b -> same_number b c -> step f a c.
Proof.
  intros (x & y & Hx & Hy & E) S. unfold same_number in S. rewrite Hy in S.
  destruct (as_x c) as [z|] eqn:Ez; [|contradiction].
  exists x, z. repeat split; auto. eapply xsame_trans; [apply xsame_sym; eassumption|assumption].
Qed.

Lemma np_max_step b v w : np_max b v = Ok w -> step (clamp_lo b) v w.
Proof.
  unfold np_max. destruct (as_x v) as [x|] eqn:E; [|discriminate]. intros H; apply ok_inj in H; subst w.
  eapply step_of_same; [|apply wider_same].
  exists x. unfold clamp_lo. destruct (xlt x _); eexists; rewrite ?num_pv_x; repeat split; eauto using xsame_refl.
Qed.
Lemma np_min_step b v w : np_min b v = Ok w -> step (clamp_hi b) v w.
Proof.
  unfold np_min. destruct (as_x v) as [x|] eqn:E; [|discriminate]. intros H; apply ok_inj in H; subst w.
  eapply step_of_same; [|apply wider_same].
  exists x. unfold clamp_hi. destruct (xlt _ x); eexists; rewrite ?num_pv_x; repeat split; eauto using xsame_refl.
Qed.
Lemma sc_max_step b v w : sc_max b v = Ok w -> step (clamp_lo b) v w.
Proof.
  unfold sc_max. destruct (as_x v) as [x|] eqn:E; [|discriminate]. intros H; apply ok_inj in H; subst w.
  exists x. unfold clamp_lo. destruct (xlt x _); eexists; rewrite ?num_pv_x; repeat split; eauto using xsame_refl.
Qed.
Lemma sc_min_step b v w : sc_min b v = Ok w -> step (clamp_hi b) v w.
Proof.
  unfold sc_min. destruct (as_x v) as [x|] eqn:E; [|discriminate]. intros H; apply ok_inj in H; subst w.
  exists x. unfold clamp_hi. destruct (xlt _ x); eexists; rewrite ?num_pv_x; repeat split; eauto using xsame_refl.
Qed.

Lemma mapM_step {B} (f : pv -> res B) (R : pv -> B -> Prop) l r :
  (forall v w, f v = Ok w -> R v w) -> mapM f l = Ok r -> Forall2 R l r.
Proof. intros H E. apply mapM_forall2 in E. induction E; constructor; auto. Qed.

Lemma lclip_steps b v w : apply_lclip (Some b) v = Ok w -> Forall2 (step (clamp_lo b)) (elems v) (elems w).
Proof.
  destruct v as [x|l]; simpl; intros H.
  - apply bind_ok in H as (y & Hy & E). inversion E; subst. constructor; [|constructor]. now apply sc_max_step.
  - assert (K : (exists ys, mapM (np_max b) l = Ok ys /\ w = Arr ys) \/ exists x, l = [x]).
    { destruct l as [|x [|y l]]; [|eauto|];
        apply bind_ok in H as (ys & Hys & E); inversion E; eauto. }
    destruct K as [(ys & Hy & ->)|(x & ->)].
    + simpl. eapply mapM_step; [|eassumption]. apply np_max_step.
    + apply bind_ok in H as (y & Hy & E). pose proof (sc_max_step _ _ _ Hy) as S.
      destruct (as_x x) as [x'|] eqn:Ex; [|discriminate].
      destruct (xlt x' (Fin (num_q b))) eqn:C; inversion E; subst; (constructor; [|constructor]); auto.
      exists x', x'. repeat split; auto. unfold clamp_lo. rewrite C. apply xsame_refl.
Qed.
Lemma rclip_steps b v w : apply_rclip (Some b) v = Ok w -> Forall2 (step (clamp_hi b)) (elems v) (elems w).
Proof.
  destruct v as [x|l]; simpl; intros H.
  - apply bind_ok in H as (y & Hy & E). inversion E; subst. constructor; [|constructor]. now apply sc_min_step.
  - assert (K : (exists ys, mapM (np_min b) l = Ok ys /\ w = Arr ys) \/ exists x, l = [x]).
    { destruct l as [|x [|y l]]; [|eauto|];
        apply bind_ok in H as (ys & Hys & E); inversion E; eauto. }
    destruct K as [(ys & Hy & ->)|(x & ->)].
    + simpl. eapply mapM_step; [|eassumption]. apply np_min_step.
    + apply bind_ok in H as (y & Hy & E). pose proof (sc_min_step _ _ _ Hy) as S.
      destruct (as_x x) as [x'|] eqn:Ex; [|discriminate].
      destruct (xlt (Fin (num_q b)) x') eqn:C; inversion E; subst; (constructor; [|constructor]); auto.
      exists x', x'. repeat split; auto. unfold clamp_hi. rewrite C. apply xsame_refl.
Qed.

Lemma Qlt_bool_comp a b c d : a == b -> c == d -> Qlt_bool a c = Qlt_bool b d.
Proof.
  intros E1 E2. destruct (Qlt_bool a c) eqn:A, (Qlt_bool b d) eqn:B; auto.
  - apply Qlt_bool_iff in A. apply Qlt_bool_false in B. lra.
  - apply Qlt_bool_iff in B. apply Qlt_bool_false in A. lra.
Qed.
Lemma xlt_same a b c d : xsame a b -> xsame c d -> xlt a c = xlt b d.
Proof.
  destruct a, b, c, d; simpl; try congruence; auto; try discriminate.
  apply Qlt_bool_comp.
Qed.
Lemma clamp_hi_same b x y : xsame x y -> xsame (clamp_hi b x) (clamp_hi b y).
Proof.
  intros H. unfold clamp_hi. rewrite (xlt_same (Fin (num_q b)) (Fin (num_q b)) x y); auto using xsame_refl.
  destruct (xlt _ y); auto using xsame_refl.
Qed.

Lemma forall2_numeric f l m : Forall2 (step f) l m -> Forall numeric l /\ Forall numeric m.
Proof. induction 1; split; constructor; try tauto; destruct H as (x' & y' & ? & ? & _); eexists; eauto. Qed.

(** The whole clip stage followed by the final coercion, against no clips. *)
Lemma clips_spec Or lc rc u w :
  apply_clips lc rc u = Ok w -> (lc <> None \/ rc <> None) ->
  Forall2 (clamped (q_of lc) (q_of rc)) (elems (finish_list Or u)) (elems (finish_list Or w)).
Proof.
  intros H N. unfold apply_clips in H. apply bind_ok in H as (m & H1 & H2).
  set (f := fun x => match rc with Some b => clamp_hi b (match lc with Some a => clamp_lo a x | None => x end)
                     | None => match lc with Some a => clamp_lo a x | None => x end end).
  assert (S : Forall2 (step f) (elems u) (elems w)).
  { destruct lc as [a|], rc as [b|].
    - apply lclip_steps in H1. apply rclip_steps in H2. revert H1 H2. generalize (elems u) (elems m) (elems w).
      intros lu lm lw A. revert lw. induction A; intros lw B; inversion B; subst; constructor; auto.
      destruct H as (x1 & y1 & X1 & Y1 & E1), H2 as (x2 & y2 & X2 & Y2 & E2).
      rewrite Y1 in X2. inversion X2; subst.
      exists x1, y2. repeat split; auto. unfold f. eapply xsame_trans; [exact E2|]. now apply clamp_hi_same.
    - inversion H2; subst. now apply lclip_steps in H1.
    - inversion H1; subst. now apply rclip_steps in H2.
    - destruct N; congruence. }
  assert (FS : forall v, Forall numeric (elems v) -> Forall2 same_number (elems v) (elems (finish_list Or v))).
  { intros [x|l] Hn; simpl in *; [apply forall2_same|now apply np_array_same]. }
  destruct (forall2_numeric _ _ _ S) as [Nu Nw]. apply FS in Nu. apply FS in Nw. clear FS H1 H2.
  revert S Nu Nw. generalize (elems u) (elems w) (elems (finish_list Or u)) (elems (finish_list Or w)).
  intros lu lw lu' lw' S. revert lu' lw'. induction S; intros lu' lw' Nu Nw; inversion Nu; inversion Nw; subst; constructor; auto.
  destruct H as (x1 & y1' & X1 & Y1 & E1).
  unfold same_number in H2, H7. rewrite X1 in H2. rewrite Y1 in H7.
  unfold clamped.
  destruct (as_x y0) as [x2|] eqn:X2; [|contradiction].
  destruct (as_x y1) as [y3|] eqn:Y3; [|contradiction].
  assert (K : xsame y3 (clamp (q_of lc) (q_of rc) x2)).
  { eapply xsame_trans; [apply xsame_sym; eassumption|]. eapply xsame_trans; [exact E1|].
    unfold f, clamp, q_of, option_map. destruct lc as [a|], rc as [b|].
    - unfold clamp_lo. rewrite (xlt_same x1 x2 (Fin (num_q a)) (Fin (num_q a))); auto using xsame_refl.
      destruct (xlt x2 (Fin (num_q a))); [apply clamp_hi_same, xsame_refl|].
      now apply clamp_hi_same.
    - unfold clamp_lo. rewrite (xlt_same x1 x2 (Fin (num_q a)) (Fin (num_q a))); auto using xsame_refl.
      destruct (xlt x2 _); auto using xsame_refl.
    - now apply clamp_hi_same.
    - auto. }
  destruct lc, rc; simpl in *; auto. destruct N; congruence.
Qed.

Lemma merge_l_tight a b : q_of (merge_l a b) = tight_lower (q_of a) (q_of b).
Proof. destruct a, b; simpl; auto. destruct (Qlt_bool _ _); reflexivity. Qed.
Lemma merge_r_tight a b : q_of (merge_r a b) = tight_upper (q_of a) (q_of b).
Proof. destruct a, b; simpl; auto. destruct (Qlt_bool _ _); reflexivity. Qed.

Lemma wrap_clips Or own body n lc rc s v s' :
  wrap Or own body n lc rc s = (Ok v, s') ->
  exists u, wrap Or (None, None) body n None None s = (Ok u, s') /\
    Forall2 (clamped (tight_lower (q_of lc) (q_of (fst own))) (tight_upper (q_of rc) (q_of (snd own))))
            (elems u) (elems v).
Proof.
  unfold wrap. destruct n as [|n]; [discriminate|]. intros H.
  apply bindS_ok in H as (u & s1 & Hu & H). inv_ok H.
  exists (finish_list Or u). split.
  - rewrite (bindS_run _ _ _ _ _ Hu). reflexivity.
  - rewrite <- merge_l_tight, <- merge_r_tight.
    destruct (merge_l lc (fst own)) as [l|] eqn:El.
    + eapply clips_spec; eauto. left; discriminate.
    + destruct (merge_r rc (snd own)) as [r|] eqn:Er.
      * eapply clips_spec; eauto. right; discriminate.
      * simpl in Ha. inversion Ha; subst. unfold clamped. simpl.
        generalize (elems (finish_list Or a)). induction l; constructor; auto.
Qed.

Lemma clip_relation Or o n lc rc s v s' :
  uncorrelated_top o -> smp Or o n lc rc s = (Ok v, s') ->
  exists u, smp Or (unclipped o) n None None s = (Ok u, s') /\
    Forall2 (clamped (tight_lower (q_of lc) (q_of (own_lower o))) (tight_upper (q_of rc) (q_of (own_upper o))))
            (elems u) (elems v).
Proof.
  intros U H. destruct o as [x|f|d|].
  - rewrite smp_lit in H. apply wrap_clips in H as (u & H & E). exists u. split; [exact H|exact E].
  - rewrite smp_call in H. apply wrap_clips in H as (u & H & E). exists u. split; [|exact E].
    cbn [unclipped]. rewrite smp_call. exact H.
  - rewrite smp_odist in H. destruct d as [k l r|ws ds l r|l r f|g i ms].
    + rewrite smp_leaf in H. apply wrap_clips in H as (u & H & E). exists u. split; [exact H|exact E].
    + rewrite smp_mix in H. apply wrap_clips in H as (u & H & E). exists u. split; [exact H|exact E].
    + rewrite smp_complex in H. apply wrap_clips in H as (u & H & E). exists u. split; [|exact E].
      cbn [unclipped]. rewrite smp_odist, smp_complex. exact H.
    + destruct U.
  - rewrite smp_other in H. apply wrap_clips in H as (u & H & E). exists u. split; [exact H|exact E].
Qed.


Lemma clamp_within lo hi x :
  match lo, hi with Some l, Some h => l <= h | _, _ => True end -> within lo hi (clamp lo hi x).
Proof.
  unfold clamp, within.
  destruct lo as [l|], hi as [h|]; intros LH; split; auto.
  - destruct (xlt x (Fin l)) eqn:A.
    + destruct (xlt (Fin h) (Fin l)) eqn:B; simpl in *; apply Qlt_bool_false; auto. lra.
    + destruct (xlt (Fin h) x) eqn:B; auto. simpl. now apply Qlt_bool_false.
  - destruct (xlt x (Fin l)) eqn:A.
    + destruct (xlt (Fin h) (Fin l)) eqn:B; auto. simpl. apply Qlt_bool_false. lra.
    + destruct (xlt (Fin h) x) eqn:B; auto. simpl. apply Qlt_bool_false. lra.
  - destruct (xlt x (Fin l)) eqn:A; auto. simpl. apply Qlt_bool_false. lra.
  - destruct (xlt (Fin h) x) eqn:A; auto. simpl. apply Qlt_bool_false. lra.
Qed.
Lemma clamp_inside lo hi x : within lo hi x -> clamp lo hi x = x.
Proof. unfold within, clamp. destruct lo, hi; intros [A B]; rewrite ?A, ?B; auto. Qed.
Lemma clamp_crossed l h x : h < l -> x <> NaN -> clamp (Some l) (Some h) x = Fin h.
Proof.
  intros LH N. unfold clamp. destruct (xlt x (Fin l)) eqn:A.
  - change (xlt (Fin h) (Fin l)) with (Qlt_bool h l). apply Qlt_bool_iff in LH. now rewrite LH.
  - assert (xlt (Fin h) x = true) as ->; auto.
    destruct x; try congruence; try discriminate; auto.
    change (Qlt_bool q l = false) in A. change (Qlt_bool h q = true).
    apply Qlt_bool_false in A. apply Qlt_bool_iff. lra.
Qed.
