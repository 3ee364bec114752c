From Coq Require Import Lia ZArith Lqa.
From Verif Require Import Base M_Values SpecCast SpecOps P_Sampler2 P_ClipTop.
Open Scope Q_scope.

Lemma truthy_false x : truthy x = false <-> false_like x.
Proof.
  unfold false_like. split.
  - destruct x as [z|x|b|t|]; simpl; intros H; try rewrite Bool.negb_false_iff in H; auto.
    + apply Z.eqb_eq in H. subst. auto.
    + destruct x as [q| | |]; simpl in H; try discriminate. apply Qeq_bool_iff in H. right; right; right; right. eauto.
    + subst. auto.
    + apply String.eqb_eq in H. subst. auto 6.
  - intros [->|[->|[->|[->|(q & -> & E)]]]]; try reflexivity. simpl. rewrite Bool.negb_false_iff. now apply Qeq_bool_iff.
Qed.
Lemma as_bool_cast b x : exists y, cast_like (PBool b) x = Ok y /\ as_bool x y.
Proof.
  exists (PBool (truthy x)). split; [destruct x; reflexivity|]. unfold as_bool. destruct (truthy x) eqn:E.
  - left. split; auto. rewrite <- truthy_false. congruence.
  - right. split; auto. now apply truthy_false.
Qed.
Lemma cut_trunc q : cut q (qtrunc q).
Proof.
  rewrite qtrunc_towards_zero. unfold towards_zero, cut. destruct (Qle_bool 0 q) eqn:E.
  - apply Qle_bool_iff in E. left. split; auto. split; [apply Qfloor_le|].
    pose proof (Qlt_floor q) as H. rewrite inject_Z_plus in H. exact H.
  - right. assert (~ 0 <= q) as N by (rewrite <- Qle_bool_iff; congruence). apply Qnot_le_lt in N. split; auto.
    split; [apply Qle_ceiling|]. pose proof (Qceiling_lt q) as H. unfold Z.sub in H. rewrite inject_Z_plus, inject_Z_opp in H. change (inject_Z 1) with 1 in H. lra.
Qed.
Lemma int_cast z x y : cast_like (PInt z) x = Ok y -> as_integer x y.
Proof.
  destruct x as [n|[q| | |]|[]|s|]; simpl; intros H; try discriminate; injection H as <-; constructor. apply cut_trunc.
Qed.
Lemma float_cast f x y : cast_like (PFlt f) x = Ok y -> as_float x y.
Proof. destruct x as [n|t|[]|s|]; simpl; intros H; try discriminate; injection H as <-; constructor. Qed.
Lemma mapM_bool b l : exists ys, mapM (cast_like (PBool b)) l = Ok ys /\ Forall2 as_bool l ys.
Proof.
  induction l as [|x l (ys & E & F)]; [exists []; split; [reflexivity|constructor]|].
  destruct (as_bool_cast b x) as (y & Ey & Ay). exists (y :: ys). cbn [mapM]. rewrite Ey, E. split; [reflexivity|]. now constructor.
Qed.
Lemma mapM_rel {A B} (f : A -> res B) (R : A -> B -> Prop) (H : forall x y, f x = Ok y -> R x y) l : forall ys, mapM f l = Ok ys -> Forall2 R l ys.
Proof.
  induction l as [|x l IH]; simpl; intros ys E; [injection E as <-; constructor|].
  destruct (f x) eqn:Ex; [|discriminate]. simpl in E. destruct (mapM f l); [|discriminate]. injection E as <-. constructor; auto.
Qed.
Lemma bool_first b l : exists ys, vec_cast (PBool b :: l) = Ok ys /\ Forall2 as_bool (PBool b :: l) ys.
Proof. exact (mapM_bool b (PBool b :: l)). Qed.
Lemma int_first z l ys : vec_cast (PInt z :: l) = Ok ys -> Forall2 as_integer (PInt z :: l) ys.
Proof. apply mapM_rel, int_cast. Qed.
Lemma float_first f l ys : vec_cast (PFlt f :: l) = Ok ys -> Forall2 as_float (PFlt f :: l) ys.
Proof. apply mapM_rel, float_cast. Qed.
Lemma mapM_app_err {A B} (f : A -> res B) l1 x l2 e : (forall a, In a l1 -> exists b, f a = Ok b) -> f x = Err e -> mapM f (l1 ++ x :: l2) = Err e.
Proof.
  intros H E. induction l1 as [|a l1 IH]; simpl; [now rewrite E|].
  destruct (H a (or_introl eq_refl)) as (b & ->). simpl. rewrite IH; [reflexivity|]. intros; apply H; now right.
Qed.
Lemma int_ok z x y : as_integer x y -> exists y', cast_like (PInt z) x = Ok y'.
Proof. destruct 1; simpl; eauto. Qed.
Lemma int_first_err z l1 x l2 e : Forall (fun a => exists b, as_integer a b) l1 -> no_integer x e ->
  vec_cast (PInt z :: l1 ++ x :: l2) = Err e.
Proof.
  intros F N. apply (mapM_app_err (cast_like (PInt z)) (PInt z :: l1)).
  - intros a [<-|I]; [simpl; eauto|]. rewrite Forall_forall in F. destruct (F a I) as (b & B). eapply int_ok; eauto.
  - destruct N; reflexivity.
Qed.
Lemma int_first_ok z l : Forall (fun a => exists b, as_integer a b) l -> exists ys, vec_cast (PInt z :: l) = Ok ys.
Proof.
  intros F. unfold vec_cast. cbn [mapM cast_like bind]. assert (exists ys, mapM (cast_like (PInt z)) l = Ok ys) as (ys & ->); [|cbn; eauto].
  induction F as [|x l (b & B) F (ys & IH)]; cbn [mapM]; [eauto|]. destruct (int_ok z x b B) as (y' & ->). rewrite IH. cbn. eauto.
Qed.
Lemma float_first_ok f l : Forall (fun a => exists b, as_float a b) l -> exists ys, vec_cast (PFlt f :: l) = Ok ys.
Proof.
  intros F. unfold vec_cast. cbn [mapM cast_like bind]. assert (exists ys, mapM (cast_like (PFlt f)) l = Ok ys) as (ys & ->); [|cbn; eauto].
  induction F as [|x l (b & B) F (ys & IH)]; cbn [mapM]; [eauto|]. assert (exists y', cast_like (PFlt f) x = Ok y') as (y' & ->) by (destruct B; simpl; eauto). rewrite IH. cbn. eauto.
Qed.
