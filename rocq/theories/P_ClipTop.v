(** Lemmas about [lclip], [rclip], [clip] on numbers and arrays, and about the type of
    clipped samples. *)
From Verif Require Import Base M_Weights SpecWeights M_Values M_Sampler M_Ops M_ClipTop
  SpecSampler SpecSampler2 SpecOps P_Weights P_Sampler P_Count P_Clip P_Ops P_Sampler2.
From Coq Require Import Lqa.
Open Scope Q_scope.

Lemma mapM_map {A B} (f : A -> res B) (h : A -> B) l : (forall x, In x l -> f x = Ok (h x)) -> mapM f l = Ok (map h l).
Proof.
  induction l as [|x l IH]; intros H; [reflexivity|]. cbn [mapM map]. rewrite H by now left. cbn [bind].
  rewrite IH by (intros; apply H; now right). reflexivity.
Qed.

Lemma max_min_only_numbers a b : as_x a = None \/ as_x b = None -> max_pv a b = Err TypeError /\ min_pv a b = Err TypeError.
Proof. unfold max_pv, min_pv. intros [-> | ->]; [auto|]. destruct (as_x a) as [[]|]; auto. Qed.

(* ------------------------------------------------------------------ numbers and arrays *)
Section Top.
  Context {T : Type}.
  Lemma clip_number (x l r : num) : exists v, clip (T := T) (CNumber x) (Some l) (Some r) = Ok (CZeroDim v) /\
    as_x v = Some (clamp (Some (num_q l)) (Some (num_q r)) (Fin (num_q x))).
  Proof.
    assert (N : numeric (num_pv x)) by (eexists; apply num_pv_x).
    assert (N1 : numeric (lo_num l (num_pv x))).
    { unfold lo_num. rewrite num_pv_x. destruct (xlt _ _); eexists; apply num_pv_x. }
    exists (clamp_num l r (num_pv x)). unfold clip, lclip, vec_clip. cbn [bound_pv].
    rewrite lclip_fn_num by auto. cbn [bind]. unfold rclip, vec_clip. cbn [bound_pv].
    rewrite rclip_fn_num by auto. split; [reflexivity|].
    destruct (clamp_num_clamp l r (num_pv x) _ (num_pv_x x)) as (y & E & ->). exact E.
  Qed.
  Lemma clip_array (a : list pv) (l r : num) : a <> [] -> one_kind a l r ->
    exists b, clip (T := T) (CArray a) (Some l) (Some r) = Ok (CArray b) /\
    Forall2 (fun x y => exists xx yy, as_x x = Some xx /\ as_x y = Some yy /\
               yy = clamp (Some (num_q l)) (Some (num_q r)) xx) a b.
  Proof.
    intros N K. exists (map (clamp_num l r) a).
    assert (U : uniform_kind a) by (destruct K as [K|K]; [left|right]; apply K).
    assert (U1 : uniform_kind (map (lo_num l) a)).
    { destruct K as [(A & B & C)|(A & B & C)]; [left; now apply floats_map_lo|right; now apply ints_map_lo]. }
    assert (U2 : uniform_kind (map (hi_num r) (map (lo_num l) a))).
    { destruct K as [(A & B & C)|(A & B & C)];
        [left; apply floats_map_hi; auto; now apply floats_map_lo|right; apply ints_map_hi; auto; now apply ints_map_lo]. }
    pose proof (uniform_numeric _ U) as Nu. rewrite Forall_forall in Nu.
    pose proof (uniform_numeric _ U1) as Nu1. rewrite Forall_forall in Nu1.
    assert (ME : forall g : pv -> pv, map g a <> []) by (intros g; destruct a; simpl; congruence).
    split.
    - unfold clip, lclip, vec_clip. cbn [bound_pv].
      rewrite (mapM_map _ (lo_num l)) by (intros; apply lclip_fn_num; auto). cbn [bind].
      rewrite vec_cast_uniform by auto. cbn [bind]. unfold rclip, vec_clip. cbn [bound_pv].
      rewrite (mapM_map _ (hi_num r)) by (intros; apply rclip_fn_num; auto). cbn [bind].
      rewrite vec_cast_uniform by (auto; rewrite ?map_map; apply ME). cbn [bind]. do 2 f_equal. rewrite map_map. apply map_ext. intros; symmetry; apply clamp_num_eq.
    - clear -Nu. induction a as [|x a IH]; simpl; constructor; [|apply IH; intros; apply Nu; now right].
      destruct (Nu x (or_introl eq_refl)) as (xx & E). destruct (clamp_num_clamp l r x xx E) as (yy & E2 & ->). eauto.
  Qed.
  Lemma clip_dist (d : dist T) l r : exists e, clip (CDistr d) l r = Ok (CDistr e) /\ clip_d (ODist d) l r = ODist e.
  Proof. eexists. destruct l, r; split; reflexivity. Qed.
  Lemma pipes (a : carg T) l r x :
    lclip (T := T) (CNumber x) None = Ok (CPipe (PLow x)) /\ run_pipe (PLow x) a = lclip a (Some x) /\
    rclip (T := T) (CNumber x) None = Ok (CPipe (PHigh x)) /\ run_pipe (PHigh x) a = rclip a (Some x) /\
    clip (T := T) (CNumber l) (Some r) None = Ok (CPipe (PBoth l r)) /\ run_pipe (PBoth l r) a = clip a (Some l) (Some r).
  Proof. repeat split; destruct a; reflexivity. Qed.
  Lemma clip_number_only_right x r : clip (T := T) (CNumber x) None (Some r) = Err TypeError.
  Proof. reflexivity. Qed.
End Top.

(* ------------------------------------------------------------------ an int bound on float samples *)
Section IntBound.
  Variable Or : oracle.
  Lemma qtrunc_towards_zero q : qtrunc q = towards_zero q.
  Proof.
    destruct q as [n d]. unfold qtrunc, towards_zero. cbn [Qnum Qden].
    destruct (Qle_bool 0 (n # d)) eqn:E.
    - apply Qle_bool_iff in E. unfold Qle in E. cbn in E. unfold Qfloor. apply Z.quot_div_nonneg; lia.
    - assert (n < 0)%Z. { destruct (Z_lt_ge_dec n 0); auto. assert (Qle_bool 0 (n # d) = true); [|congruence].
        apply Qle_bool_iff. unfold Qle. cbn. lia. }
      unfold Qceiling, Qfloor, Qopp. cbn [Qnum Qden]. rewrite <- (Z.opp_involutive n) at 1.
      rewrite Z.quot_opp_l by lia. f_equal. apply Z.quot_div_nonneg; lia.
  Qed.
  Lemma cast_clipped (hit : Q -> Z -> bool) q0 qs z :
    vec_cast (map (fun q => if hit q z then PInt z else fl q) (q0 :: qs)) = Ok (map (int_clipped hit q0 z) (q0 :: qs)).
  Proof.
    unfold vec_cast. cbn [map].
    change ((if hit q0 z then PInt z else fl q0) :: map (fun q => if hit q z then PInt z else fl q) qs)
      with (map (fun q => if hit q z then PInt z else fl q) (q0 :: qs)).
    change (int_clipped hit q0 z q0 :: map (int_clipped hit q0 z) qs) with (map (int_clipped hit q0 z) (q0 :: qs)).
    generalize (q0 :: qs) as l. induction l as [|q l IH]; [reflexivity|]. cbn [map mapM].
    assert (cast_like (if hit q0 z then PInt z else fl q0) (if hit q z then PInt z else fl q) = Ok (int_clipped hit q0 z q)) as ->.
    { unfold int_clipped, fl. destruct (hit q0 z), (hit q z); cbn [cast_like]; rewrite ?qtrunc_towards_zero; reflexivity. }
    cbn [bind]. rewrite IH. reflexivity.
  Qed.
  Lemma int_clipped_uniform hit q0 z l : uniform_kind (map (int_clipped hit q0 z) l).
  Proof.
    unfold uniform_kind, int_clipped. destruct (hit q0 z).
    - right. apply Forall_forall. intros x I. apply in_map_iff in I as (q & <- & _). eauto.
    - left. apply Forall_forall. intros x I. apply in_map_iff in I as (q & <- & _). eauto.
  Qed.
  Lemma vectorize2_cast (f : pv -> pv -> res pv) h n l b :
    length l = n -> n <> 1%nat -> (forall x, In x l -> f x b = Ok (h x)) ->
    vectorize2 f (Arr l) (copies b n) = (do zs <- vec_cast (map h l); Ok (Arr zs)).
  Proof.
    intros L N Hf. unfold vectorize2.
    assert (Na : n_samples n (Arr l)) by (apply n_arr; auto).
    pose proof (lift2_run (fun _ => f) n (Arr l) (copies b n) Na (copies_n b n)) as H.
    rewrite copies_elems in H. cbn [elems] in H.
    assert (Z : zipM f l (repeat b n) = Ok (map h l)).
    { rewrite <- L. revert Hf. clear. induction l; simpl; intros Hf; auto.
      rewrite (Hf a) by now left. simpl. rewrite IHl by (intros; apply Hf; now right). reflexivity. }
    cbv beta in H. rewrite Z in H. destruct H as (v & -> & Nv & E). cbn [bind].
    apply n_cases in Nv as [[-> _]|[_ (m & -> & _)]]; [congruence|]. cbn [elems] in E. now subst.
  Qed.
  Lemma finish_uniform l : uniform_kind l -> finish_list Or (Arr l) = Arr l.
  Proof.
    intros U. destruct l as [|x [|y l]].
    - reflexivity.
    - unfold finish_list. destruct U as [U|U]; inversion U as [|? ? (q & ->) _]; subst; reflexivity.
    - exact (finish_simplify Or (x :: y :: l) (or_intror U)).
  Qed.
  Lemma int_bound_samples hit f d z n s q0 qs s1 :
    (f = FLclip /\ hit = below_bound \/ f = FRclip /\ hit = above_bound) ->
    (2 <= n)%nat -> length (q0 :: qs) = n -> smp Or d n None None s = (Ok (Arr (map fl (q0 :: qs))), s1) ->
    smp Or (ODist (DComplex d (OLit (PInt z)) f)) n None None s = (Ok (Arr (map (int_clipped hit q0 z) (q0 :: qs))), s1).
  Proof.
    intros K Hn Ln Hd.
    erewrite complex_run; [|lia|discriminate|exact Hd|apply sample_lit; lia].
    assert (V : forall g, (forall q, g (fl q) (PInt z) = Ok (if hit q z then PInt z else fl q)) ->
      vectorize2 g (Arr (map fl (q0 :: qs))) (copies (PInt z) n) = Ok (Arr (map (int_clipped hit q0 z) (q0 :: qs)))).
    { intros g G.
      rewrite (vectorize2_cast _ (fun x => match x with PFlt (Fin q) => if hit q z then PInt z else fl q | _ => x end));
        [|rewrite map_length; exact Ln|lia|intros x I; apply in_map_iff in I as (q & <- & _); rewrite G; reflexivity].
      rewrite map_map.
      match goal with |- bind (vec_cast ?L) _ = _ =>
        change L with (map (fun q => if hit q z then PInt z else fl q) (q0 :: qs)) end.
      rewrite cast_clipped. reflexivity. }
    destruct K as [(-> & ->)|(-> & ->)]; cbn [fn_result apply_fn]; rewrite V;
      try (rewrite finish_uniform; [reflexivity|apply int_clipped_uniform]);
      intros q; unfold lclip_fn, rclip_fn, below_bound, above_bound, fl; cbn; reflexivity.
  Qed.
End IntBound.
