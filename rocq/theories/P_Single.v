(** Operators on texts, and exp and log of single samples. *)
From Coq Require Import Lqa Qabs Ascii NArith.
From Coq Require String.
From Verif Require Import Base M_Weights M_Values M_Sampler M_Ops SpecSampler SpecOps P_Sampler P_Count P_Clip P_Ops P_Ops2.
Open Scope Q_scope.

Lemma ascii_compare c d : Ascii.compare c d = Nat.compare (nat_of_ascii c) (nat_of_ascii d).
Proof. unfold Ascii.compare, nat_of_ascii. apply N2Nat.inj_compare. Qed.
Lemma compare_lt s t : String.compare s t = Datatypes.Lt <-> before s t.
Proof.
  split.
  - revert t. induction s as [|c s IH]; intros [|d t] H; cbn in H; try discriminate; [constructor|].
    rewrite ascii_compare in H. destruct (Nat.compare_spec (nat_of_ascii c) (nat_of_ascii d)) as [E|E|E]; try discriminate.
    + assert (c = d) by (rewrite <- (ascii_nat_embedding c), E; apply ascii_nat_embedding). subst. apply before_tail. auto.
    + now constructor.
  - induction 1; cbn; [reflexivity| |].
    + rewrite ascii_compare. apply Nat.compare_lt_iff in H. now rewrite H.
    + now rewrite ascii_compare, Nat.compare_refl.
Qed.
Lemma compare_eq s t : String.compare s t = Datatypes.Eq <-> s = t.
Proof.
  split; [apply String.compare_eq_iff|]. intros <-. induction s as [|c s IH]; [reflexivity|].
  cbn. now rewrite ascii_compare, Nat.compare_refl.
Qed.
Lemma ltb_before s t : String.ltb s t = true <-> before s t.
Proof. unfold String.ltb. rewrite <- compare_lt. destruct (String.compare s t); split; congruence. Qed.
Lemma leb_before s t : String.leb s t = true <-> before s t \/ s = t.
Proof.
  unfold String.leb. rewrite <- compare_lt, <- compare_eq.
  destruct (String.compare s t); split; intros H; try discriminate; auto; try (destruct H; discriminate).
Qed.
Lemma chars_app s t : chars (String.append s t) = chars s ++ chars t.
Proof. induction s as [|c s IH]; cbn; [reflexivity|]. now rewrite IH. Qed.
Lemma texts_ok pw arr s t :
  (exists r, binop pw arr Add (PStr s) (PStr t) = Ok (PStr r) /\ chars r = chars s ++ chars t) /\
  (exists lt le, binop pw arr Lt (PStr s) (PStr t) = Ok (PBool lt) /\ binop pw arr Gt (PStr t) (PStr s) = Ok (PBool lt) /\
     binop pw arr Le (PStr s) (PStr t) = Ok (PBool le) /\ binop pw arr Ge (PStr t) (PStr s) = Ok (PBool le) /\
     (lt = true <-> before s t) /\ (le = true <-> before s t \/ s = t)) /\
  (forall o, In o [Sub; Mul; Div; FloorDiv; Pow] -> binop pw arr o (PStr s) (PStr t) = Err TypeError).
Proof.
  split; [|split].
  - eexists. split; [reflexivity|apply chars_app].
  - do 2 eexists. repeat (split; [reflexivity|]). split; [apply ltb_before|apply leb_before].
  - intros o H. cbn in H. decompose [or] H; subst; try contradiction; reflexivity.
Qed.
Lemma before_order : (forall s, ~ before s s) /\ (forall s t u, before s t -> before t u -> before s u) /\
  (forall s t, before s t \/ s = t \/ before t s).
Proof.
  split; [|split].
  - intros s. induction s; intros H; inversion H; subst; auto. lia.
  - intros s t u H. revert u. induction H; intros u K; inversion K; subst; try (constructor; auto; lia); constructor; lia.
  - intros s t. destruct (String.compare s t) eqn:E; [apply compare_eq in E|apply compare_lt in E|]; auto.
    right; right. apply compare_lt. rewrite String.compare_antisym, E. reflexivity.
Qed.
Lemma repeat_chars k s : chars (str_repeat k s) = concat (repeat (chars s) k).
Proof. induction k; cbn; [reflexivity|]. now rewrite chars_app, IHk. Qed.
Lemma text_times pw s k :
  (exists r, binop pw false Mul (PStr s) (PInt k) = Ok (PStr r) /\ binop pw false Mul (PInt k) (PStr s) = Ok (PStr r) /\
     chars r = concat (repeat (chars s) (Z.to_nat k))) /\
  binop pw true Mul (PStr s) (PInt k) = Err TypeError /\ binop pw true Mul (PInt k) (PStr s) = Err TypeError.
Proof. split; [|split; reflexivity]. eexists. repeat (split; [reflexivity|]). apply repeat_chars. Qed.
Lemma text_other pw arr o s v : o <> Mul -> (forall t, v <> PStr t) ->
  binop pw arr o (PStr s) v = Err TypeError /\ binop pw arr o v (PStr s) = Err TypeError.
Proof. intros H N. destruct v; try (exfalso; eapply N; reflexivity); destruct o; try congruence; split; reflexivity. Qed.
Lemma text_float pw arr o s x :
  binop pw arr o (PStr s) (PFlt x) = Err TypeError /\ binop pw arr o (PFlt x) (PStr s) = Err TypeError.
Proof. split; reflexivity. Qed.

Section Single.
  Variable Or : oracle.
  Notation smp := (smp Or).
  Lemma reads_x y q : reads y q -> exists r, as_x y = Some (Fin r) /\ r == q.
  Proof. unfold reads. destruct (as_x y) as [[r| | |]|]; try contradiction. eauto. Qed.
  Lemma exp_run d f s a s1 : smp d 1 None None s = (Ok a, s1) ->
    smp (dist_exp f d) 1 None None s =
      (match math_arg a with Ok x => Ok (Scalar (PFlt (math_exp f x))) | Err e => Err e end, s1).
  Proof.
    intros Ha. unfold dist_exp, fold_fns. cbn [fold_left]. rewrite (complex_run1 Or d _ 1 s a s1 ltac:(lia) Ha).
    cbn [fn_result pure1]. destruct (math_arg a); reflexivity.
  Qed.
  Lemma exp_one d f s v s1 q : respects f -> smp d 1 None None s = (Ok (Scalar v), s1) -> reads v q ->
    exists y, smp (dist_exp f d) 1 None None s = (Ok (Scalar (PFlt (Fin y))), s1) /\ y == f q.
  Proof.
    intros F Ha R. apply reads_x in R as (r & R & E). rewrite (exp_run _ _ _ _ _ Ha). cbn [math_arg]. rewrite R.
    eexists. split; [reflexivity|]. now apply F.
  Qed.
  Lemma exp_special d f s v s1 : smp d 1 None None s = (Ok (Scalar v), s1) ->
    (v = PFlt PInf -> smp (dist_exp f d) 1 None None s = (Ok (Scalar (PFlt PInf)), s1)) /\
    (v = PFlt NInf -> smp (dist_exp f d) 1 None None s = (Ok (Scalar (PFlt (Fin 0))), s1)) /\
    (v = PFlt NaN -> smp (dist_exp f d) 1 None None s = (Ok (Scalar (PFlt NaN)), s1)) /\
    (as_x v = None -> smp (dist_exp f d) 1 None None s = (Err TypeError, s1)).
  Proof.
    intros Ha. rewrite (exp_run _ _ _ _ _ Ha). cbn [math_arg]. split; [|split; [|split]]; intros E; try (subst v; reflexivity).
    now rewrite E.
  Qed.
  Lemma exp_array d f s l s1 : smp d 1 None None s = (Ok (Arr l), s1) ->
    smp (dist_exp f d) 1 None None s = (Err TypeError, s1).
  Proof. intros Ha. now rewrite (exp_run _ _ _ _ _ Ha). Qed.

  Lemma log_run d f base s a s1 : smp d 1 None None s = (Ok a, s1) ->
    smp (dist_log f d base) 1 None None s =
      (match math_log f a (Scalar base) with Ok x => Ok (Scalar x) | Err e => Err e end, s1).
  Proof.
    intros Ha. unfold dist_log, fold_fns. cbn [fold_left].
    erewrite complex_run; [|lia|discriminate|exact Ha|apply sample_const; lia].
    change (copies base 1) with (Scalar base). cbn [fn_result pure2]. destruct (math_log f a (Scalar base)); reflexivity.
  Qed.
  Lemma log1_pos f q : 0 < q -> respects f -> f 1 == 0 -> exists l, math_log1 f (Fin q) = Ok (Fin l) /\ l == f q.
  Proof.
    intros P F O1. cbn [math_log1]. replace (Qle_bool q 0) with false.
    2:{ symmetry. apply not_true_is_false. rewrite Qle_bool_iff. lra. }
    destruct (Qeq_bool q 1) eqn:E; eexists; (split; [reflexivity|]); [|reflexivity].
    apply Qeq_bool_iff in E. rewrite <- O1. symmetry. now apply F.
  Qed.
  Lemma log_one_sample d f base s v s1 q b : respects f -> f 1 == 0 -> smp d 1 None None s = (Ok (Scalar v), s1) ->
    reads v q -> reads base b -> 0 < q -> 0 < b -> ~ f b == 0 ->
    exists y, smp (dist_log f d base) 1 None None s = (Ok (Scalar (PFlt (Fin y))), s1) /\ y * f b == f q.
  Proof.
    intros F O1 Ha Rv Rb Pq Pb NZ. rewrite (log_run _ _ _ _ _ _ Ha). unfold math_log.
    apply reads_x in Rv as (q' & Rv & Eq). apply reads_x in Rb as (b' & Rb & Eb).
    cbn [math_arg]. rewrite Rv, Rb. cbn [bind].
    destruct (log1_pos f q' ltac:(lra) F O1) as (lq & -> & L1). destruct (log1_pos f b' ltac:(lra) F O1) as (lb & -> & L2).
    cbn [bind xzero]. pose proof (F _ _ Eq). pose proof (F _ _ Eb).
    replace (Qeq_bool lb 0) with false.
    2:{ symmetry. apply not_true_is_false. rewrite Qeq_bool_iff. lra. }
    cbn [xdiv xzero]. replace (Qeq_bool lb 0) with false.
    2:{ symmetry. apply not_true_is_false. rewrite Qeq_bool_iff. lra. }
    eexists. split; [reflexivity|]. assert (E : f b == lb) by lra. rewrite E. rewrite <- H, <- L1. field. lra.
  Qed.
  Lemma log1_neg f q : q <= 0 -> math_log1 f (Fin q) = Err (ValueError "math domain error").
  Proof. intros H. cbn [math_log1]. apply Qle_bool_iff in H. now rewrite H. Qed.
  Lemma log_errors d f base s v s1 q b : respects f -> f 1 == 0 -> smp d 1 None None s = (Ok (Scalar v), s1) ->
    reads v q -> reads base b ->
    (q <= 0 \/ b <= 0 -> smp (dist_log f d base) 1 None None s = (Err (ValueError "math domain error"), s1)) /\
    (0 < q -> b == 1 -> smp (dist_log f d base) 1 None None s = (Err ZeroDivisionError, s1)).
  Proof.
    intros F O1 Ha Rv Rb. rewrite (log_run _ _ _ _ _ _ Ha). unfold math_log.
    apply reads_x in Rv as (q' & Rv & Eq). apply reads_x in Rb as (b' & Rb & Eb).
    cbn [math_arg]. rewrite Rv, Rb. cbn [bind]. split.
    - intros H. destruct (Qlt_le_dec 0 q') as [P|P]; [|now rewrite log1_neg].
      destruct (log1_pos f q' P F O1) as (lq & -> & _). cbn [bind]. rewrite log1_neg by lra. reflexivity.
    - intros P E. destruct (log1_pos f q' ltac:(lra) F O1) as (lq & -> & _). cbn [bind math_log1].
      replace (Qle_bool b' 0) with false.
      2:{ symmetry. apply not_true_is_false. rewrite Qle_bool_iff. lra. }
      replace (Qeq_bool b' 1) with true by (symmetry; apply Qeq_bool_iff; lra). reflexivity.
  Qed.
  Lemma log_wrong_kind d f base s a s1 : smp d 1 None None s = (Ok a, s1) ->
    (forall v, a = Scalar v -> as_x v = None) -> smp (dist_log f d base) 1 None None s = (Err TypeError, s1).
  Proof.
    intros Ha N. rewrite (log_run _ _ _ _ _ _ Ha). unfold math_log. destruct a as [v|l]; cbn [math_arg]; [|reflexivity].
    rewrite (N v eq_refl). reflexivity.
  Qed.
End Single.
(** Clipping texts. *)
Lemma clip_texts_ok s t :
  (exists u, lclip_fn (PStr s) (PStr t) = Ok (PStr u) /\ (u = s \/ u = t) /\ ~ before u s /\ ~ before u t) /\
  (exists u, rclip_fn (PStr s) (PStr t) = Ok (PStr u) /\ (u = s \/ u = t) /\ ~ before s u /\ ~ before t u).
Proof.
  destruct before_order as [I [T _]].
  unfold lclip_fn, rclip_fn, py_lt. cbn [as_x bind]. split.
  - destruct (String.ltb s t) eqn:E.
    + apply ltb_before in E. exists t. split; [reflexivity|]. split; [auto|]. split; intros H; eapply I; eauto.
    + exists s. split; [reflexivity|]. split; [auto|]. split; intros H; [eapply I; eauto|].
      apply ltb_before in H. congruence.
  - destruct (String.ltb t s) eqn:E.
    + apply ltb_before in E. exists t. split; [reflexivity|]. split; [auto|]. split; intros H; eapply I; eauto.
    + exists s. split; [reflexivity|]. split; [auto|]. split; intros H; [eapply I; eauto|].
      apply ltb_before in H. congruence.
Qed.
Lemma clip_text_number s v : (forall t, v <> PStr t) -> v <> PNone ->
  lclip_fn (PStr s) v = Err TypeError /\ rclip_fn (PStr s) v = Err TypeError /\
  lclip_fn v (PStr s) = Err TypeError /\ rclip_fn v (PStr s) = Err TypeError.
Proof. intros H K. destruct v; try (exfalso; eapply H; reflexivity); try congruence; repeat split. Qed.
