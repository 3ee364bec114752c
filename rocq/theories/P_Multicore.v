(** Lemmas about multicore sampling. *)
From Verif Require Import Base M_Weights M_Pick M_Values M_Sampler M_SampleApi SpecSampler SpecCache P_Weights P_Pick P_Sampler P_Clip P_Count P_Mixture P_Cache.
From Coq Require Import Permutation.

Lemma nth_error_repeat' {A} (x : A) n k : (k < n)%nat -> nth_error (repeat x n) k = Some x.
Proof. revert k; induction n; intros [|k] H; simpl; try lia; auto. apply IHn. lia. Qed.

Section Multi.
  Variable Or : oracle.
  Notation world := (world Or).
  Notation call := (call Or).
  Implicit Types (c : call) (w : world).

  Lemma cut_share n k j cuts : (j < k)%nat -> core_cuts (Z.of_nat n) k = Ok cuts ->
    exists m, nth_error cuts j = Some m /\ Z.to_nat m = share n k j.
  Proof.
    intros Hj H. rewrite core_cuts_eq in H by lia. apply ok_inj in H. subst.
    unfold share. destruct (Nat.eqb_spec (S j) k) as [E|E].
    - rewrite nth_error_app2 by (rewrite repeat_length; lia). rewrite repeat_length.
      replace (j - pred k)%nat with 0%nat by lia. eexists; split; [reflexivity|].
      rewrite <- Nat2Z.inj_div. rewrite ?Z2Nat.inj_sub by lia. lia.
    - rewrite nth_error_app1 by (rewrite repeat_length; lia). rewrite nth_error_repeat' by lia.
      eexists; split; [reflexivity|]. rewrite <- Nat2Z.inj_div. lia.
  Qed.

  Lemma batch_worker c w cuts k : core_cuts (Z.of_nat (c_n Or c)) (c_cores Or c) = Ok cuts ->
    (k < c_cores Or c)%nat ->
    fst (batch Or c cuts k (if Nat.eqb (S k) (c_cores Or c) then st Or w else c_starts Or c k)) = worker_result Or c w k.
  Proof.
    intros H Hk. destruct (cut_share _ _ k cuts Hk H) as (m & E & Em).
    unfold batch, worker_result. rewrite E, Em. reflexivity.
  Qed.

  (** The files after all tasks finished: task order is irrelevant. *)
  Lemma tasks_files c cuts w : core_cuts (Z.of_nat (c_n Or c)) (c_cores Or c) = Ok cuts ->
    forall l fs f,
    fold_left (finish_task Or c cuts w) l fs f =
      match f with
      | CoreNpy k =>
          if in_dec Nat.eq_dec k l then
            if Nat.ltb k (c_cores Or c) then
              match worker_result Or c w k with Ok v => Some v | Err _ => fs f end
            else fs f
          else fs f
      | _ => fs f
      end.
  Proof.
    intros H. induction l as [|j l IH]; intros fs f; simpl.
    - destruct f; auto.
    - rewrite IH. unfold finish_task.
      destruct (Nat.ltb_spec j (c_cores Or c)) as [L|L].
      + rewrite batch_worker by assumption.
        destruct (worker_result Or c w j) as [v|e] eqn:E.
        * destruct f as [p|k|p|k]; try (now rewrite upd_file_ne by congruence).
          destruct (Nat.eq_dec j k) as [->|N].
          { destruct (in_dec Nat.eq_dec k l); destruct (Nat.ltb_spec k (c_cores Or c)); try lia; rewrite E; auto;
              apply upd_file_eq. }
          { rewrite upd_file_ne by congruence. now destruct (in_dec Nat.eq_dec k l). }
        * destruct f as [p|k|p|k]; auto. destruct (Nat.eq_dec j k) as [->|N].
          { destruct (in_dec Nat.eq_dec k l); destruct (Nat.ltb_spec k (c_cores Or c)); try lia; now rewrite E. }
          { now destruct (in_dec Nat.eq_dec k l). }
      + destruct f as [p|k|p|k]; auto. destruct (Nat.eq_dec j k) as [->|N].
        { destruct (in_dec Nat.eq_dec k l); destruct (Nat.ltb_spec k (c_cores Or c)); try lia; auto. }
        { now destruct (in_dec Nat.eq_dec k l). }
  Qed.

  Fixpoint joined (f : pv -> string) (acc : list pv) (vs : list val) : list pv :=
    match vs with [] => acc | v :: vs' => joined f (cat f acc (enlist v)) vs' end.

  Lemma collect_all ks : NoDup ks -> forall acc fs vs,
    (forall i k, nth_error ks i = Some k -> exists v, nth_error vs i = Some v /\ fs (CoreNpy k) = Some v) ->
    length vs = length ks ->
    exists fs', collect Or ks acc fs = (Ok (joined (fmt Or) acc vs), fs') /\
      forall f, fs' f = match f with CoreNpy k => if in_dec Nat.eq_dec k ks then None else fs f | _ => fs f end.
  Proof.
    induction 1 as [|k ks N ND IH]; intros acc fs vs F L; destruct vs as [|v vs]; try discriminate; simpl.
    - exists fs. split; auto. intros [] ; auto.
    - destruct (F 0%nat k eq_refl) as (v' & Ev & Ef). injection Ev as <-. rewrite Ef.
      destruct (IH (cat (fmt Or) acc (enlist v)) (upd_file fs (CoreNpy k) None) vs) as (fs' & E & Ff).
      + intros i j Hj. destruct (F (S i) j Hj) as (u & A & B). exists u. split; auto.
        rewrite upd_file_ne; auto. intros EE. injection EE as ->. apply N. eapply nth_error_In; eauto.
      + simpl in L. lia.
      + exists fs'. split; auto. intros f. rewrite Ff. destruct f as [p|j|p|j]; try (rewrite upd_file_ne by congruence; reflexivity).
        destruct (Nat.eq_dec k j) as [->|Nj].
        * destruct (in_dec Nat.eq_dec j ks); auto. apply upd_file_eq.
        * destruct (in_dec Nat.eq_dec j ks); auto. apply upd_file_ne. congruence.
  Qed.

  Lemma obtain_multi c w : uncached_multicore Or c ->
    obtain Or c w = match multicore Or c w with
      | (Ok v, w1) => (apply_clips (c_lc Or c) (c_rc Or c) v, w1)
      | (Err e, w1) => (Err e, w1)
      end.
  Proof.
    intros (S & C & R). unfold obtain, from_cache.
    assert ((is_some (c_load Or c) || c_memcache Or c) && negb (c_reload Or c) = false) as ->.
    { destruct R as [-> | [-> ->]]; simpl; auto. apply andb_false_r. }
    destruct (Nat.ltb_spec 1 (c_cores Or c)); [reflexivity|lia].
  Qed.

  Lemma parent_batch c w cuts : core_cuts (Z.of_nat (c_n Or c)) (c_cores Or c) = Ok cuts -> (2 <= c_cores Or c)%nat ->
    fst (batch Or c cuts (pred (c_cores Or c)) (st Or w)) = worker_result Or c w (pred (c_cores Or c)).
  Proof.
    intros H C. rewrite <- (batch_worker c w cuts) by (auto; lia).
    destruct (Nat.eqb_spec (S (pred (c_cores Or c))) (c_cores Or c)); [reflexivity|lia].
  Qed.

  (** All workers succeed and every task's file is written, in any order. *)
  Lemma multicore_ok c w vs : uncached_multicore Or c ->
    Permutation (c_sched Or c) (seq 0 (c_cores Or c)) ->
    length vs = c_cores Or c ->
    (forall k v, nth_error vs k = Some v -> worker_result Or c w k = Ok v) ->
    exists s1 fs', obtain Or c w =
      (apply_clips (c_lc Or c) (c_rc Or c) (Arr (joined (fmt Or) [] vs)), mkWorld Or s1 (mem Or w) fs') /\
      (forall k, fs' (CoreNpy k) = if Nat.ltb k (c_cores Or c) then None else files Or w (CoreNpy k)) /\
      (forall f, (forall k, f <> CoreNpy k) -> fs' f = files Or w f).
  Proof.
    intros U P L W. rewrite obtain_multi by assumption. destruct U as (S & C & R).
    destruct (core_cuts_ok (Z.of_nat (c_n Or c)) (c_cores Or c)) as [cuts Ec]; [lia|].
    assert (Hin : forall k, In k (c_sched Or c) <-> (k < c_cores Or c)%nat).
    { intros k. split; intros H.
      - apply (Permutation_in _ P) in H. apply in_seq in H. lia.
      - apply (Permutation_in _ (Permutation_sym P)). apply in_seq. lia. }
    unfold multicore. rewrite Ec.
    pose proof (parent_batch c w cuts Ec C) as PB.
    destruct (nth_error vs (pred (c_cores Or c))) as [vl|] eqn:El.
    2: { apply nth_error_None in El. lia. }
    rewrite (W _ _ El) in PB. destruct (batch Or c cuts (pred (c_cores Or c)) (st Or w)) as [rb s1]. simpl in PB. subst rb.
    destruct (collect_all (seq 0 (c_cores Or c)) (seq_NoDup _ _) [] (fold_left (finish_task Or c cuts w) (c_sched Or c) (files Or w)) vs) as (fs' & E & Ff).
    - intros i k Hi. assert (Hk : (i < c_cores Or c)%nat) by (erewrite <- (seq_length (c_cores Or c) 0); apply nth_error_Some; congruence).
      assert (k = i). { apply nth_error_nth with (d := 0%nat) in Hi. rewrite seq_nth in Hi by assumption. lia. } subst k.
      destruct (nth_error vs i) as [v|] eqn:Ev; [|apply nth_error_None in Ev; lia]. exists v. split; auto.
      rewrite (tasks_files c cuts w Ec).
      destruct (in_dec Nat.eq_dec i (c_sched Or c)) as [I|I]; [|elim I; now apply Hin].
      destruct (Nat.ltb_spec i (c_cores Or c)); [|lia]. now rewrite (W _ _ Ev).
    - now rewrite seq_length.
    - rewrite E. simpl. exists s1, fs'. split; auto. split.
      + intros k. rewrite Ff, (tasks_files c cuts w Ec).
        destruct (in_dec Nat.eq_dec k (seq 0 (c_cores Or c))) as [I|I]; rewrite in_seq in I.
        * destruct (Nat.ltb_spec k (c_cores Or c)); auto; lia.
        * destruct (Nat.ltb_spec k (c_cores Or c)); [lia|].
          now destruct (in_dec Nat.eq_dec k (c_sched Or c)).
      + intros f N. rewrite Ff, (tasks_files c cuts w Ec). destruct f; auto. now elim (N core).
  Qed.

  (** What concatenation does to the numbers. *)
  Lemma to_flt_as_float x : to_flt x = as_float x.
  Proof. destruct x as [| |[]| |]; reflexivity. Qed.
  Lemma numeric_kinds l : Forall numeric_pv l -> existsb is_none l = false /\ existsb is_str l = false.
  Proof. induction 1 as [|x l H F [A B]]; simpl; auto. rewrite A, B. destruct x; simpl in *; tauto. Qed.
  Lemma cat_numeric f a b : Forall numeric_pv a -> Forall numeric_pv b -> cat f a b = map as_float (a ++ b).
  Proof.
    intros A B. unfold cat. destruct (numeric_kinds (a ++ b)) as [E1 E2]; [now apply Forall_app|].
    unfold np_array. cbn [existsb is_none is_str is_flt orb]. rewrite E1, E2. simpl.
    apply map_ext. intros. apply to_flt_as_float.
  Qed.
  Lemma as_float_idem x : as_float (as_float x) = as_float x.
  Proof. destruct x; reflexivity. Qed.
  Lemma as_float_numeric x : numeric_pv x -> numeric_pv (as_float x).
  Proof. destruct x; simpl; auto. Qed.
  Lemma joined_numeric f vs : Forall (fun v => Forall numeric_pv (enlist v)) vs -> forall acc, Forall numeric_pv acc ->
    map as_float acc = acc -> joined f acc vs = acc ++ map as_float (concat (map enlist vs)).
  Proof.
    induction 1 as [|v vs H F IH]; intros acc A E; simpl; [now rewrite app_nil_r|].
    rewrite cat_numeric by assumption. rewrite IH.
    - rewrite !map_app, E, <- app_assoc. reflexivity.
    - apply Forall_map, Forall_app; split; eapply Forall_impl; eauto; apply as_float_numeric.
    - rewrite map_map. apply map_ext. intros; apply as_float_idem.
  Qed.
  Lemma cat_length f a b : length (cat f a b) = (length a + length b)%nat.
  Proof.
    unfold cat. pose proof (np_array_length f (PFlt (Fin 0) :: a ++ b)) as H. simpl in H. rewrite app_length in H.
    destruct (np_array _ _); simpl in *; lia.
  Qed.
  Lemma joined_length f vs : forall acc, length (joined f acc vs) = (length acc + length (concat (map enlist vs)))%nat.
  Proof.
    induction vs as [|v vs IH]; intros acc; simpl; auto. rewrite IH, cat_length, app_length. lia.
  Qed.

  Lemma sum_share n k : (0 < k)%nat -> list_sum (map (share n k) (seq 0 k)) = n.
  Proof.
    intros Hk. replace k with (pred k + 1)%nat at 2 by lia. rewrite seq_app, map_app. simpl.
    assert (E : forall m, (m <= pred k)%nat -> list_sum (map (share n k) (seq 0 m)) = (m * (n / k))%nat).
    { induction m; intros Hm; auto. replace (S m) with (m + 1)%nat by lia. rewrite seq_app, map_app.
      rewrite list_sum_app, IHm by lia. simpl. unfold share. destruct (Nat.eqb_spec (S m) k); lia. }
    rewrite list_sum_app, E by lia. simpl. unfold share. destruct (Nat.eqb_spec (S (pred k)) k); [|lia].
    pose proof (Nat.mul_div_le n k ltac:(lia)). assert (pred k * (n / k) <= k * (n / k))%nat by (apply Nat.mul_le_mono_r; lia). lia.
  Qed.

  Lemma n_samples_length n v : n_samples n v -> length (enlist v) = n.
  Proof. unfold n_samples. destruct n as [|[|n]]; intros (l & H); [destruct H as [-> H]; exact H|now subst|destruct H as [-> H]; exact H]. Qed.

  Lemma joined_count (RL : right_length Or) c w vs : (2 <= c_cores Or c)%nat -> covered (c_obj Or c) ->
    length vs = c_cores Or c ->
    (forall k v, nth_error vs k = Some v -> worker_result Or c w k = Ok v) ->
    length (concat (map enlist vs)) = c_n Or c.
  Proof.
    intros C Cv L W. rewrite <- (sum_share (c_n Or c) (c_cores Or c)) at 1 by lia.
    assert (K : forall k v, nth_error vs k = Some v -> length (enlist v) = share (c_n Or c) (c_cores Or c) k).
    { intros k v H. apply W in H. unfold worker_result in H.
      destruct (smp _ _ _ _ _ _) as [r s'] eqn:E. simpl in H. subst r. apply n_samples_length.
      eapply (sample_count Or RL); eauto. }
    replace (seq 0 (c_cores Or c)) with (seq 0 (length vs)) by (now rewrite L). clear L W. revert K. generalize (share (c_n Or c) (c_cores Or c)). intros f.
    assert (G : forall i, (forall k v, nth_error vs k = Some v -> length (enlist v) = f (i + k)%nat) ->
      length (concat (map enlist vs)) = list_sum (map f (seq i (length vs)))).
    { induction vs as [|v vs IH]; intros i K; simpl; auto. rewrite app_length.
      f_equal.
      - rewrite (K 0%nat v eq_refl). f_equal. lia.
      - apply IH. intros k u H. rewrite (K (S k) u H). f_equal. lia. }
    intros K. apply (G 0%nat). exact K.
  Qed.

  (** A worker that raised, and no leftover file in its place. *)
  Lemma collect_missing ks : forall acc fs k, In k ks -> fs (CoreNpy k) = None ->
    exists fs', collect Or ks acc fs = (Err FileNotFoundError, fs').
  Proof.
    induction ks as [|j ks IH]; intros acc fs k I F; [destruct I|]. simpl.
    destruct (fs (CoreNpy j)) as [v|] eqn:E; [|eauto].
    destruct (Nat.eq_dec j k) as [->|N]; [congruence|].
    apply (IH _ _ k); [destruct I; congruence|]. rewrite upd_file_ne; congruence.
  Qed.
  Lemma multicore_lost c w k e v : uncached_multicore Or c -> (S k < c_cores Or c)%nat ->
    worker_result Or c w k = Err e -> worker_result Or c w (pred (c_cores Or c)) = Ok v ->
    files Or w (CoreNpy k) = None ->
    exists w', sample_call Or c w = (Err FileNotFoundError, w').
  Proof.
    intros U Hk W P F. assert (S := proj1 U). rewrite call_run by assumption. rewrite obtain_multi by assumption.
    destruct U as (_ & C & R).
    destruct (core_cuts_ok (Z.of_nat (c_n Or c)) (c_cores Or c)) as [cuts Ec]; [lia|].
    unfold multicore. rewrite Ec.
    pose proof (parent_batch c w cuts Ec C) as PB. rewrite P in PB.
    destruct (batch _ _ _ _ _) as [rb s1]. simpl in PB. subst rb.
    destruct (collect_missing (seq 0 (c_cores Or c)) [] (fold_left (finish_task Or c cuts w) (c_sched Or c) (files Or w)) k) as (fs' & E).
    - apply in_seq. lia.
    - rewrite (tasks_files c cuts w Ec). rewrite W. destruct (in_dec Nat.eq_dec k (c_sched Or c)); auto.
      destruct (Nat.ltb k (c_cores Or c)); auto.
    - rewrite E. simpl. eauto.
  Qed.
  Lemma too_many_cores c w v : uncached_multicore Or c -> (c_n Or c < c_cores Or c)%nat ->
    worker_result Or c w (pred (c_cores Or c)) = Ok v ->
    files Or w (CoreNpy 0) = None -> exists w', sample_call Or c w = (Err FileNotFoundError, w').
  Proof.
    intros U N P F. eapply (multicore_lost c w 0); eauto.
    - destruct U as (_ & C & _); lia.
    - unfold worker_result, share. destruct U as (_ & C & _).
      destruct (Nat.eqb_spec 1 (c_cores Or c)); [lia|]. rewrite Nat.div_small by assumption.
      destruct (c_obj Or c) as [x|f|d|]; try reflexivity. destruct d; reflexivity.
  Qed.

  (** Workers forked from one state make the same batch. *)
  Lemma same_start c w j k : (S j < c_cores Or c)%nat -> (S k < c_cores Or c)%nat ->
    c_starts Or c j = c_starts Or c k -> worker_result Or c w j = worker_result Or c w k.
  Proof.
    intros A B E. unfold worker_result, share. rewrite E.
    destruct (Nat.eqb_spec (S j) (c_cores Or c)); [lia|]. destruct (Nat.eqb_spec (S k) (c_cores Or c)); [lia|].
    reflexivity.
  Qed.
End Multi.

Lemma Forall2_imp {A B} (P R : A -> B -> Prop) l m : (forall a b, P a b -> R a b) -> Forall2 P l m -> Forall2 R l m.
Proof. induction 2; constructor; auto. Qed.

(** Clipping a value that is already there. *)
Lemma clips_clamped lc rc u w : apply_clips lc rc u = Ok w ->
  Forall2 (clamped (q_of lc) (q_of rc)) (elems u) (elems w).
Proof.
  intros H. unfold apply_clips in H. apply bind_ok in H as (m & H1 & H2).
  assert (ST : forall f v w, Forall2 (step f) v w ->
            Forall2 (fun a b => match as_x a, as_x b with Some x, Some y => xsame y (f x) | _, _ => False end) v w).
  { intros f v w' F. induction F as [|a b v w' (x & y & A & B & E) F IH]; constructor; auto. now rewrite A, B. }
  destruct lc as [a|], rc as [b|].
  - apply lclip_steps, ST in H1. apply rclip_steps, ST in H2. revert H1 H2. generalize (elems u) (elems m) (elems w).
    intros lu lm lw A. revert lw. induction A as [|x y lu lm H A IH]; intros lw B; inversion B as [|y' z lm' lw' H' B']; subst; constructor; auto.
    unfold clamped. simpl. destruct (as_x x) as [x1|]; [|contradiction].
    destruct (as_x y) as [y1|]; [|contradiction]. destruct (as_x z) as [z1|]; [|contradiction].
    eapply xsame_trans; [exact H'|]. unfold clamp. now apply clamp_hi_same.
  - inversion H2; subst. apply lclip_steps, ST in H1. eapply Forall2_imp; [|exact H1].
    intros x y E. cbv beta in E. unfold clamped. simpl. destruct (as_x x), (as_x y); auto.
  - inversion H1; subst. apply rclip_steps, ST in H2. eapply Forall2_imp; [|exact H2].
    intros x y E. cbv beta in E. unfold clamped. simpl. destruct (as_x x), (as_x y); auto.
  - inversion H1; inversion H2; subst. unfold clamped. simpl. generalize (elems w). induction l; constructor; auto.
Qed.
