(** The one-step models of multicore calls give what every schedule gives. *)
From Coq Require Import Lia Arith Permutation Sorted.
From Verif Require Import Base M_Weights M_Pick M_Values M_Sampler M_SampleApi SpecCache P_Pick P_Cache P_Multicore
  M_Bayesnet SpecBayes P_Bayesnet M_Steps SpecSteps P_Steps.
Open Scope nat_scope.

Lemma forall2_nth {X Y} (P : X -> Y -> Prop) l l' : Forall2 P l l' ->
  forall i x, nth_error l i = Some x -> exists y, nth_error l' i = Some y /\ P x y.
Proof.
  induction 1 as [|a b l l' Hab F IH]; intros [|i] x Hi; simpl in *; try discriminate; [|eauto].
  inversion Hi; subst. eauto.
Qed.

Section Npy.
  Variable Or : oracle.
  Notation cor := (c_cores Or).

  Lemma joined_fold f vs : forall acc, joined f acc vs = fold_left (fun a v => cat f a (enlist v)) vs acc.
  Proof. induction vs as [|v vs IH]; intros acc; simpl; auto. Qed.

  Lemma sched_files (c : call Or) w cuts k : core_cuts (Z.of_nat (c_n Or c)) (cor c) = Ok cuts ->
    Permutation (c_sched Or c) (seq 0 (cor c)) -> k < cor c ->
    match fold_left (finish_task Or c cuts w) (c_sched Or c) (files Or w) (CoreNpy k) with
    | Some v => left_behind (run_of Or c w 0) k (npy_slots Or w k) = FWhole v
    | None => left_behind (run_of Or c w 0) k (npy_slots Or w k) = FAbsent
    end.
  Proof.
    intros Ec P Hk. rewrite (tasks_files Or c cuts w Ec).
    destruct (in_dec Nat.eq_dec k (c_sched Or c)) as [I|I].
    2: { elim I. apply (Permutation_in _ (Permutation_sym P)). apply in_seq. lia. }
    rewrite (proj2 (Nat.ltb_lt _ _) Hk). unfold left_behind, npy_slots. simpl.
    destruct (worker_result Or c w k) as [v|e]; auto. destruct (files Or w (CoreNpy k)); auto.
  Qed.
  Lemma left_area (c : call Or) w a : left_behind (run_of Or c w a) = left_behind (run_of Or c w 0).
  Proof. reflexivity. Qed.

  Lemma sample_schedules (c : call Or) w a l o : 2 <= cor c ->
    Permutation (c_sched Or c) (seq 0 (cor c)) ->
    ends (run_of Or c w a) l (npy_slots Or w) o ->
    match o with
    | Returned vs => fst (multicore Or c w) = Ok (joined_files Or vs)
    | Raised e => fst (multicore Or c w) = Err e
    | Missing => fst (multicore Or c w) = Err FileNotFoundError
    | Unreadable => False
    end.
  Proof.
    intros C P H. apply ends_result in H; [|simpl; lia]. unfold result in H. simpl r_cores in H. simpl r_batch in H.
    destruct (core_cuts_ok (Z.of_nat (c_n Or c)) (cor c)) as [cuts Ec]; [lia|].
    unfold multicore. rewrite Ec. pose proof (parent_batch Or c w cuts Ec C) as PB.
    destruct (batch Or c cuts (pred (cor c)) (st Or w)) as [rb s1]. simpl in PB. subst rb.
    destruct (worker_result Or c w (pred (cor c))) as [v0|e0]; [|now subst].
    rewrite left_area in H.
    destruct H as [(vs & R & ->)|[(k & (K & _) & A & ->)|(k & (K & B & _) & A & ->)]].
    - destruct (collect_all Or (seq 0 (cor c)) (seq_NoDup _ _) []
        (fold_left (finish_task Or c cuts w) (c_sched Or c) (files Or w)) vs) as (fs' & E & _).
      + unfold reads in R.
        assert (X : Forall2 (fun k v => fold_left (finish_task Or c cuts w) (c_sched Or c) (files Or w) (CoreNpy k) = Some v) (seq 0 (cor c)) vs).
        { eapply forall2_imp; [|exact R]. cbv beta. intros k v Hk E. apply in_seq in Hk.
          pose proof (sched_files c w cuts k Ec P ltac:(lia)) as S. destruct (fold_left _ _ _ _); congruence. }
        intros i k Hi. exact (forall2_nth _ _ _ X i k Hi).
      + unfold reads in R. clear - R. induction R; simpl; congruence.
      + rewrite E. simpl. unfold joined_files. now rewrite joined_fold.
    - pose proof (sched_files c w cuts k Ec P K) as S. rewrite A in S.
      destruct (collect_missing Or (seq 0 (cor c)) [] (fold_left (finish_task Or c cuts w) (c_sched Or c) (files Or w)) k) as (fs' & E).
      + apply in_seq. lia.
      + destruct (fold_left _ _ _ _); [discriminate|auto].
      + rewrite E. reflexivity.
    - pose proof (sched_files c w cuts k Ec P K) as S. rewrite A in S. destruct (fold_left _ _ _ _); discriminate.
  Qed.
End Npy.

Section Msg.
  Variables S E Y : Type.
  Variable body : nat -> S -> res E * S.
  Variable wire : E -> res E.
  Notation q_cores := (q_cores S E Y).

  Lemma b_collect_bad ks : forall acc fs k, NoDup ks -> In k ks -> (forall l, fs k <> Some (Some l)) ->
    (forall j, In j ks -> j < k -> exists l, fs j = Some (Some l)) -> (forall j, In j ks -> j < k \/ k <= j) ->
    StronglySorted lt ks ->
    exists fs', b_collect E ks acc fs = (Err (match fs k with None => FileNotFoundError | Some _ => Unmodelled end), fs').
  Proof.
    induction ks as [|j ks IH]; intros acc fs k N I B F T SS; [destruct I|]. simpl.
    destruct (Nat.eq_dec j k) as [->|D].
    - destruct (fs k) as [[l|]|] eqn:Fk; eauto. destruct (B l eq_refl).
    - destruct I as [I|I]; [congruence|]. inversion SS as [|? ? SS' SF]; subst.
      rewrite Forall_forall in SF. destruct (F j (or_introl eq_refl) (SF k I)) as (l & ->).
      inversion N; subst.
      destruct (IH (acc ++ l)%list (upd_core fs j None) k) as (fs' & E'); auto.
      + intros l'. rewrite upd_core_ne by auto. apply B.
      + intros i Ii Li. rewrite upd_core_ne by (intros ->; contradiction). apply F; auto. now right.
      + intros i Ii. apply T. now right.
      + exists fs'. rewrite E'. rewrite upd_core_ne by auto. reflexivity.
  Qed.
  Lemma seq_sorted n : forall a, StronglySorted lt (seq a n).
  Proof.
    induction n; intros a; simpl; constructor; auto. apply Forall_forall. intros x H. apply in_seq in H. lia.
  Qed.

  Lemma net_schedules (c : bcall S E Y) f w a l o ws : 2 <= q_cores c -> all_finish S E Y c ->
    all_compute (brun_of S E Y body wire c f w a) ws ->
    ends (brun_of S E Y body wire c f w a) l (msg_slots S E w) o ->
    match o with
    | Returned vs => fst (generate S E Y body wire c f w) = Ok (concat vs)
    | Missing => fst (generate S E Y body wire c f w) = Err FileNotFoundError
    | Unreadable => fst (generate S E Y body wire c f w) = Err Unmodelled
    | Raised _ => False
    end.
  Proof.
    intros C AF W H. apply ends_result in H; [|simpl; lia].
    assert (C1 : 1 <= r_cores (brun_of S E Y body wire c f w a)) by (simpl; lia).
    destruct (compute_own _ ws C1 W) as (vp & Wp). unfold result in H. rewrite Wp in H.
    simpl in Wp, H. unfold all_compute in W. simpl in W.
    destruct (core_cuts_ok (Z.of_nat (q_n _ _ _ c)) (q_cores c)) as [cuts Ec]; [lia|].
    unfold generate. destruct (Nat.eqb_spec (q_cores c) 1); [lia|]. destruct (Nat.eqb_spec (q_cores c) 0); [lia|].
    rewrite Ec. assert (Hp : pred (q_cores c) < q_cores c) by lia.
    rewrite (b_batch_worker S E Y body c w f cuts _ Ec Hp).
    unfold bworker in Wp. replace (Datatypes.S (pred (q_cores c))) with (q_cores c) in Wp by lia. rewrite Nat.eqb_refl in Wp.
    destruct (gen S E body f _ (b_st _ _ w)) as [[lp|e] s1]; simpl in Wp; [|discriminate].
    rewrite Wp.
    set (fs := fold_left (b_finish S E Y body wire c f cuts w) (q_sched S E Y c) (b_core _ _ w)).
    assert (Fs : forall k, k < q_cores c -> match fs k with
        | Some (Some v) => left_behind (brun_of S E Y body wire c f w a) k (msg_slots S E w k) = FWhole v
        | Some None => left_behind (brun_of S E Y body wire c f w a) k (msg_slots S E w k) = FPart
        | None => left_behind (brun_of S E Y body wire c f w a) k (msg_slots S E w k) = FAbsent end).
    { intros k Hk. assert (Wk : exists v, bworker S E Y body wire c f w k = Ok v).
      { assert (I : In k (seq 0 (q_cores c))) by (apply in_seq; lia). clear - W I.
        induction W as [|j v js vs Hw F IH]; simpl in I; [contradiction|]. destruct I as [->|I]; eauto. }
      destruct Wk as (v & Wk). unfold fs. rewrite (b_tasks S E Y body wire c f cuts w Ec _ _ k v Hk Wk).
      unfold left_behind, msg_slots. simpl. destruct (b_core _ _ w k) as [[x|]|]; auto.
      destruct (in_dec Nat.eq_dec k (q_sched S E Y c)) as [|N]; [now rewrite Wk|]. elim N. now apply AF. }
    assert (G : fst (match b_core S E w (pred (q_cores c)), Ok vp : res (list E) with
              | None, Err e => (Err e, mkB S E s1 (b_mem _ _ w) (b_cache _ _ w) fs)
              | _, _ => let (r, fs') := b_collect E (seq 0 (q_cores c)) [] fs in (r, mkB S E s1 (b_mem _ _ w) (b_cache _ _ w) fs')
              end) = fst (b_collect E (seq 0 (q_cores c)) [] fs)).
    { destruct (b_core S E w (pred (q_cores c))); destruct (b_collect E _ _ _); reflexivity. }
    unfold bind in *.
    change (fst (match b_core S E w (pred (q_cores c)) with Some _ => let (r, fs') := b_collect E (seq 0 (q_cores c)) [] fs in (r, mkB S E s1 (b_mem _ _ w) (b_cache _ _ w) fs')
       | None => let (r, fs') := b_collect E (seq 0 (q_cores c)) [] fs in (r, mkB S E s1 (b_mem _ _ w) (b_cache _ _ w) fs') end) = fst (b_collect E (seq 0 (q_cores c)) [] fs)) in G.
    rewrite G. clear G.
    destruct H as [(vs & R & ->)|[(k & FB & A & ->)|(k & FB & A & ->)]].
    - destruct (b_collect_all S E body (seq 0 (q_cores c)) (seq_NoDup _ _) [] fs vs) as (fs' & -> & _); auto.
      eapply forall2_imp; [|exact R]. cbv beta. intros k v Hk Ev. apply in_seq in Hk. specialize (Fs k ltac:(lia)).
      destruct (fs k) as [[x|]|]; congruence.
    - destruct FB as (K & B & Nw). pose proof (Fs k K) as Fk. rewrite A in Fk.
      destruct (b_collect_bad (seq 0 (q_cores c)) [] fs k) as (fs' & ->); auto using seq_NoDup, seq_sorted.
      + apply in_seq. lia.
      + intros x Ex. rewrite Ex in Fk. discriminate.
      + intros j Ij Lj. apply in_seq in Ij. destruct (B j Lj) as (x & Ex). specialize (Fs j ltac:(lia)). rewrite Ex in Fs.
        destruct (fs j) as [[y|]|]; try discriminate. eauto.
      + intros j _. lia.
      + simpl. destruct (fs k) as [[x|]|]; try discriminate. reflexivity.
    - destruct FB as (K & B & Nw). pose proof (Fs k K) as Fk. rewrite A in Fk.
      destruct (b_collect_bad (seq 0 (q_cores c)) [] fs k) as (fs' & ->); auto using seq_NoDup, seq_sorted.
      + apply in_seq. lia.
      + intros x Ex. rewrite Ex in Fk. discriminate.
      + intros j Ij Lj. apply in_seq in Ij. destruct (B j Lj) as (x & Ex). specialize (Fs j ltac:(lia)). rewrite Ex in Fs.
        destruct (fs j) as [[y|]|]; try discriminate. eauto.
      + intros j _. lia.
      + simpl. destruct (fs k) as [[x|]|]; try discriminate. reflexivity.
  Qed.
End Msg.
