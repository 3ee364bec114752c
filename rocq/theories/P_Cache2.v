(** The cache and multicore lemmas in the form of the listed properties. *)
From Verif Require Import Base M_Weights M_Pick M_Values M_Sampler M_SampleApi SpecSampler SpecCache
  P_Weights P_Pick P_Sampler P_Clip P_Count P_Mixture P_Cache P_Multicore.
From Coq Require Import Permutation.

Section Cache2.
  Variable Or : oracle.
  Notation world := (world Or).
  Notation call := (call Or).
  Notation steady := (steady Or).
  Implicit Types (c : call) (w : world).

  Lemma first_call_caches c w v w' : sample_call Or c w = (Ok v, w') -> c_memcache Or c = true ->
    mem Or w (c_key Or c) = None \/ c_reload Or c = true ->
    mem Or w' (c_key Or c) = Some v.
  Proof. apply call_fills. Qed.

  Lemma cache_hit c w v h : plain_memcache Or c -> mem Or w (c_key Or c) = Some v ->
    Forall (no_reload_of Or (c_key Or c)) h ->
    sample_call Or c (run Or h w) = (Ok v, run Or h w).
  Proof. intros (S & M & R & L & D & A & B) H F. now apply hit_after_history. Qed.

  (** One call applied to what a given source delivers. *)
  Lemma call_of_obtain c w r : sampleable Or c -> obtain Or c w = (r, w) ->
    fst (sample_call Or c w) = r /\ st Or (snd (sample_call Or c w)) = st Or w.
  Proof. intros S E. rewrite call_run by assumption. rewrite E. destruct r; simpl; auto. Qed.

  Lemma from_file c w v : sampleable Or c -> file_wins Or c w v -> Forall (fun x => x <> PNone) (elems v) ->
    fst (sample_call Or c w) = apply_clips (c_lc Or c) (c_rc Or c) v /\
    st Or (snd (sample_call Or c w)) = st Or w.
  Proof. intros S F N. apply call_of_obtain; auto. apply run_file_source; auto. Qed.
  Lemma from_memory c w v : sampleable Or c -> memory_wins Or c w v ->
    fst (sample_call Or c w) = apply_clips (c_lc Or c) (c_rc Or c) v /\
    st Or (snd (sample_call Or c w)) = st Or w.
  Proof.
    intros S M. apply call_of_obtain; auto. unfold obtain. now rewrite (source_memory Or c w v M).
  Qed.
  Lemma from_sampler c w : sampleable Or c -> (c_cores Or c <= 1)%nat ->
    (forall v, ~ file_wins Or c w v) -> (forall v, ~ memory_wins Or c w v) ->
    (fst (sample_call Or c w), st Or (snd (sample_call Or c w))) =
    smp Or (c_obj Or c) (c_n Or c) (c_lc Or c) (c_rc Or c) (st Or w).
  Proof.
    intros S C NF NM. rewrite call_run by assumption. rewrite run_generate by assumption.
    destruct (smp _ _ _ _ _ _) as [[v|e] s1]; reflexivity.
  Qed.

  Lemma hit_clamps c w v r w' : sampleable Or c -> memory_wins Or c w v -> sample_call Or c w = (Ok r, w') ->
    Forall2 (clamped (q_of (c_lc Or c)) (q_of (c_rc Or c))) (elems v) (elems r).
  Proof.
    intros S M H. destruct (from_memory c w v S M) as [E _]. rewrite H in E. simpl in E.
    apply clips_clamped. now symmetry.
  Qed.

  Lemma round_trip c1 w v w1 p h c2 : sample_call Or c1 w = (Ok v, w1) -> c_dump Or c1 = Some p ->
    Forall (keeps_file Or p v) h ->
    sampleable Or c2 -> c_load Or c2 = Some p -> c_primary Or c2 = true -> c_reload Or c2 = false ->
    c_lc Or c2 = None -> c_rc Or c2 = None ->
    Forall (fun x => x <> PNone) (elems v) ->
    fst (sample_call Or c2 (run Or h w1)) = Ok v /\
    st Or (snd (sample_call Or c2 (run Or h w1))) = st Or (run Or h w1).
  Proof.
    intros H D F S L P R A B N.
    assert (K : files Or w1 (CacheNpy p) = Some v).
    { unfold sample_call in H. destruct (c_n Or c1); [discriminate|]. destruct (c_obj Or c1); try discriminate.
      all: destruct (obtain Or c1 w) as [[u|e] w2]; inversion H; subst; simpl; rewrite D; apply upd_file_eq. }
    apply (run_file Or p v h) in K; auto.
    destruct (from_file c2 (run Or h w1) v S) as [E1 E2]; auto.
    - split; auto. split; eauto.
    - rewrite E1, A, B. split; [reflexivity|exact E2].
  Qed.

  Lemma reload_fresh c w v w' : sampleable Or c -> (c_cores Or c <= 1)%nat -> c_memcache Or c = true -> c_reload Or c = true ->
    sample_call Or c w = (Ok v, w') ->
    smp Or (c_obj Or c) (c_n Or c) (c_lc Or c) (c_rc Or c) (st Or w) = (Ok v, st Or w') /\
    mem Or w' (c_key Or c) = Some v /\ forall k, k <> c_key Or c -> mem Or w' k = mem Or w k.
  Proof.
    intros S C M R H. split; [|split].
    - rewrite <- from_sampler; auto; [now rewrite H| |]; intros u (R' & _); congruence.
    - eapply call_fills; eauto.
    - intros k N. destruct (call_mem Or c w _ _ H) as [K _]. destruct (K k) as [E|(E & _)]; congruence.
  Qed.

  (** n on a cached call. *)
  Lemma n_apply_clips n lc rc v r : n_samples n v -> apply_clips lc rc v = Ok r -> n_samples n r.
  Proof.
    intros H E. unfold apply_clips in E. apply bind_ok in E as (m & E1 & E2).
    eapply n_rclip; [|eassumption]. eapply n_lclip; eauto.
  Qed.
  Lemma steady_call (RL : right_length Or) c w v w' : covered (c_obj Or c) -> (c_cores Or c <= 1)%nat -> c_load Or c = None ->
    (forall u, mem Or w (c_key Or c) = Some u -> n_samples (c_n Or c) u) ->
    sample_call Or c w = (Ok v, w') -> n_samples (c_n Or c) v.
  Proof.
    intros Cv C L I H.
    assert (S : sampleable Or c).
    { unfold sample_call in H. unfold sampleable. destruct (c_n Or c); [discriminate|]. split; [lia|].
      intros E. rewrite E in H. discriminate. }
    destruct (decide_source Or c w) as [(u & F)|[(u & M)|[NF NM]]].
    - destruct F as (_ & (p & E & _) & _). congruence.
    - destruct (from_memory c w u S M) as [E _]. rewrite H in E. simpl in E. symmetry in E.
      eapply n_apply_clips; [|exact E]. apply I. apply M.
    - pose proof (from_sampler c w S C NF NM) as E. rewrite H in E. simpl in E. symmetry in E.
      eapply (sample_count Or RL); eauto.
  Qed.
  Lemma steady_history (RL : right_length Or) h w k n : reaches Or h w -> Forall (steady k n) h ->
    forall v, mem Or w k = Some v -> n_samples n v.
  Proof.
    induction 1 as [w E|h w x R IH]; intros F v H; [rewrite E in H; discriminate|].
    apply Forall_app in F as [F1 F2]. inversion F2 as [|? ? X _]; subst. specialize (IH F1).
    destruct x as [c|s fs]; simpl in H; [|now apply IH].
    destruct (sample_call Or c w) as [r w'] eqn:Ec. simpl in H.
    destruct (call_mem Or c w r w' Ec) as [K _]. destruct (K k) as [E|(-> & _ & _ & u & -> & Hu)]; [apply IH; congruence|].
    simpl in X. destruct (X eq_refl) as (Cv & En & C & L). subst n.
    assert (u = v) by congruence. subst u.
    eapply (steady_call RL c w v w'); eauto.
  Qed.
  Lemma cached_n (RL : right_length Or) h w c v w' : reaches Or h w -> Forall (steady (c_key Or c) (c_n Or c)) (h ++ [Call Or c]) ->
    sample_call Or c w = (Ok v, w') -> n_samples (c_n Or c) v.
  Proof.
    intros R F H. apply Forall_app in F as [F1 F2]. inversion F2 as [|? ? X _]; subst. simpl in X.
    destruct (X eq_refl) as (Cv & _ & C & L). eapply (steady_call RL); eauto.
    intros u E. eapply steady_history; eauto.
  Qed.

  (** Multicore, without clips on the call: exact result. *)
  Lemma multicore_result c w vs : uncached_multicore Or c ->
    Permutation (c_sched Or c) (seq 0 (c_cores Or c)) ->
    length vs = c_cores Or c ->
    (forall k v, nth_error vs k = Some v -> worker_result Or c w k = Ok v) ->
    Forall (fun v => Forall numeric_pv (elems v)) vs ->
    fst (sample_call Or c w) =
      apply_clips (c_lc Or c) (c_rc Or c) (Arr (map as_float (concat (map elems vs)))) /\
    (forall k, files Or (snd (sample_call Or c w)) (CoreNpy k) =
       if Nat.ltb k (c_cores Or c) then None else files Or w (CoreNpy k)).
  Proof.
    intros U P L W N.
    assert (EE : map elems vs = map enlist vs) by (apply map_ext; intros []; reflexivity).
    destruct (multicore_ok Or c w vs U P L W) as (s1 & fs' & E & F1 & F2).
    rewrite joined_numeric in E; auto.
    rewrite EE. simpl in E. rewrite call_run by apply U. rewrite E.
    destruct (apply_clips _ _ _) as [r|e]; simpl.
    - split; auto. intros k. destruct (c_dump Or c); [rewrite upd_file_ne by congruence|]; apply F1.
    - split; auto.
  Qed.
  Lemma multicore_count (RL : right_length Or) c w vs r w' : uncached_multicore Or c -> covered (c_obj Or c) ->
    Permutation (c_sched Or c) (seq 0 (c_cores Or c)) ->
    length vs = c_cores Or c ->
    (forall k v, nth_error vs k = Some v -> worker_result Or c w k = Ok v) ->
    sample_call Or c w = (Ok r, w') -> c_lc Or c = None -> c_rc Or c = None ->
    length (elems r) = c_n Or c.
  Proof.
    intros U Cv P L W H A B.
    destruct (multicore_ok Or c w vs U P L W) as (s1 & fs' & E & _).
    rewrite call_run in H by apply U. rewrite E, A, B in H. cbn in H. injection H as <- _. simpl.
    rewrite joined_length. simpl. eapply joined_count; eauto. apply U.
  Qed.
  (** The order in which workers finish and the leftovers do not matter. *)
  Lemma multicore_order c c' w w' vs : uncached_multicore Or c ->
    c_obj Or c' = c_obj Or c -> c_n Or c' = c_n Or c -> c_cores Or c' = c_cores Or c -> c_starts Or c' = c_starts Or c ->
    c_lc Or c' = c_lc Or c -> c_rc Or c' = c_rc Or c -> st Or w' = st Or w -> uncached_multicore Or c' ->
    Permutation (c_sched Or c) (seq 0 (c_cores Or c)) ->
    Permutation (c_sched Or c') (seq 0 (c_cores Or c)) ->
    length vs = c_cores Or c ->
    (forall k v, nth_error vs k = Some v -> worker_result Or c w k = Ok v) ->
    fst (sample_call Or c' w') = fst (sample_call Or c w).
  Proof.
    intros U Eo En Ec Es El Er Ew U' P P' L W.
    destruct (multicore_ok Or c w vs U P L W) as (s1 & fs1 & E & _).
    destruct (multicore_ok Or c' w' vs U') as (s2 & fs2 & E' & _).
    - now rewrite Ec.
    - now rewrite Ec.
    - intros k v H. rewrite <- (W k v H). unfold worker_result. now rewrite Eo, En, Ec, Es, El, Er, Ew.
    - rewrite !call_run by (apply U || apply U'). rewrite E, E', El, Er.
      destruct (apply_clips _ _ _); reflexivity.
  Qed.
End Cache2.
Lemma existing_file_used Or (c : call Or) w p v : sampleable Or c -> c_load Or c = Some p -> files Or w (CacheNpy p) = Some v ->
  c_reload Or c = false -> Forall (fun x => x <> PNone) (elems v) ->
  mem Or w (c_key Or c) = None \/ c_primary Or c = true \/ c_memcache Or c = true ->
  exists u, (u = v \/ mem Or w (c_key Or c) = Some u /\ c_primary Or c = false) /\
    fst (sample_call Or c w) = apply_clips (c_lc Or c) (c_rc Or c) u /\ st Or (snd (sample_call Or c w)) = st Or w.
Proof.
  intros S L F R N H.
  destruct (mem Or w (c_key Or c)) as [u|] eqn:M.
  2: { exists v. split; [auto|]. apply from_file; auto. split; auto. split; eauto. }
  destruct (c_primary Or c) eqn:P.
  { exists v. split; [auto|]. apply from_file; auto. split; auto. split; eauto. }
  exists u. split; [auto|]. destruct H as [H|[H|H]]; try discriminate.
  apply from_memory; auto. split; auto. split; auto. split; auto. intros u' (_ & _ & [E|E]); congruence.
Qed.
Lemma existing_file_ignored Or (c : call Or) w u : sampleable Or c -> (c_cores Or c <= 1)%nat -> mem Or w (c_key Or c) = Some u ->
  c_primary Or c = false -> c_memcache Or c = false ->
  (fst (sample_call Or c w), st Or (snd (sample_call Or c w))) =
  smp Or (c_obj Or c) (c_n Or c) (c_lc Or c) (c_rc Or c) (st Or w).
Proof.
  intros S C M P K. apply from_sampler; auto.
  - intros v (_ & _ & [E|E]); congruence.
  - intros v (_ & E & _); congruence.
Qed.
