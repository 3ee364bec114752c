(** Lemmas about the cache part of [sample]. *)
From Verif Require Import Base M_Weights M_Pick M_Values M_Sampler M_SampleApi SpecSampler SpecCache P_Weights P_Sampler P_Clip P_Count P_Mixture.

Lemma upd_str_eq {A} (m : string -> option A) k v : upd_str m k v k = v.
Proof. unfold upd_str. now rewrite String.eqb_refl. Qed.
Lemma upd_str_ne {A} (m : string -> option A) k v k' : k' <> k -> upd_str m k v k' = m k'.
Proof. intros H. unfold upd_str. destruct (String.eqb_spec k' k); congruence. Qed.
Lemma fname_eqb_spec a b : reflect (a = b) (fname_eqb a b).
Proof.
  destruct a, b; simpl; try (constructor; congruence).
  - destruct (String.eqb_spec path path0); constructor; congruence.
  - destruct (Nat.eqb_spec core core0); constructor; congruence.
  - destruct (String.eqb_spec path path0); constructor; congruence.
  - destruct (Nat.eqb_spec core core0); constructor; congruence.
Qed.
Lemma upd_file_eq {A} (m : fname -> option A) k v : upd_file m k v k = v.
Proof. unfold upd_file. destruct (fname_eqb_spec k k); congruence. Qed.
Lemma upd_file_ne {A} (m : fname -> option A) k v k' : k' <> k -> upd_file m k v k' = m k'.
Proof. intros H. unfold upd_file. destruct (fname_eqb_spec k' k); congruence. Qed.

Section Cache.
  Variable Or : oracle.
  Notation world := (world Or).
  Notation call := (call Or).
  Notation sampleable := (sampleable Or).
  Notation file_wins := (file_wins Or).
  Notation memory_wins := (memory_wins Or).
  Notation reaches := (reaches Or).
  Notation no_reload_of := (no_reload_of Or).
  Notation keeps_file := (keeps_file Or).
  Implicit Types (c : call) (w : world).

  Lemma world_eta w : mkWorld Or (st Or w) (mem Or w) (files Or w) = w.
  Proof. destruct w; reflexivity. Qed.

  Lemma collect_mono ks : forall acc fs r fs' f, collect Or ks acc fs = (r, fs') ->
    (forall k, f <> CoreNpy k) -> fs' f = fs f.
  Proof.
    induction ks as [|k ks IH]; intros acc fs r fs' f H N; simpl in H.
    - now inversion H.
    - destruct (fs (CoreNpy k)) eqn:E; [|now inversion H].
      rewrite (IH _ _ _ _ _ H N). now apply upd_file_ne.
  Qed.
  Lemma tasks_other c cuts w l : forall fs f, (forall k, f <> CoreNpy k) ->
    fold_left (finish_task Or c cuts w) l fs f = fs f.
  Proof.
    induction l as [|k l IH]; intros fs f N; simpl; auto. rewrite (IH _ _ N). unfold finish_task.
    destruct (Nat.ltb k (c_cores Or c)); auto. destruct (fst _); auto. now apply upd_file_ne.
  Qed.

  Lemma multicore_mem c w r w1 : multicore Or c w = (r, w1) ->
    mem Or w1 = mem Or w /\ forall f, (forall k, f <> CoreNpy k) -> files Or w1 f = files Or w f.
  Proof.
    unfold multicore. destruct (core_cuts _ _) as [cuts|e]; [|intros H; inversion H; auto].
    destruct (batch _ _ _ _ _) as [[v|e] s1].
    - destruct (collect _ _ _ _) as [r' fs'] eqn:E. intros H; inversion H; subst; simpl. split; auto.
      intros f N. rewrite (collect_mono _ _ _ _ _ _ E N). now apply tasks_other.
    - intros H; inversion H; subst; simpl. split; auto. intros f N. now apply tasks_other.
  Qed.

  Lemma obtain_mem c w r w1 : obtain Or c w = (r, w1) ->
    mem Or w1 = mem Or w /\ forall f, (forall k, f <> CoreNpy k) -> files Or w1 f = files Or w f.
  Proof.
    unfold obtain. destruct (from_cache Or c w) as [[v|]|e]; try (intros H; inversion H; subst; auto; fail).
    destruct (Nat.ltb 1 (c_cores Or c)).
    - destruct (multicore Or c w) as [[v|e] w2] eqn:E; intros H; inversion H; subst; now apply multicore_mem in E.
    - destruct (smp _ _ _ _ _ _) as [r' s1]. intros H; inversion H; subst; auto.
  Qed.

  (** How a call may change the cache, and the files it may touch. *)
  Lemma call_mem c w r w' : sample_call Or c w = (r, w') ->
    (forall k, mem Or w' k = mem Or w k \/
       (k = c_key Or c /\ c_memcache Or c = true /\ (mem Or w k = None \/ c_reload Or c = true) /\
        exists v, r = Ok v /\ mem Or w' k = Some v)) /\
    (forall f, (forall k, f <> CoreNpy k) ->
       files Or w' f = files Or w f \/ exists p v, f = CacheNpy p /\ c_dump Or c = Some p /\ r = Ok v /\ files Or w' f = Some v).
  Proof.
    unfold sample_call. destruct (c_n Or c); [intros H; inversion H; auto|].
    destruct (c_obj Or c) as [x|g|d|]; try (intros H; inversion H; subst; auto; fail).
    all: destruct (obtain Or c w) as [[v|e] w1] eqn:E; intros H; inversion H; subst; clear H;
      apply obtain_mem in E as [E1 E2]; [|rewrite E1; auto].
    all: split; [intros k; simpl; rewrite E1 | intros f N; simpl].
    all: try (destruct (c_memcache Or c) eqn:M; simpl; auto;
      destruct (is_some (mem Or w (c_key Or c))) eqn:Em; simpl;
      [ destruct (c_reload Or c) eqn:R; auto;
        destruct (String.eqb_spec k (c_key Or c)) as [->|N];
          [right; repeat split; auto; exists v; split; auto; apply upd_str_eq | left; now apply upd_str_ne]
      | destruct (String.eqb_spec k (c_key Or c)) as [->|N];
          [right; repeat split; auto; [left; destruct (mem Or w (c_key Or c)); [discriminate|reflexivity]
                                      | exists v; split; auto; apply upd_str_eq]
          | left; now apply upd_str_ne]]).
    all: destruct (c_dump Or c) as [p|]; [|left; now apply E2];
      destruct (fname_eqb_spec f (CacheNpy p)) as [->|N'];
      [right; exists p, v; repeat split; auto; apply upd_file_eq
      |left; rewrite upd_file_ne by assumption; now apply E2].
  Qed.

  Lemma step_keeps k v w x : mem Or w k = Some v -> no_reload_of k x -> mem Or (run_action Or w x) k = Some v.
  Proof.
    intros H N. destruct x as [c|s fs]; simpl; auto.
    destruct (sample_call Or c w) as [r w'] eqn:E. destruct (call_mem c w r w' E) as [K _]. simpl.
    destruct (K k) as [->|(-> & M & [A|B] & _)]; auto; [congruence|].
    exfalso. apply N. auto.
  Qed.
  Lemma run_keeps k v h : forall w, mem Or w k = Some v -> Forall (no_reload_of k) h -> mem Or (run Or h w) k = Some v.
  Proof.
    induction h as [|x h IH]; intros w H F; auto. inversion F; subst. simpl. apply IH; auto. now apply step_keeps.
  Qed.

  Lemma step_file p v w x : files Or w (CacheNpy p) = Some v -> keeps_file p v x ->
    files Or (run_action Or w x) (CacheNpy p) = Some v.
  Proof.
    intros H N. destruct x as [c|s fs]; simpl; auto.
    destruct (sample_call Or c w) as [r w'] eqn:E. destruct (call_mem c w r w' E) as [_ K]. simpl.
    destruct (K (CacheNpy p)) as [->|(p' & v' & Ep & Ed & _)]; auto; [discriminate|].
    inversion Ep; subst. now elim N.
  Qed.
  Lemma run_file p v h : forall w, files Or w (CacheNpy p) = Some v -> Forall (keeps_file p v) h ->
    files Or (run Or h w) (CacheNpy p) = Some v.
  Proof.
    induction h as [|x h IH]; intros w H F; auto. inversion F; subst. simpl. apply IH; auto. now apply step_file.
  Qed.

  Lemma call_run c w : sampleable c ->
    sample_call Or c w = match obtain Or c w with
      | (Err e, w1) => (Err e, w1)
      | (Ok v, w1) => (Ok v, save Or c (is_some (mem Or w (c_key Or c))) v w1)
      end.
  Proof.
    intros [N NO]. unfold sample_call. destruct (c_n Or c) eqn:En; [lia|].
    destruct (c_obj Or c) eqn:Eo; try reflexivity. congruence.
  Qed.


  (** A hit in memory. *)
  Lemma memory_hit c w v : sampleable c -> c_memcache Or c = true -> c_reload Or c = false ->
    (the_file Or c w = None \/ c_primary Or c = false) ->
    mem Or w (c_key Or c) = Some v ->
    obtain Or c w = (apply_clips (c_lc Or c) (c_rc Or c) v, w).
  Proof.
    intros S M R F H. unfold obtain, from_cache. rewrite M, R, H, orb_true_r. simpl.
    destruct (the_file Or c w) as [u|] eqn:Ef; auto.
    destruct F as [F|F]; [discriminate|]. now rewrite F.
  Qed.
  Lemma plain_hit c w v : sampleable c -> c_memcache Or c = true -> c_reload Or c = false ->
    c_load Or c = None -> c_dump Or c = None -> c_lc Or c = None -> c_rc Or c = None ->
    mem Or w (c_key Or c) = Some v -> sample_call Or c w = (Ok v, w).
  Proof.
    intros S M R L D A B H. rewrite call_run by assumption. rewrite (memory_hit c w v); auto.
    2: { left. unfold the_file. now rewrite L. }
    rewrite A, B, H. simpl. unfold save. rewrite M, R, D. simpl. now rewrite world_eta.
  Qed.

  Lemma hit_after_history c w v h : sampleable c -> c_memcache Or c = true -> c_reload Or c = false ->
    c_load Or c = None -> c_dump Or c = None -> c_lc Or c = None -> c_rc Or c = None ->
    mem Or w (c_key Or c) = Some v -> Forall (no_reload_of (c_key Or c)) h ->
    sample_call Or c (run Or h w) = (Ok v, run Or h w).
  Proof. intros. apply plain_hit; auto. now apply run_keeps. Qed.

  (** Filling the cache. *)
  Lemma call_fills c w v w' : sample_call Or c w = (Ok v, w') -> c_memcache Or c = true ->
    mem Or w (c_key Or c) = None \/ c_reload Or c = true -> mem Or w' (c_key Or c) = Some v.
  Proof.
    intros H M R. unfold sample_call in H. destruct (c_n Or c); [discriminate|].
    destruct (c_obj Or c); try discriminate.
    all: destruct (obtain Or c w) as [[u|e] w1]; inversion H; subst; simpl; rewrite M; simpl;
      destruct R as [R|R]; rewrite R; simpl; rewrite ?orb_true_r; apply upd_str_eq.
  Qed.

  (** Provenance. *)
  Lemma provenance h w : reaches h w -> forall k v, mem Or w k = Some v ->
    exists h1 w1 c h2, h = h1 ++ Call Or c :: h2 /\ reaches h1 w1 /\ c_key Or c = k /\
      c_memcache Or c = true /\ fst (sample_call Or c w1) = Ok v.
  Proof.
    induction 1 as [w E|h w x R IH]; intros k v H; [rewrite E in H; discriminate|].
    destruct x as [c|s fs].
    - simpl in H. destruct (sample_call Or c w) as [r w'] eqn:Ec. simpl in H.
      destruct (call_mem c w r w' Ec) as [K _]. destruct (K k) as [K'|(-> & M & _ & u & -> & Hu)].
      + rewrite K' in H. destruct (IH k v H) as (h1 & w1 & c1 & h2 & -> & A & B & C & D).
        exists h1, w1, c1, (h2 ++ [Call Or c]). rewrite <- app_assoc. repeat split; auto.
      + exists h, w, c, []. repeat split; auto. rewrite Ec. simpl. congruence.
    - simpl in H. destruct (IH k v H) as (h1 & w1 & c1 & h2 & -> & A & B & C & D).
      exists h1, w1, c1, (h2 ++ [Outside Or s fs]). rewrite <- app_assoc. repeat split; auto.
  Qed.

  (** Precedence of the sources. *)
  Lemma source_file c w v : file_wins c w v -> from_cache Or c w = (do x <- np_load v; Ok (Some x)).
  Proof.
    intros (R & (p & L & F) & P). unfold from_cache, the_file. rewrite L, R, F. simpl.
    assert (negb (is_some (mem Or w (c_key Or c))) || c_primary Or c = true) as ->; auto.
    destruct P as [->| ->]; auto. apply orb_true_r.
  Qed.
  Lemma source_memory c w v : memory_wins c w v -> from_cache Or c w = Ok (Some v).
  Proof.
    intros (R & M & H & N). unfold from_cache. rewrite R, M, orb_true_r. simpl.
    rewrite H. destruct (the_file Or c w) as [u|] eqn:F; auto. simpl. destruct (c_primary Or c) eqn:P; auto.
    exfalso. apply (N u). split; auto. unfold the_file in F. destruct (c_load Or c) as [p|]; [|discriminate].
    split; eauto.
  Qed.
  Lemma source_none c w : (forall v, ~ file_wins c w v) -> (forall v, ~ memory_wins c w v) -> from_cache Or c w = Ok None.
  Proof.
    intros NF NM. unfold from_cache.
    destruct ((is_some (c_load Or c) || c_memcache Or c) && negb (c_reload Or c)) eqn:E; auto.
    apply andb_prop in E as [E R]. apply negb_true_iff in R.
    assert (KM : c_memcache Or c = true -> mem Or w (c_key Or c) = None).
    { intros M. destruct (mem Or w (c_key Or c)) as [v|] eqn:H; auto. exfalso. apply (NM v). repeat split; auto. }
    destruct (the_file Or c w) as [u|] eqn:F.
    - destruct (negb (is_some (mem Or w (c_key Or c))) || c_primary Or c) eqn:P.
      + exfalso. apply (NF u). unfold the_file in F. destruct (c_load Or c) as [p|] eqn:L; [|discriminate].
        split; auto. split; eauto. apply orb_prop in P as [P|P]; auto. left.
        destruct (mem Or w (c_key Or c)); [discriminate|auto].
      + destruct (c_memcache Or c); auto. now rewrite KM.
    - destruct (c_memcache Or c); auto. now rewrite KM.
  Qed.

  Lemma decide_source c w :
    (exists v, file_wins c w v) \/ (exists v, memory_wins c w v) \/
    ((forall v, ~ file_wins c w v) /\ (forall v, ~ memory_wins c w v)).
  Proof.
    assert (DF : (exists v, file_wins c w v) \/ forall v, ~ file_wins c w v).
    { destruct (c_reload Or c) eqn:R; [right; intros v (R' & _); congruence|].
      destruct (c_load Or c) as [p|] eqn:L; [|right; intros v (_ & (p & L' & _) & _); congruence].
      destruct (files Or w (CacheNpy p)) as [v|] eqn:F.
      - destruct (mem Or w (c_key Or c)) as [m|] eqn:M.
        + destruct (c_primary Or c) eqn:P.
          * left. exists v. repeat split; eauto.
          * right. intros u (_ & _ & [A|A]); congruence.
        + left. exists v. repeat split; eauto.
      - right. intros v (_ & (p' & L' & F') & _). assert (p' = p) by congruence; subst. congruence. }
    destruct DF as [DF|DF]; auto. right.
    destruct (c_reload Or c) eqn:R; [right; split; auto; intros v (R' & _); congruence|].
    destruct (c_memcache Or c) eqn:M; [|right; split; auto; intros v (_ & M' & _); congruence].
    destruct (mem Or w (c_key Or c)) as [v|] eqn:H.
    - left. exists v. repeat split; auto.
    - right; split; auto. intros v (_ & _ & H' & _); congruence.
  Qed.

  (** The whole call by source; only generation touches the generator. *)
  Lemma run_file_source c w v : sampleable c -> file_wins c w v -> Forall (fun x => x <> PNone) (enlist v) ->
    obtain Or c w = (apply_clips (c_lc Or c) (c_rc Or c) v, w).
  Proof.
    intros S F N. unfold obtain. rewrite (source_file c w v F). unfold np_load.
    assert (existsb is_none (enlist v) = false) as ->; [|reflexivity].
    clear -N. induction N as [|x l H N IH]; simpl; auto. rewrite IH. destruct x; auto; congruence.
  Qed.
  Lemma run_generate c w : sampleable c -> (c_cores Or c <= 1)%nat ->
    (forall v, ~ file_wins c w v) -> (forall v, ~ memory_wins c w v) ->
    obtain Or c w = (let (r, s1) := smp Or (c_obj Or c) (c_n Or c) (c_lc Or c) (c_rc Or c) (st Or w) in
                     (r, mkWorld Or s1 (mem Or w) (files Or w))).
  Proof.
    intros S C NF NM. unfold obtain. rewrite source_none by assumption.
    destruct (Nat.ltb_spec 1 (c_cores Or c)); [lia|reflexivity].
  Qed.
End Cache.
