(** Lemmas about [bayesnet]. *)
From Coq Require Import Permutation.
From Verif Require Import Base M_Weights M_Pick M_Values M_Sampler M_SampleApi M_Bayesnet SpecWeights SpecSampler SpecCache SpecBayes
  P_Weights P_Pick P_Cache P_Multicore.
Open Scope Q_scope.

(** * Means of booleans *)
Arguments as_num : simpl never.
Definition b2q (b : bool) : Q := if b then 1 else 0.


Lemma mapM_bools {A} (p : A -> bool) l :
  exists qs, mapM as_num (map (fun e => PBool (p e)) l) = Ok (map Fin qs) /\
    Forall2 (fun q e => q == b2q (p e)) qs l.
Proof.
  induction l as [|x l (qs & E & F)]; simpl.
  - exists []. split; [reflexivity|constructor].
  - exists (inject_Z (b2z (p x)) :: qs). split; [|constructor; auto; now destruct (p x)].
    rewrite E. reflexivity.
Qed.

Lemma fold_fin qs a : exists q, fold_left xadd (map Fin qs) (Fin a) = Fin q /\ q == a + total qs.
Proof.
  revert a; induction qs as [|x qs IH]; intros a; simpl.
  - exists a. split; [reflexivity|simpl; ring].
  - destruct (IH (a + x)) as (q & E & H).
    exists q. split; [exact E|]. rewrite H. simpl. ring.
Qed.

Lemma total_bools {A} (p : A -> bool) qs l : Forall2 (fun q e => q == b2q (p e)) qs l ->
  total qs == inject_Z (Z.of_nat (count p l)).
Proof.
  induction 1 as [|q x qs l H F IH]; simpl; [reflexivity|].
  rewrite IH, H, Nat2Z.inj_add, inject_Z_plus. unfold b2q. destruct (p x); reflexivity.
Qed.

Lemma xdiv_fin a n : (0 < n)%nat -> exists q, xdiv (Fin a) (Fin (inject_Z (Z.of_nat n))) = Fin q /\
  q == a / inject_Z (Z.of_nat n).
Proof.
  intros H. unfold xdiv.
  assert (Z : Qeq_bool (inject_Z (Z.of_nat n)) 0 = false).
  { destruct (Qeq_bool _ 0) eqn:E; auto. apply Qeq_bool_eq in E. unfold Qeq, inject_Z in E. simpl in E. lia. }
  rewrite ?Z. eexists; split; [reflexivity|]. reflexivity || apply Qred_correct.
Qed.

Lemma mean_bools {A} (p : A -> bool) l : l <> [] ->
  exists q, np_mean (map (fun e => PBool (p e)) l) = Ok (PFlt (Fin q)) /\
    q == inject_Z (Z.of_nat (count p l)) / inject_Z (Z.of_nat (length l)).
Proof.
  intros H. unfold np_mean. destruct (mapM_bools p l) as (qs & -> & F). simpl bind.
  destruct (fold_fin qs 0) as (s & -> & Hs). rewrite map_length.
  destruct (xdiv_fin s (length l)) as (q & -> & Hq); [destruct l; simpl; [congruence|lia]|].
  exists q. split; [reflexivity|]. rewrite Hq, Hs, (total_bools p qs l F). rewrite Qplus_0_l. reflexivity.
Qed.

Lemma count_filter {A} (p g : A -> bool) l : count p (filter g l) = count (fun x => g x && p x) l.
Proof. induction l as [|x l IH]; simpl; auto. destruct (g x); simpl; rewrite <- IH; reflexivity. Qed.
Lemma length_filter {A} (g : A -> bool) l : length (filter g l) = count g l.
Proof. induction l as [|x l IH]; simpl; auto. destruct (g x); simpl; auto. Qed.
Lemma count_and_le {A} (p g : A -> bool) l : (count (fun x => g x && p x) l <= count g l)%nat.
Proof. induction l as [|x l IH]; simpl; [lia|]. destruct (g x), (p x); simpl; lia. Qed.

Lemma fraction_range {A} (p g : A -> bool) l : (0 < count g l)%nat -> 0 <= fraction p g l /\ fraction p g l <= 1.
Proof.
  intros H. unfold fraction. pose proof (count_and_le p g l) as L.
  assert (P : 0 < inject_Z (Z.of_nat (count g l))) by (change 0 with (inject_Z 0); rewrite <- Zlt_Qlt; lia).
  split.
  - apply Qle_shift_div_l; auto. rewrite Qmult_0_l. change 0 with (inject_Z 0). rewrite <- Zle_Qle. lia.
  - apply Qle_shift_div_r; auto. rewrite Qmult_1_l. rewrite <- Zle_Qle. lia.
Qed.

Lemma mapM_ok {A B} (g : A -> B) l : mapM (fun x => Ok (g x)) l = Ok (map g l).
Proof. induction l as [|x l IH]; simpl; auto. rewrite IH. reflexivity. Qed.

(** * Running [event_fn] *)
Section Net.
  Variables S E Y : Type.
  Variable body : nat -> S -> res E * S.
  Variable wire : E -> res E.
  Notation bworld := (bworld S E).
  Notation bcall := (bcall S E Y).
  Notation gen := (gen S E body).
  Notation q_fn := (q_fn S E Y). Notation q_n := (q_n S E Y). Notation q_cores := (q_cores S E Y).
  Notation q_dump := (q_dump S E Y). Notation q_load := (q_load S E Y). Notation q_reload := (q_reload S E Y).
  Notation q_primary := (q_primary S E Y).
  Notation b_mem := (b_mem S E). Notation b_st := (b_st S E). Notation b_core := (b_core S E).
  Notation b_cache := (b_cache S E).
  Notation loads := (loads S E Y). Notation saves := (saves S E Y).
  Notation bayesnet := (bayesnet S E Y body wire).
  Notation analyse := (analyse S E Y).
  Implicit Types (c : bcall) (w : bworld).

  Lemma gen_calls f k : forall s es s', gen f k s = (Ok es, s') -> calls S E body f s es s' /\ length es = k.
  Proof.
    induction k as [|k IH]; intros s es s' H; simpl in H.
    - inversion H; subst. split; [constructor|reflexivity].
    - destruct (body f s) as [[x|e] s1] eqn:B; [|discriminate].
      destruct (gen f k s1) as [[xs|e] s2] eqn:G; [|discriminate]. inversion H; subst.
      destruct (IH _ _ _ G) as [C L]. split; [econstructor; eauto|simpl; congruence].
  Qed.

  Lemma calls_gen f s es s' : calls S E body f s es s' -> gen f (length es) s = (Ok es, s').
  Proof. induction 1 as [|s x s1 es s2 B C IH]; simpl; auto. rewrite B, IH. reflexivity. Qed.


  (** * Sources *)
  Lemma uncached_source c w : uncached S E Y c w -> b_source S E Y c w = Ok None.
  Proof.
    intros (L & H). unfold b_source, b_file. rewrite L. destruct (q_reload c); auto.
    destruct H as [H|[H|H]]; [discriminate|now rewrite H|rewrite H; now destruct (loads c)].
  Qed.

  Definition outcome c es w1 (had : bool) : res (out E Y) * bworld :=
    match save_file S E Y wire c es (save_mem S E Y c had es w1) with
    | (Err e, w2) => (Err e, w2)
    | (Ok _, w2) => (analyse c es, w2)
    end.

  Lemma nodump_outcome c es w1 had : q_dump c = None ->
    outcome c es w1 had = (analyse c es, save_mem S E Y c had es w1).
  Proof. intros H. unfold outcome, save_file. rewrite H. reflexivity. Qed.

  Lemma bayesnet_uncached c w f : q_fn c = Some f -> uncached S E Y c w ->
    bayesnet c w =
      match generate S E Y body wire c f w with
      | (Err e, w1) => (Err e, w1)
      | (Ok es, w1) => outcome c es w1 (is_some (b_mem w (q_fn c)))
      end.
  Proof.
    intros F U. unfold M_Bayesnet.bayesnet, events_of. rewrite uncached_source by assumption.
    rewrite F. destruct (generate S E Y body wire c f w) as [[es|e] w1]; reflexivity.
  Qed.

  Lemma single_core c w f es s' : q_cores c = 1%nat -> calls S E body f (b_st w) es s' -> length es = q_n c ->
    generate S E Y body wire c f w = (Ok es, mkB S E s' (b_mem w) (b_cache w) (b_core w)).
  Proof.
    intros C H L. unfold generate. rewrite C. simpl. rewrite <- L, (calls_gen _ _ _ _ H). reflexivity.
  Qed.

  (** * Rejection sampling *)
  Lemma keep_total (p : E -> bool) l : keep E (fun e => Ok (p e)) l = Ok (filter p l).
  Proof. induction l as [|x l IH]; simpl; auto. rewrite IH. simpl. reflexivity. Qed.

  Lemma analyse_asks c find given es : asks S E Y c find given ->
    (count given es = 0%nat -> analyse c es = Err (ValueError "insufficient samples for condition")) /\
    ((0 < count given es)%nat -> exists q, analyse c es = Ok (OMean E Y (PFlt (Fin q))) /\
       q == fraction find given es).
  Proof.
    intros (F & C & R & W). unfold M_Bayesnet.analyse. rewrite C, keep_total. simpl bind.
    rewrite <- !length_filter. split.
    - intros H. destruct (filter given es); [reflexivity|discriminate].
    - intros H. destruct (mean_bools find (filter given es)) as (q & M & Hq).
      { intros N. rewrite N in H. simpl in H. lia. }
      exists q. split.
      + destruct (filter given es) eqn:FE; [simpl in H; lia|]. rewrite <- FE in *.
        rewrite F, mapM_ok. simpl bind. rewrite W, R, M. reflexivity.
      + rewrite Hq. unfold fraction. rewrite count_filter, length_filter. reflexivity.
  Qed.

  Lemma rejection c w f find given es s' :
    q_fn c = Some f -> asks S E Y c find given -> q_cores c = 1%nat -> q_dump c = None -> uncached S E Y c w ->
    calls S E body f (b_st w) es s' -> length es = q_n c ->
    b_st (snd (bayesnet c w)) = s' /\
    (count given es = 0%nat -> fst (bayesnet c w) = Err (ValueError "insufficient samples for condition")) /\
    ((0 < count given es)%nat -> exists q, fst (bayesnet c w) = Ok (OMean E Y (PFlt (Fin q))) /\
       q == fraction find given es /\ 0 <= q /\ q <= 1).
  Proof.
    intros F A C D U K L. rewrite (bayesnet_uncached c w f F U), (single_core c w f es s' C K L), nodump_outcome by assumption.
    destruct (analyse_asks c find given es A) as [Z P]. simpl fst. simpl snd.
    split; [reflexivity|]. split; auto. intros H. destruct (P H) as (q & E1 & E2). exists q.
    split; auto. split; auto. rewrite E2. apply fraction_range. assumption.
  Qed.

  Lemma rejection_inv c w f o : q_fn c = Some f -> q_cores c = 1%nat -> uncached S E Y c w ->
    fst (bayesnet c w) = Ok o ->
    exists es, calls S E body f (b_st w) es (b_st (snd (bayesnet c w))) /\ length es = q_n c /\ analyse c es = Ok o.
  Proof.
    intros F C U. rewrite (bayesnet_uncached c w f F U). unfold generate. rewrite C. simpl Nat.eqb. cbv iota.
    destruct (gen f (q_n c) (b_st w)) as [[es|e] s1] eqn:G; [|discriminate].
    apply gen_calls in G. destruct G as [K L]. unfold outcome, save_file.
    destruct (q_dump c) as [p|]; [destruct (mapM wire es)|]; simpl; intros H; try discriminate; exists es; auto.
  Qed.

  Lemma fresh_events c w f es : q_fn c = Some f -> q_cores c = 1%nat -> uncached S E Y c w -> plain_events S E Y c ->
    fst (bayesnet c w) = Ok (OEvents E Y es) -> length es = q_n c.
  Proof.
    intros F C U (P1 & P2 & P3) H. destruct (rejection_inv c w f _ F C U H) as (l & _ & L & A).
    unfold M_Bayesnet.analyse in A. rewrite P1, P2, P3 in A. simpl in A. destruct l; [discriminate|]. inversion A. subst. assumption.
  Qed.

  (** An event function that raises on some call makes the whole call raise that. *)
  Lemma event_raises c w f es s1 e s2 : q_fn c = Some f -> q_cores c = 1%nat -> uncached S E Y c w ->
    calls S E body f (b_st w) es s1 -> (length es < q_n c)%nat -> body f s1 = (Err e, s2) ->
    bayesnet c w = (Err e, mkB S E s2 (b_mem w) (b_cache w) (b_core w)).
  Proof.
    intros F C U K L B. rewrite (bayesnet_uncached c w f F U). unfold generate. rewrite C. simpl Nat.eqb. cbv iota.
    assert (G : forall n s, calls S E body f s es s1 -> (length es < n)%nat -> gen f n s = (Err e, s2)).
    { clear L K. induction es as [|x es IH]; intros n s K L.
      - inversion K; subst. destruct n; [simpl in L; lia|]. simpl. rewrite B. reflexivity.
      - inversion K; subst. destruct n; [simpl in L; lia|]. simpl.
        match goal with H : body f s = _ |- _ => rewrite H end.
        rewrite (IH n _) by (auto; simpl in L; lia). reflexivity. }
    rewrite (G _ _ K L). reflexivity.
  Qed.

  (** * The in-memory cache *)
  Lemma key_eqb_spec a b : reflect (a = b) (key_eqb a b).
  Proof.
    destruct a, b; simpl; try (constructor; congruence).
    destruct (Nat.eqb_spec n n0); constructor; congruence.
  Qed.
  Lemma upd_key_eq {A} m k (v : option A) : upd_key m k v k = v.
  Proof. unfold upd_key. destruct (key_eqb_spec k k); congruence. Qed.
  Lemma upd_key_ne {A} m k k' (v : option A) : k' <> k -> upd_key m k v k' = m k'.
  Proof. intros. unfold upd_key. destruct (key_eqb_spec k' k); congruence. Qed.

  Lemma generate_mem c f w : b_mem (snd (generate S E Y body wire c f w)) = b_mem w /\
    b_cache (snd (generate S E Y body wire c f w)) = b_cache w.
  Proof.
    unfold generate. destruct (Nat.eqb (q_cores c) 1).
    { destruct (gen f (q_n c) (b_st w)) as [r s1]; simpl; auto. }
    destruct (Nat.eqb (q_cores c) 0); auto.
    destruct (core_cuts _ _) as [cuts|e]; auto.
    destruct (b_batch S E Y body c f cuts _ (b_st w)) as [[l|e] s1]; simpl; auto.
    destruct (b_collect E _ _ _) as [r fs'].
    destruct (b_core w (pred (q_cores c))); destruct (mapM wire l); simpl; auto.
  Qed.

  Lemma events_of_mem c w : b_mem (snd (events_of S E Y body wire c w)) = b_mem w /\
    b_cache (snd (events_of S E Y body wire c w)) = b_cache w.
  Proof.
    unfold events_of. destruct (b_source S E Y c w) as [[[es m]|]|e]; auto.
    - destruct (Nat.ltb m (q_n c)); auto.
    - destruct (q_fn c) as [f|]; auto. pose proof (generate_mem c f w) as G.
      destruct (generate S E Y body wire c f w) as [[es|e] w1]; auto.
  Qed.

  Lemma save_file_mem c es w : b_mem (snd (save_file S E Y wire c es w)) = b_mem w.
  Proof. unfold save_file. destruct (q_dump c); auto. destruct (mapM wire es); auto. Qed.

  Lemma bayesnet_mem_other c w k : q_fn c <> k -> b_mem (snd (bayesnet c w)) k = b_mem w k.
  Proof.
    intros N. unfold M_Bayesnet.bayesnet. pose proof (events_of_mem c w) as [M _].
    destruct (events_of S E Y body wire c w) as [[[es|]|e] w1]; simpl in M; try (simpl; congruence).
    pose proof (save_file_mem c es (save_mem S E Y c (is_some (b_mem w (q_fn c))) es w1)) as SM.
    destruct (save_file S E Y wire c es _) as [[u|e] w2]; simpl in *; rewrite SM; simpl;
      destruct (saves c && _); rewrite ?upd_key_ne by congruence; congruence.
  Qed.

  Lemma bayesnet_mem_kept c w : b_mem w (q_fn c) <> None -> ~ (saves c = true /\ q_reload c = true) ->
    b_mem (snd (bayesnet c w)) (q_fn c) = b_mem w (q_fn c).
  Proof.
    intros N R. unfold M_Bayesnet.bayesnet. pose proof (events_of_mem c w) as [M _].
    destruct (events_of S E Y body wire c w) as [[[es|]|e] w1]; simpl in M; try (simpl; congruence).
    pose proof (save_file_mem c es (save_mem S E Y c (is_some (b_mem w (q_fn c))) es w1)) as SM.
    destruct (b_mem w (q_fn c)) as [r|] eqn:B; [|congruence].
    destruct (save_file S E Y wire c es _) as [[u|e] w2]; simpl in *; rewrite SM; simpl;
      destruct (saves c), (q_reload c); simpl; try congruence; exfalso; apply R; auto.
  Qed.

  Lemma entry_kept k r h : Forall (leaves_alone S E Y k) h -> forall w, b_mem w k = Some r ->
    b_mem (brun S E Y body wire h w) k = Some r.
  Proof.
    induction 1 as [|x h L F IH]; intros w M; simpl; auto. apply IH.
    destruct x as [c|s cf co|k' es]; simpl in *; auto.
    - destruct (key_eqb_spec (q_fn c) k) as [Ek|N].
      + subst k. rewrite bayesnet_mem_kept; [assumption|congruence|]. intros [A B]. apply L. auto.
      + rewrite bayesnet_mem_other; auto.
    - destruct (b_mem w k') as [[l m]|]; auto. simpl. rewrite upd_key_ne; auto.
  Qed.

  Lemma default_loads c : default_caching S E Y c -> loads c = true /\ saves c = true /\ q_reload c = false /\
    q_dump c = None /\ q_load c = None.
  Proof. intros (M & R & D & L). unfold M_Bayesnet.loads, M_Bayesnet.saves. rewrite M. auto. Qed.

  Lemma bworld_eta w : mkB S E (b_st w) (b_mem w) (b_cache w) (b_core w) = w.
  Proof. destruct w; reflexivity. Qed.

  Lemma cache_hit c w es m : default_caching S E Y c -> b_mem w (q_fn c) = Some (es, m) ->
    ((q_n c <= m)%nat -> bayesnet c w = (analyse c es, w)) /\
    ((m < q_n c)%nat -> bayesnet c w = (Err (ValueError "insufficient samples"), w)).
  Proof.
    intros H M. apply default_loads in H. destruct H as (L & SV & R & D & F).
    assert (B : b_source S E Y c w = Ok (Some (es, m))).
    { unfold b_source, b_file. rewrite R, F, L, M. reflexivity. }
    unfold M_Bayesnet.bayesnet, events_of. rewrite B. split; intros Hn.
    - destruct (Nat.ltb_spec m (q_n c)); [lia|]. unfold save_mem, save_file. rewrite D, M, R.
      simpl is_some. rewrite andb_false_r. rewrite bworld_eta. reflexivity.
    - destruct (Nat.ltb_spec m (q_n c)); [reflexivity|lia].
  Qed.

  Lemma first_call c w f es s' : default_caching S E Y c -> q_fn c = Some f -> q_cores c = 1%nat ->
    b_mem w (Some f) = None -> calls S E body f (b_st w) es s' -> length es = q_n c ->
    bayesnet c w = (analyse c es, mkB S E s' (upd_key (b_mem w) (Some f) (Some (es, q_n c))) (b_cache w) (b_core w)).
  Proof.
    intros H F C M K L. pose proof (default_loads c H) as (LD & SV & R & D & LF).
    assert (U : uncached S E Y c w) by (split; auto; right; right; congruence).
    rewrite (bayesnet_uncached c w f F U), (single_core c w f es s' C K L), nodump_outcome by assumption.
    unfold save_mem. rewrite SV, F, M. reflexivity.
  Qed.

  Lemma caching_transparent c1 w0 f es s' h c2 :
    default_caching S E Y c1 -> q_fn c1 = Some f -> q_cores c1 = 1%nat -> b_mem w0 (Some f) = None ->
    calls S E body f (b_st w0) es s' -> length es = q_n c1 ->
    Forall (leaves_alone S E Y (Some f)) h ->
    default_caching S E Y c2 -> q_fn c2 = Some f ->
    let w := brun S E Y body wire h (snd (bayesnet c1 w0)) in
    ((q_n c2 <= q_n c1)%nat -> bayesnet c2 w = (analyse c2 es, w)) /\
    ((q_n c1 < q_n c2)%nat -> bayesnet c2 w = (Err (ValueError "insufficient samples"), w)).
  Proof.
    intros D1 F1 C1 M K L A D2 F2 w.
    assert (B : b_mem w (q_fn c2) = Some (es, q_n c1)).
    { unfold w. rewrite F2. apply entry_kept; auto.
      rewrite (first_call c1 w0 f es s') by assumption. simpl. apply upd_key_eq. }
    apply cache_hit; auto.
  Qed.

  (** * The recorded number of events *)
  Lemma exact_counts h w : breaches S E Y body wire h w -> Forall (simple_action S E Y) h ->
    forall k es m, b_mem w k = Some (es, m) -> length es = m.
  Proof.
    induction 1 as [w M|h w x R IH]; intros F k es m Hk; [congruence|].
    apply Forall_app in F. destruct F as [F Fx]. specialize (IH F). inversion Fx as [|? ? P _]; subst.
    destruct x as [c|s cf co|k' l]; simpl in *; [|eapply IH; eauto|contradiction].
    destruct P as [C L]. destruct (key_eqb_spec (q_fn c) k) as [Ek|N];
      [|rewrite bayesnet_mem_other in Hk by assumption; eapply IH; eauto].
    subst k. unfold M_Bayesnet.bayesnet, events_of in Hk.
    assert (B : b_source S E Y c w = Ok None \/ exists r, b_mem w (q_fn c) = Some r /\ b_source S E Y c w = Ok (Some r)
                /\ q_reload c = false).
    { unfold b_source, b_file. rewrite L. destruct (q_reload c); auto. destruct (loads c); auto.
      destruct (b_mem w (q_fn c)) as [r|]; eauto. }
    destruct B as [B|(r & Br & B & Rl)]; rewrite B in Hk.
    - destruct (q_fn c) as [f|] eqn:Fc; [|simpl in Hk; eapply IH; eauto].
      unfold generate in Hk. rewrite C in Hk. simpl Nat.eqb in Hk. cbv iota in Hk.
      destruct (gen f (q_n c) (b_st w)) as [[l|e] s1] eqn:G; [|simpl in Hk; eapply IH; eauto].
      apply gen_calls in G. destruct G as [_ Hl].
      match type of Hk with context [save_file ?a ?b ?d ?e c l ?w1] =>
        pose proof (save_file_mem c l w1) as SM; destruct (save_file a b d e c l w1) as [[u|e'] w2] end;
        simpl in SM, Hk; rewrite SM in Hk; destruct (saves c && _);
        rewrite ?Fc, ?upd_key_eq in Hk; try (inversion Hk; subst; reflexivity || auto); eapply IH; eauto.
    - destruct r as [l m']. destruct (Nat.ltb m' (q_n c)); [simpl in Hk; eapply IH; eauto|].
      match type of Hk with context [save_file ?a ?b ?d ?e c l ?w1] =>
        pose proof (save_file_mem c l w1) as SM; destruct (save_file a b d e c l w1) as [[u|e'] w2] end;
        simpl in SM, Hk; rewrite SM in Hk; rewrite Br, Rl in Hk; simpl in Hk; rewrite andb_false_r in Hk; eapply IH; eauto.
  Qed.

  Lemma sufficiency_accurate h w c : breaches S E Y body wire h w -> Forall (simple_action S E Y) h ->
    q_load c = None -> q_reload c = false -> loads c = true ->
    fst (events_of S E Y body wire c w) = Err (ValueError "insufficient samples") ->
    forall es m, b_mem w (q_fn c) = Some (es, m) -> (length es < q_n c)%nat.
  Proof.
    intros R F L Rl Ld H es m M. pose proof (exact_counts h w R F _ _ _ M) as Em.
    unfold events_of, b_source, b_file in H. rewrite Rl, L, Ld, M in H.
    destruct (Nat.ltb_spec m (q_n c)); [lia|discriminate].
  Qed.

  (** * Cache files *)
  Lemma dumped c w f es s' p es' : q_fn c = Some f -> q_cores c = 1%nat -> uncached S E Y c w -> q_dump c = Some p ->
    calls S E body f (b_st w) es s' -> length es = q_n c -> mapM wire es = Ok es' ->
    b_cache (snd (bayesnet c w)) p = Some (Some (es', q_n c)) /\ fst (bayesnet c w) = analyse c es.
  Proof.
    intros F C U D K L W. rewrite (bayesnet_uncached c w f F U), (single_core c w f es s' C K L).
    unfold outcome, save_file. rewrite D, W. simpl. rewrite upd_str_eq. auto.
  Qed.

  Lemma cache_file_kept p v h : Forall (keeps_cache S E Y p v) h -> forall w, b_cache w p = Some (Some v) ->
    b_cache (brun S E Y body wire h w) p = Some (Some v).
  Proof.
    induction 1 as [|x h L F IH]; intros w M; simpl; auto. apply IH.
    destruct x as [c|s cf co|k' es]; simpl in *; auto.
    - unfold M_Bayesnet.bayesnet. pose proof (events_of_mem c w) as [_ B].
      destruct (events_of S E Y body wire c w) as [[[es|]|e] w1]; simpl in B; try (simpl; congruence).
      unfold save_file. destruct (q_dump c) as [p'|] eqn:D; [|simpl; congruence].
      destruct (mapM wire es); simpl; rewrite upd_str_ne by congruence; congruence.
    - destruct (b_mem w k') as [[? ?]|]; auto.
  Qed.

  Lemma file_hit c w p es m : q_load c = Some p -> q_reload c = false -> q_dump c = None ->
    b_cache w p = Some (Some (es, m)) -> (b_mem w (q_fn c) = None \/ q_primary c = true) ->
    ((q_n c <= m)%nat -> fst (bayesnet c w) = analyse c es /\ b_st (snd (bayesnet c w)) = b_st w) /\
    ((m < q_n c)%nat -> bayesnet c w = (Err (ValueError "insufficient samples"), w)).
  Proof.
    intros L R D F H.
    assert (B : b_source S E Y c w = Ok (Some (es, m))).
    { unfold b_source, b_file. rewrite R, L, F. destruct H as [H|H]; rewrite H; simpl; rewrite ?orb_true_r; reflexivity. }
    unfold M_Bayesnet.bayesnet, events_of. rewrite B. split; intros Hn.
    - destruct (Nat.ltb_spec m (q_n c)); [lia|]. unfold save_file. rewrite D. auto.
    - destruct (Nat.ltb_spec m (q_n c)); [reflexivity|lia].
  Qed.

  Lemma memory_first c w p v es m : q_load c = Some p -> q_reload c = false -> q_dump c = None -> q_primary c = false ->
    b_cache w p = Some v -> b_mem w (q_fn c) = Some (es, m) -> loads c = true ->
    ((q_n c <= m)%nat -> bayesnet c w = (analyse c es, w)) /\
    ((m < q_n c)%nat -> bayesnet c w = (Err (ValueError "insufficient samples"), w)).
  Proof.
    intros L R D Pr F M Ld.
    assert (B : b_source S E Y c w = Ok (Some (es, m))).
    { unfold b_source, b_file. rewrite R, L, F, M, Pr, Ld. reflexivity. }
    unfold M_Bayesnet.bayesnet, events_of. rewrite B. split; intros Hn.
    - destruct (Nat.ltb_spec m (q_n c)); [lia|]. unfold save_mem, save_file. rewrite D, M, R.
      simpl is_some. rewrite andb_false_r. rewrite bworld_eta. reflexivity.
    - destruct (Nat.ltb_spec m (q_n c)); [reflexivity|lia].
  Qed.
  Lemma neither_used c w p v r f es s' : q_load c = Some p -> q_reload c = false -> q_dump c = None -> q_primary c = false ->
    b_cache w p = Some v -> b_mem w (q_fn c) = Some r -> loads c = false ->
    q_fn c = Some f -> q_cores c = 1%nat -> calls S E body f (b_st w) es s' -> length es = q_n c ->
    fst (bayesnet c w) = analyse c es /\ b_st (snd (bayesnet c w)) = s'.
  Proof.
    intros L R D Pr C M Ld F Co K Le.
    assert (B : b_source S E Y c w = Ok None).
    { unfold b_source, b_file. rewrite R, L, C, M, Pr, Ld. reflexivity. }
    unfold M_Bayesnet.bayesnet, events_of. rewrite B, F, (single_core c w f es s' Co K Le).
    unfold save_mem, save_file. rewrite D. split; reflexivity.
  Qed.

  Lemma round_trip c1 w0 f es s' p es' h c2 :
    q_fn c1 = Some f -> q_cores c1 = 1%nat -> uncached S E Y c1 w0 -> q_dump c1 = Some p ->
    calls S E body f (b_st w0) es s' -> length es = q_n c1 -> mapM wire es = Ok es' ->
    Forall (keeps_cache S E Y p (es', q_n c1)) h ->
    q_load c2 = Some p -> q_reload c2 = false -> q_dump c2 = None ->
    let w := brun S E Y body wire h (snd (bayesnet c1 w0)) in
    (b_mem w (q_fn c2) = None \/ q_primary c2 = true) ->
    ((q_n c2 <= q_n c1)%nat -> fst (bayesnet c2 w) = analyse c2 es' /\ b_st (snd (bayesnet c2 w)) = b_st w) /\
    ((q_n c1 < q_n c2)%nat -> bayesnet c2 w = (Err (ValueError "insufficient samples"), w)).
  Proof.
    intros F C U D K L W A L2 R2 D2 w H.
    eapply file_hit; eauto. apply cache_file_kept; auto.
    destruct (dumped c1 w0 f es s' p es' F C U D K L W) as [X _]. exact X.
  Qed.

  Lemma no_event_fn c w : q_fn c = None -> uncached S E Y c w -> bayesnet c w = (Ok (ONone E Y), w).
  Proof. intros F U. unfold M_Bayesnet.bayesnet, events_of. rewrite uncached_source, F by assumption. reflexivity. Qed.


  Lemma b_batch_worker c w f cuts k : core_cuts (Z.of_nat (q_n c)) (q_cores c) = Ok cuts -> (k < q_cores c)%nat ->
    forall s, b_batch S E Y body c f cuts k s = gen f (bshare (q_n c) (q_cores c) k) s.
  Proof.
    intros H Hk s. destruct (cut_share _ _ k cuts Hk H) as (m & Em & Es).
    unfold b_batch. rewrite Em, Es. reflexivity.
  Qed.

  Lemma upd_core_eq {A} m k (v : option A) : upd_core m k v k = v.
  Proof. unfold upd_core. now rewrite Nat.eqb_refl. Qed.
  Lemma upd_core_ne {A} m k k' (v : option A) : k' <> k -> upd_core m k v k' = m k'.
  Proof. intros. unfold upd_core. destruct (Nat.eqb_spec k' k); congruence. Qed.

  Lemma b_tasks c f cuts w : core_cuts (Z.of_nat (q_n c)) (q_cores c) = Ok cuts ->
    forall l fs k v, (k < q_cores c)%nat -> bworker S E Y body wire c f w k = Ok v ->
    fold_left (b_finish S E Y body wire c f cuts w) l fs k =
      match fs k with
      | Some x => Some x
      | None => if in_dec Nat.eq_dec k l then Some (Some v) else None
      end.
  Proof.
    intros H l. induction l as [|j l IH]; intros fs k v Hk W; cbn [fold_left].
    - simpl. destruct (fs k); auto.
    - rewrite (IH _ k v Hk W). unfold b_finish. destruct (Nat.ltb_spec j (q_cores c)) as [Lj|Lj].
      + rewrite (b_batch_worker c w f cuts j H Lj).
        unfold bworker in W. destruct (Nat.eq_dec j k) as [->|N].
        * destruct (fst (gen f (bshare (q_n c) (q_cores c) k) _)) as [b|e]; [|discriminate]. simpl in W.
          unfold put_core. destruct (fs k) as [x|] eqn:Fk; [now rewrite Fk|].
          rewrite upd_core_eq, W. destruct (in_dec Nat.eq_dec k (k :: l)) as [|n]; [reflexivity|]. exfalso. apply n. now left.
        * assert (K : forall g : nat -> option (option (list E)),
                    (g k = fs k) ->
                    match g k with Some x => Some x | None => if in_dec Nat.eq_dec k l then Some (Some v) else None end =
                    match fs k with Some x => Some x | None => if in_dec Nat.eq_dec k (j :: l) then Some (Some v) else None end).
          { intros g ->. destruct (fs k); auto.
            destruct (in_dec Nat.eq_dec k l), (in_dec Nat.eq_dec k (j :: l)) as [i0|i0]; auto; exfalso; simpl in *; intuition. }
          clear W; destruct (fst (gen f _ _)) as [b|e]; apply K; auto. unfold put_core. destruct (fs j); auto. apply upd_core_ne; auto.
      + destruct (fs k); auto.
        destruct (in_dec Nat.eq_dec k l), (in_dec Nat.eq_dec k (j :: l)) as [i0|i0]; auto; exfalso; simpl in *; intuition lia.
  Qed.

  Lemma b_collect_all ks : NoDup ks -> forall acc fs vs,
    Forall2 (fun k v => fs k = Some (Some v)) ks vs ->
    exists fs', b_collect E ks acc fs = (Ok (acc ++ concat vs), fs') /\
      forall k, fs' k = if in_dec Nat.eq_dec k ks then None else fs k.
  Proof.
    induction 1 as [|k ks N ND IH]; intros acc fs vs F; inversion F as [|? v ? vs' Fk Fr]; subst; simpl b_collect.
    - exists fs. split; [now rewrite app_nil_r|]. intros; simpl; auto.
    - rewrite Fk. destruct (IH (acc ++ v) (upd_core fs k None) vs') as (fs' & Eq & Ff).
      + clear - Fr N. induction Fr as [|k' v' ks vs' H F IH]; constructor.
        * rewrite upd_core_ne; auto. intros ->. apply N. now left.
        * apply IH. intros I. apply N. now right.
      + exists fs'. split; [rewrite Eq; simpl; now rewrite app_assoc|].
        intros k'. rewrite Ff. destruct (Nat.eq_dec k' k) as [->|D].
        * destruct (in_dec Nat.eq_dec k ks); [contradiction|]. rewrite upd_core_eq.
          destruct (in_dec Nat.eq_dec k (k :: ks)) as [|n9]; auto. exfalso. apply n9. now left.
        * destruct (in_dec Nat.eq_dec k' ks), (in_dec Nat.eq_dec k' (k :: ks)) as [i0|i0]; auto;
            try (rewrite upd_core_ne by auto; auto); exfalso; simpl in *; intuition.
  Qed.



  Lemma multicore_concat c w f vs : (2 <= q_cores c)%nat -> clean S E Y c w -> all_finish S E Y c ->
    Forall2 (fun k v => bworker S E Y body wire c f w k = Ok v) (seq 0 (q_cores c)) vs ->
    exists w', generate S E Y body wire c f w = (Ok (concat vs), w') /\ (forall k, (k < q_cores c)%nat -> b_core w' k = None)
      /\ b_mem w' = b_mem w /\ b_cache w' = b_cache w.
  Proof.
    intros H2 CL AF W.
    destruct (core_cuts_ok (Z.of_nat (q_n c)) (q_cores c)) as [cuts Ec]; [lia|].
    pose proof (generate_mem c f w) as GM.
    assert (W' : forall k, (k < q_cores c)%nat -> exists v, bworker S E Y body wire c f w k = Ok v).
    { intros k Hk.
      assert (I : In k (seq 0 (q_cores c))) by (apply in_seq; lia).
      clear - W I. induction W as [|j v js vs Hw F IH]; simpl in I; [contradiction|].
      destruct I as [->|I]; eauto. }
    unfold generate in *. destruct (Nat.eqb_spec (q_cores c) 1); [lia|]. destruct (Nat.eqb_spec (q_cores c) 0); [lia|].
    rewrite Ec in *.
    assert (Hp : (pred (q_cores c) < q_cores c)%nat) by lia.
    rewrite (b_batch_worker c w f cuts _ Ec Hp) in *.
    destruct (W' _ Hp) as [vp Wp]. unfold bworker in Wp.
    replace (Datatypes.S (pred (q_cores c))) with (q_cores c) in Wp by lia. rewrite Nat.eqb_refl in Wp.
    destruct (gen f _ (b_st w)) as [[l|e] s1]; simpl in Wp; [|discriminate].
    rewrite Wp in *.
    destruct (b_collect_all (seq 0 (q_cores c)) (seq_NoDup _ _) []
                (fold_left (b_finish S E Y body wire c f cuts w) (q_sched S E Y c) (b_core w)) vs) as (fs' & Ecl & Ff).
    { assert (Q : forall ks vs', (forall k, In k ks -> (k < q_cores c)%nat) ->
        Forall2 (fun k v => bworker S E Y body wire c f w k = Ok v) ks vs' ->
        Forall2 (fun k v => fold_left (b_finish S E Y body wire c f cuts w) (q_sched S E Y c) (b_core w) k = Some (Some v)) ks vs').
      { intros ks vs' B F. induction F as [|k v ks vs' Hv F IH]; constructor.
        - rewrite (b_tasks c f cuts w Ec _ _ k v) by (auto; apply B; now left).
          rewrite CL by (apply B; now left).
          destruct (in_dec Nat.eq_dec k (q_sched S E Y c)) as [|n1]; auto. exfalso. apply n1, AF, B. now left.
        - apply IH. intros j Hj. apply B. now right. }
      apply Q; auto. intros k Hk. apply in_seq in Hk. lia. }
    rewrite Ecl in *. simpl in Ecl.
    destruct (b_core w (pred (q_cores c))); simpl in GM; eexists; (split; [reflexivity|]); simpl; (split; [|exact GM]);
      intros k Hk; rewrite Ff; destruct (in_dec Nat.eq_dec k (seq 0 (q_cores c))) as [|i]; auto; exfalso; apply i; apply in_seq; lia.
  Qed.

  Lemma multicore_clean c w f vs : q_fn c = Some f -> uncached S E Y c w -> q_dump c = None ->
    (2 <= q_cores c)%nat -> clean S E Y c w -> all_finish S E Y c ->
    Forall2 (fun k v => bworker S E Y body wire c f w k = Ok v) (seq 0 (q_cores c)) vs ->
    fst (bayesnet c w) = analyse c (concat vs) /\ clean S E Y c (snd (bayesnet c w)).
  Proof.
    intros F U D H2 CL AF W. destruct (multicore_concat c w f vs H2 CL AF W) as (w' & G & B & _ & _).
    rewrite (bayesnet_uncached c w f F U), G, nodump_outcome by assumption. split; [reflexivity|]. exact B.
  Qed.

  Lemma mapM_length {A B} (g : A -> res B) l l' : mapM g l = Ok l' -> length l' = length l.
  Proof.
    revert l'; induction l as [|x l IH]; intros l' H; simpl in H; [inversion H; reflexivity|].
    destruct (g x); [|discriminate]. simpl in H. destruct (mapM g l) as [r|]; [|discriminate]. simpl in H.
    inversion H; subst. simpl. f_equal. auto.
  Qed.

  Lemma multicore_count c w f vs : (1 <= q_cores c)%nat ->
    Forall2 (fun k v => bworker S E Y body wire c f w k = Ok v) (seq 0 (q_cores c)) vs -> length (concat vs) = q_n c.
  Proof.
    intros H1 W.
    assert (P : length (concat vs) = list_sum (map (bshare (q_n c) (q_cores c)) (seq 0 (q_cores c)))).
    { revert W. generalize (seq 0 (q_cores c)). intros ks W. induction W as [|k v ks vs Hv F IH]; simpl; auto.
      rewrite app_length, IH. f_equal. unfold bworker in Hv.
      match type of Hv with context [gen f ?m ?s] => destruct (gen f m s) as [[l|e] s1] eqn:G end; simpl in Hv; [|discriminate].
      apply gen_calls in G. destruct G as [_ <-]. eapply mapM_length; eauto. }
    rewrite P. exact (sum_share (q_n c) (q_cores c) H1).
  Qed.
End Net.

Lemma mean_needs_numbers S E Y (c : bcall S E Y) f es vs v :
  q_cond _ _ _ c = None -> q_find _ _ _ c = Some f -> q_raw _ _ _ c = false -> q_reduce _ _ _ c = None ->
  es <> [] -> mapM f es = Ok vs -> In v vs -> as_x v = None -> analyse S E Y c es = Err TypeError.
Proof.
  intros C F R D N V I X. unfold analyse. rewrite C. cbn [bind]. destruct es as [|e es]; [congruence|].
  rewrite F, V. cbn [bind]. rewrite R, D. unfold np_mean.
  assert (mapM as_num vs = Err TypeError) as ->; [|reflexivity].
  clear -I X. induction vs as [|x vs IH]; [destruct I|]. cbn [mapM]. unfold as_num at 1.
  destruct (as_x x) eqn:A; [|reflexivity]. cbn [bind]. destruct I as [->|I]; [congruence|]. now rewrite IH.
Qed.
Section HandedOut.
  Variables S E Y : Type.
  Variable body : nat -> S -> res E * S.
  Variable wire : E -> res E.
  Lemma key_eqb_refl k : key_eqb k k = true.
  Proof. destruct k; simpl; auto. apply Nat.eqb_refl. Qed.
  Lemma handed_out_cached (c : bcall S E Y) w es w' :
    bayesnet S E Y body wire c w = (Ok (OEvents E Y es), w') -> hands_out_cache S E Y c w = true ->
    exists m, b_mem S E w' (q_fn S E Y c) = Some (es, m).
  Proof.
    intros H A. unfold hands_out_cache in A. apply andb_prop in A as [A A4]. apply andb_prop in A as [A A3]. apply andb_prop in A as [A1 A2].
    unfold bayesnet in H. destruct (events_of _ _ _ _ _ c w) as [[[ev|]|e] w1] eqn:EV; try discriminate.
    destruct (save_file _ _ _ _ c ev _) as [[u|e] w2] eqn:SF; [|discriminate].
    injection H as HA <-.
    assert (es = ev).
    { unfold analyse in HA. destruct (q_cond S E Y c); [discriminate|]. cbn [bind] in HA. destruct ev; [discriminate|].
      destruct (q_find S E Y c); [discriminate|]. destruct (q_reduce S E Y c); [discriminate|]. congruence. }
    subst ev. clear HA.
    assert (M : b_mem S E w2 = b_mem S E (save_mem S E Y c (is_some (b_mem S E w (q_fn S E Y c))) es w1)).
    { unfold save_file in SF. destruct (q_dump S E Y c); [destruct (mapM wire es)|]; inversion SF; reflexivity. }
    rewrite M. unfold save_mem. cbn [b_mem].
    destruct (saves S E Y c && (negb (is_some (b_mem S E w (q_fn S E Y c))) || q_reload S E Y c))%bool eqn:SV.
    { cbv iota; unfold upd_key; cbv beta. rewrite key_eqb_refl. eauto. }
    unfold events_of in EV. destruct (b_source S E Y c w) as [[[l m]|]|e] eqn:SRC; [| |discriminate].
    - destruct (Nat.ltb _ _); [discriminate|]. injection EV as <- <-. exists m.
      unfold b_source in SRC. destruct (q_reload S E Y c); [discriminate|]. rewrite orb_false_r in SV.
      destruct (b_file S E Y c w) as [v|].
      + rewrite SV, orb_false_r in A4. apply andb_prop in A4 as [A5 A6]. rewrite A5 in SRC. apply negb_true_iff in A6. rewrite A6 in SRC.
        cbn [negb orb] in SRC. destruct (loads S E Y c); congruence.
      + destruct (loads S E Y c); congruence.
    - rewrite A4 in SV. discriminate.
  Qed.
End HandedOut.
