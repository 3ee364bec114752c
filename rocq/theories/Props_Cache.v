(** Properties of cached and multicore sampling (C26-C33, C35-C37, C39, C45) and of
    the text form that keys the cache (C28, C87). *)
From Verif Require Import Base M_Weights M_Pick M_Values M_Sampler M_SampleApi M_Alias M_Str M_Ctor SpecSampler SpecCache SpecStr
  P_Example P_Cache P_Multicore P_Cache2 P_Alias P_Str SpecCacheText P_CacheText SpecOpText P_OpText.
From Coq Require Import Permutation.

(** Concrete calls used in the examples and refutations. *)
Definition ex_u : obj (G ex_oracle) := ODist (DLeaf (LUniform 0 1) None None).
Definition ex_call (o : obj (G ex_oracle)) (key : string) (n : nat) : call ex_oracle :=
  mkCall ex_oracle o key n None None true false None None false 1 (fun _ => ex_state 0) [].
Definition ex_world (k : nat) : world ex_oracle := mkWorld ex_oracle (ex_state k) (fun _ => None) (fun _ => None).
Definition ex_multi (o : obj (G ex_oracle)) (n cores : nat) (starts : nat -> nat) (sched : list nat) : call ex_oracle :=
  mkCall ex_oracle o "k" n None None false false None None false cores (fun k => ex_state (starts k)) sched.

(* ---------------------------------------------------------------- C26 *)
Theorem C26_first_call_caches :
  forall Or (c : call Or) w v w', sample_call Or c w = (Ok v, w') -> c_memcache Or c = true ->
  mem Or w (c_key Or c) = None \/ c_reload Or c = true -> mem Or w' (c_key Or c) = Some v.
Proof. exact first_call_caches. Qed.
Print Assumptions C26_first_call_caches.

Theorem C26_cache_hit :
  forall Or (c : call Or) w v h, plain_memcache Or c -> mem Or w (c_key Or c) = Some v ->
  Forall (no_reload_of Or (c_key Or c)) h ->
  sample_call Or c (run Or h w) = (Ok v, run Or h w).
Proof. exact cache_hit. Qed.
Print Assumptions C26_cache_hit.

Example C26_sat :
  let c := ex_call ex_u "u" 3 in
  let c2 := ex_call ex_u "other" 2 in
  plain_memcache ex_oracle c /\ Forall (no_reload_of ex_oracle "u") [Call ex_oracle c2; Call ex_oracle c] /\
  exists v, fst (sample_call ex_oracle c (ex_world 0)) = Ok v /\
    mem ex_oracle (snd (sample_call ex_oracle c (ex_world 0))) "u" = Some v /\ n_samples 3 v.
Proof.
  cbv zeta. split; [|split].
  - repeat split; simpl; auto. discriminate.
  - repeat constructor; simpl; intros (A & B & C); discriminate.
  - eexists. split; [vm_compute; reflexivity|]. split; [vm_compute; reflexivity|]. simpl. eauto.
Qed.

(* ---------------------------------------------------------------- C27 *)
(** Full statement: every cached call returns n samples.  False: *)
Theorem C27_refuted :
  exists c5 c3 w, plain_memcache ex_oracle c5 /\ plain_memcache ex_oracle c3 /\
    c_obj ex_oracle c5 = c_obj ex_oracle c3 /\ c_key ex_oracle c5 = c_key ex_oracle c3 /\
    mem ex_oracle w (c_key ex_oracle c5) = None /\
    c_n ex_oracle c3 = 3%nat /\
    exists v, fst (sample_call ex_oracle c3 (snd (sample_call ex_oracle c5 w))) = Ok v /\ ~ n_samples 3 v.
Proof.
  exists (ex_call ex_u "u" 5), (ex_call ex_u "u" 3), (ex_world 0).
  repeat split; simpl; auto; try discriminate; try lia.
  eexists. split; [vm_compute; reflexivity|]. intros (l & H & L). injection H as <-. discriminate.
Qed.
Print Assumptions C27_refuted.

(** It holds as long as every call under the same key asks for the same n. *)
Theorem C27_same_n_partial :
  forall Or, right_length Or -> forall h w (c : call Or) v w', reaches Or h w ->
  Forall (steady Or (c_key Or c) (c_n Or c)) (h ++ [Call Or c]) ->
  sample_call Or c w = (Ok v, w') -> n_samples (c_n Or c) v.
Proof. exact cached_n. Qed.
Print Assumptions C27_same_n_partial.

Example C27_sat :
  let c := ex_call ex_u "u" 3 in
  right_length ex_oracle /\
  reaches ex_oracle [Call ex_oracle c] (run_action ex_oracle (ex_world 0) (Call ex_oracle c)) /\
  Forall (steady ex_oracle "u" 3) ([Call ex_oracle c] ++ [Call ex_oracle c]).
Proof.
  cbv zeta. split; [exact ex_right_length|]. split.
  - apply (r_step ex_oracle []). constructor. reflexivity.
  - repeat constructor; simpl; auto.
Qed.

(* ---------------------------------------------------------------- C28 *)
(** [a - (b - c)] and [(a - b) - c] print the same, so they share a cache entry. *)
Definition one : pexp (G ex_oracle) := XLeaf (KConst (PInt 1)).
Definition right_sub := XInfix (IOp Sub) one (XInfix (IOp Sub) one one).
Definition left_sub := XInfix (IOp Sub) (XInfix (IOp Sub) one one) one.
Theorem C28_refuted :
  exists (e1 e2 : pexp (G ex_oracle)) (f : pv -> string) w v1 v2,
    text f e1 = text f e2 /\
    (** what each one samples to on its own *)
    fst (sample_call ex_oracle (ex_call (built e1) (text f e1) 1) w) = Ok v1 /\
    fst (sample_call ex_oracle (ex_call (built e2) (text f e2) 1) w) = Ok v2 /\
    v1 <> v2 /\
    (** sampling [e2] after [e1] returns the value of [e1] *)
    fst (sample_call ex_oracle (ex_call (built e2) (text f e2) 1)
           (snd (sample_call ex_oracle (ex_call (built e1) (text f e1) 1) w))) = Ok v1.
Proof.
  exists right_sub, left_sub, (fun _ => "1"%string), (ex_world 0), (Scalar (PInt 1)), (Scalar (PInt (-1))).
  split; [reflexivity|]. split; [vm_compute; reflexivity|]. split; [vm_compute; reflexivity|].
  split; [discriminate|]. vm_compute. reflexivity.
Qed.
Print Assumptions C28_refuted.

(** Three families of distinct distributions with one text, for every way of
    printing scalars. *)
Theorem C28_rounding_collision :
  forall (f : pv -> string) T sd lc rc, exists m1 m2 : Q, ~ m1 == m2 /\
    text f (XLeaf (KNorm (NF m1) sd lc rc) : pexp T) = text f (XLeaf (KNorm (NF m2) sd lc rc) : pexp T).
Proof. intros f T sd lc rc. exists 0, (1#1000). split; [discriminate|reflexivity]. Qed.
Print Assumptions C28_rounding_collision.

(** The printed leaf and the constructor it names are the same distribution. *)
Theorem C28_text_names_constructor :
  forall T k c (d : dist T), ctor_of k = Some c -> construct c = Ok d -> built (XLeaf k) = ODist d.
Proof. exact @text_constructor. Qed.
Print Assumptions C28_text_names_constructor.
Theorem C28_mixture_clip_collision :
  forall (f : pv -> string) T (ps : list (num * pexp T)) lc rc lc' rc',
    text f (XMixture ps lc rc) = text f (XMixture ps lc' rc').
Proof. reflexivity. Qed.
Print Assumptions C28_mixture_clip_collision.
(** ... although the clips matter. *)
Theorem C28_mixture_clip_matters :
  forall f, let e lc rc : pexp nat := XMixture [(NI 1, XLeaf (KConst (PInt 5)))] lc rc in
  text f (e None (Some (NI 3))) = text f (e None None) /\
  fst (smp ex_oracle (built (e None (Some (NI 3)))) 1 None None (ex_state 0)) = Ok (Scalar (PInt 3)) /\
  fst (smp ex_oracle (built (e (Some (NI 7)) None)) 1 None None (ex_state 0)) = Ok (Scalar (PInt 7)) /\
  fst (smp ex_oracle (built (e None None)) 1 None None (ex_state 0)) = Ok (Scalar (PInt 5)).
Proof. intros f e. repeat split; vm_compute; reflexivity. Qed.
Print Assumptions C28_mixture_clip_matters.

(** What does hold: an entry was returned by an earlier caching call whose
    distribution has the same text. *)
Theorem C28_provenance_partial :
  forall Or h w, reaches Or h w -> forall k v, mem Or w k = Some v ->
  exists h1 w1 c h2, h = h1 ++ Call Or c :: h2 /\ reaches Or h1 w1 /\ c_key Or c = k /\
    c_memcache Or c = true /\ fst (sample_call Or c w1) = Ok v.
Proof. exact provenance. Qed.
Print Assumptions C28_provenance_partial.

(** Simple distributions whose text tells everything are never confused: equal
    texts, equal distributions, for every readable way of printing scalars. *)
Theorem C28_exact_texts_partial :
  forall fmt, readable fmt -> forall T k1 k2 (d1 d2 : dist T), told_by k1 d1 -> told_by k2 d2 ->
  leaf_text fmt k1 = leaf_text fmt k2 -> d1 = d2.
Proof. exact exact_text. Qed.
Print Assumptions C28_exact_texts_partial.
(** So if only such distributions were cached, an entry found for one of them was
    returned by an earlier call for that very distribution. *)
Theorem C28_no_confusion_partial :
  forall fmt, readable fmt -> forall Or h w k (d : dist (G Or)) v,
  reaches Or h w -> Forall (tells fmt Or) h -> told_by k d -> mem Or w (leaf_text fmt k) = Some v ->
  exists h1 w1 c h2, h = h1 ++ Call Or c :: h2 /\ reaches Or h1 w1 /\ c_obj Or c = ODist d /\ fst (sample_call Or c w1) = Ok v.
Proof. exact told_provenance. Qed.
Print Assumptions C28_no_confusion_partial.
Example C28_exact_sat :
  let k := KUniform (NI 0) (NF (1#2)) in
  let d := DLeaf (LUniform 0 (1#2)) None None : dist (G ex_oracle) in
  let x := Call ex_oracle (ex_call (ODist d) (leaf_text unary k) 3) in
  let w := run_action ex_oracle (ex_world 0) x in
  readable unary /\ told_by k d /\ reaches ex_oracle [x] w /\ Forall (tells unary ex_oracle) [x] /\
  exists v, mem ex_oracle w (leaf_text unary k) = Some v.
Proof.
  cbv zeta. split; [exact unary_readable|].
  assert (told_by (KUniform (NI 0) (NF (1#2))) (DLeaf (LUniform 0 (1#2)) None None : dist (G ex_oracle))) as D.
  { eapply told_call; [exact I|repeat split|reflexivity|reflexivity]. }
  split; [exact D|]. split; [apply (r_step ex_oracle []); constructor; reflexivity|]. split.
  - constructor; [|constructor]. intros _. eexists; eexists. split; [exact D|]. split; reflexivity.
  - eexists. vm_compute. reflexivity.
Qed.

(** Operator expressions over such distributions: equal texts mean the same signs,
    operators and distributions in the same order. *)
Theorem C28_operator_texts_partial :
  forall fmt, readable fmt -> unbracketed fmt -> forall T (e1 e2 : pexp T) a1 a2, words e1 a1 -> words e2 a2 ->
  text fmt e1 = text fmt e2 -> a1 = a2.
Proof. exact words_inj. Qed.
Print Assumptions C28_operator_texts_partial.
(** With at most one operator or sign nothing is left to confuse. *)
Theorem C28_one_operation_partial :
  forall fmt, readable fmt -> unbracketed fmt -> forall T (e1 e2 : pexp T) a1 a2, words e1 a1 -> words e2 a2 ->
  one_operation e1 -> text fmt e1 = text fmt e2 -> built e1 = built e2.
Proof. exact one_operation_inj. Qed.
Print Assumptions C28_one_operation_partial.
(** So if only such expressions were cached, an entry found for one of them was
    returned by an earlier call for an expression that differs at most in grouping. *)
Theorem C28_operator_provenance_partial :
  forall fmt, readable fmt -> unbracketed fmt -> forall Or h w e a v,
  reaches Or h w -> Forall (words_told fmt Or) h -> words e a -> mem Or w (text fmt e) = Some v ->
  exists h1 w1 c h2 e', h = h1 ++ Call Or c :: h2 /\ reaches Or h1 w1 /\ words e' a /\ c_obj Or c = built e' /\
    fst (sample_call Or c w1) = Ok v.
Proof. exact words_provenance. Qed.
Print Assumptions C28_operator_provenance_partial.
(** Grouping is never printed, whatever the operands and operators are. *)
Theorem C28_grouping_collision :
  forall fmt, (forall x, no_angle (fmt x)) -> forall T i j (a b c : pexp T), plain_names a -> plain_names b -> plain_names c ->
  text fmt (XInfix j (XInfix i a b) c) = text fmt (XInfix i a (XInfix j b c)) /\
  text fmt (XInfix i (XNeg a) b) = text fmt (XNeg (XInfix i a b)).
Proof. intros fmt F T i j a b c A B C. split; [now apply grouping|now apply neg_grouping]. Qed.
Print Assumptions C28_grouping_collision.
Example C28_operator_sat :
  let k := KUniform (NI 0) (NI 1) in
  let d := DLeaf (LUniform 0 1) None None : dist (G ex_oracle) in
  let e := XInfix (IOp Sub) (XNeg (XLeaf k)) (XLeaf (KDie 6 None)) : pexp (G ex_oracle) in
  let x := Call ex_oracle (ex_call (built e) (text unary e) 3) in
  let w := run_action ex_oracle (ex_world 0) x in
  readable unary /\ unbracketed unary /\ words e [WNeg; WDist d; WOp (IOp Sub); WDist (DLeaf (LDie 6 None) None None)] /\
  reaches ex_oracle [x] w /\ Forall (words_told unary ex_oracle) [x] /\
  (exists v, mem ex_oracle w (text unary e) = Some v) /\
  one_operation (XInfix (IOp Sub) (XLeaf k) (XLeaf (KDie 6 None)) : pexp (G ex_oracle)).
Proof.
  cbv zeta. split; [exact unary_readable|]. split; [exact unary_unbracketed|].
  assert (words (XInfix (IOp Sub) (XNeg (XLeaf (KUniform (NI 0) (NI 1)))) (XLeaf (KDie 6 None)) : pexp (G ex_oracle))
            [WNeg; WDist (DLeaf (LUniform 0 1) None None); WOp (IOp Sub); WDist (DLeaf (LDie 6 None) None None)]) as D.
  { apply (words_infix (IOp Sub) (XNeg (XLeaf (KUniform (NI 0) (NI 1)))) (XLeaf (KDie 6 None)) [WNeg; WDist (DLeaf (LUniform 0 1) None None)]
             [WDist (DLeaf (LDie 6 None) None None)]); [apply words_neg|]; apply words_leaf; [|constructor].
    eapply told_call; [exact I|repeat split|reflexivity|reflexivity]. }
  split; [exact D|]. split; [apply (r_step ex_oracle []); constructor; reflexivity|]. split; [|split; [|exact I]].
  - constructor; [|constructor]. intros _. eexists; eexists. split; [exact D|]. split; reflexivity.
  - eexists. vm_compute. reflexivity.
Qed.

Example C28_sat :
  let w := run_action ex_oracle (ex_world 0) (Call ex_oracle (ex_call ex_u "u" 3)) in
  reaches ex_oracle [Call ex_oracle (ex_call ex_u "u" 3)] w /\ exists v, mem ex_oracle w "u" = Some v.
Proof.
  cbv zeta. split; [apply (r_step ex_oracle []); constructor; reflexivity|].
  eexists. vm_compute. reflexivity.
Qed.

(* ---------------------------------------------------------------- C29 *)
Theorem C29_hit_respects_clips :
  forall Or (c : call Or) w v r w', sampleable Or c -> memory_wins Or c w v ->
  sample_call Or c w = (Ok r, w') ->
  Forall2 (clamped (q_of (c_lc Or c)) (q_of (c_rc Or c))) (elems v) (elems r).
Proof. exact hit_clamps. Qed.
Print Assumptions C29_hit_respects_clips.

(** The second half is false: a clipped entry is handed to an unclipped call. *)
Definition ex_clipped : call ex_oracle :=
  mkCall ex_oracle ex_u "u" 3 (Some (NF (1#2))) None true false None None false 1 (fun _ => ex_state 0) [].
Theorem C29_refuted :
  exists c1 c2 w v u, c_obj ex_oracle c1 = c_obj ex_oracle c2 /\ plain_memcache ex_oracle c2 /\
    mem ex_oracle w (c_key ex_oracle c2) = None /\
    fst (sample_call ex_oracle c2 (snd (sample_call ex_oracle c1 w))) = Ok v /\
    (** the samples that were drawn, before clipping *)
    fst (smp ex_oracle (c_obj ex_oracle c2) (c_n ex_oracle c2) None None (st ex_oracle w)) = Ok u /\
    ~ Forall2 same_number (elems u) (elems v).
Proof.
  exists ex_clipped, (ex_call ex_u "u" 3), (ex_world 0). do 2 eexists.
  split; [reflexivity|]. split; [repeat split; simpl; auto; discriminate|]. split; [reflexivity|].
  split; [vm_compute; reflexivity|]. split; [vm_compute; reflexivity|].
  intros H. inversion H as [|x y l m E _]; subst. vm_compute in E. discriminate.
Qed.
Print Assumptions C29_refuted.

Example C29_sat :
  exists w v r, memory_wins ex_oracle ex_clipped w v /\
    fst (sample_call ex_oracle ex_clipped w) = Ok r /\ elems r <> elems v.
Proof.
  exists (mkWorld ex_oracle (ex_state 0) (fun _ => Some (Arr [PFlt (Fin (1#4)); PFlt (Fin (3#4))])) (fun _ => None)).
  do 2 eexists. split; [|split].
  - repeat split. intros u (_ & (p & A & _) & _). discriminate.
  - vm_compute. reflexivity.
  - vm_compute. discriminate.
Qed.

(* ---------------------------------------------------------------- C30 *)
Theorem C30_file_source :
  forall Or (c : call Or) w v, sampleable Or c -> file_wins Or c w v -> Forall (fun x => x <> PNone) (elems v) ->
  fst (sample_call Or c w) = apply_clips (c_lc Or c) (c_rc Or c) v /\
  st Or (snd (sample_call Or c w)) = st Or w.
Proof. exact from_file. Qed.
Print Assumptions C30_file_source.

Theorem C30_memory_source :
  forall Or (c : call Or) w v, sampleable Or c -> memory_wins Or c w v ->
  fst (sample_call Or c w) = apply_clips (c_lc Or c) (c_rc Or c) v /\
  st Or (snd (sample_call Or c w)) = st Or w.
Proof. exact from_memory. Qed.
Print Assumptions C30_memory_source.

Theorem C30_generated_otherwise :
  forall Or (c : call Or) w, sampleable Or c -> (c_cores Or c <= 1)%nat ->
  (forall v, ~ file_wins Or c w v) -> (forall v, ~ memory_wins Or c w v) ->
  (fst (sample_call Or c w), st Or (snd (sample_call Or c w))) =
  smp Or (c_obj Or c) (c_n Or c) (c_lc Or c) (c_rc Or c) (st Or w).
Proof. exact from_sampler. Qed.
Print Assumptions C30_generated_otherwise.

Theorem C30_one_source :
  forall Or (c : call Or) w,
  (exists v, file_wins Or c w v) \/ (exists v, memory_wins Or c w v) \/
  ((forall v, ~ file_wins Or c w v) /\ (forall v, ~ memory_wins Or c w v)).
Proof. exact decide_source. Qed.
Print Assumptions C30_one_source.

Definition ex_file_world : world ex_oracle :=
  mkWorld ex_oracle (ex_state 0) (fun _ => None)
    (fun f => match f with CacheNpy "f" => Some (Arr [PInt 7; PInt 8]) | _ => None end).
Definition ex_loading (memcache primary : bool) : call ex_oracle :=
  mkCall ex_oracle ex_u "u" 3 None None memcache false None (Some "f"%string) primary 1 (fun _ => ex_state 0) [].
Example C30_sat :
  file_wins ex_oracle (ex_loading true false) ex_file_world (Arr [PInt 7; PInt 8]) /\
  sampleable ex_oracle (ex_loading true false) /\
  (exists w v, memory_wins ex_oracle (ex_call ex_u "u" 3) w v /\ n_samples 3 v) /\
  (forall v, ~ file_wins ex_oracle (ex_call ex_u "u" 3) (ex_world 0) v) /\
  (forall v, ~ memory_wins ex_oracle (ex_call ex_u "u" 3) (ex_world 0) v).
Proof.
  split; [|split; [|split; [|split]]].
  - repeat split; simpl; auto. exists "f"%string. auto.
  - split; simpl; [lia|discriminate].
  - exists (mkWorld ex_oracle (ex_state 0) (fun _ => Some (Arr [PInt 1; PInt 2; PInt 3])) (fun _ => None)). exists (Arr [PInt 1; PInt 2; PInt 3]).
    split; [|simpl; eexists; split; reflexivity]. repeat split. intros u (_ & (p & A & _) & _). discriminate.
  - intros v (_ & (p & A & _) & _). discriminate.
  - intros v (_ & _ & A & _). discriminate.
Qed.

(* ---------------------------------------------------------------- C31 *)
Theorem C31_refuted :
  exists c w p v, sampleable ex_oracle c /\ c_load ex_oracle c = Some p /\
    files ex_oracle w (CacheNpy p) = Some v /\ c_reload ex_oracle c = false /\
    (** new samples are drawn *)
    st ex_oracle (snd (sample_call ex_oracle c w)) <> st ex_oracle w /\
    exists r, fst (sample_call ex_oracle c w) = Ok r /\ r <> v /\ forall k, mem ex_oracle w k <> Some r.
Proof.
  exists (ex_loading false false),
    (mkWorld ex_oracle (ex_state 0) (fun _ => Some (Scalar (PInt 5))) (files ex_oracle ex_file_world)),
    "f"%string, (Arr [PInt 7; PInt 8]).
  split; [split; simpl; [lia|discriminate]|]. split; [reflexivity|]. split; [reflexivity|]. split; [reflexivity|].
  split.
  - intros H. assert (K : rng (st ex_oracle (snd (sample_call ex_oracle (ex_loading false false)
      (mkWorld ex_oracle (ex_state 0) (fun _ => Some (Scalar (PInt 5))) (files ex_oracle ex_file_world))))) = 0%nat) by now rewrite H.
    vm_compute in K. discriminate.
  - eexists. split; [vm_compute; reflexivity|]. split; [discriminate|]. intros k H. simpl in H. discriminate.
Qed.
Print Assumptions C31_refuted.

(** It is, unless the distribution has an entry in memory and neither memcache nor
    cache_file_primary is on: the values come from the file or that entry, nothing is drawn. *)
Theorem C31_used_partial :
  forall Or (c : call Or) w p v, sampleable Or c -> c_load Or c = Some p -> files Or w (CacheNpy p) = Some v ->
  c_reload Or c = false -> Forall (fun x => x <> PNone) (elems v) ->
  mem Or w (c_key Or c) = None \/ c_primary Or c = true \/ c_memcache Or c = true ->
  exists u, (u = v \/ mem Or w (c_key Or c) = Some u /\ c_primary Or c = false) /\
    fst (sample_call Or c w) = apply_clips (c_lc Or c) (c_rc Or c) u /\ st Or (snd (sample_call Or c w)) = st Or w.
Proof. exact existing_file_used. Qed.
Print Assumptions C31_used_partial.
(** In the remaining case the file is never read. *)
Theorem C31_ignored :
  forall Or (c : call Or) w u, sampleable Or c -> (c_cores Or c <= 1)%nat -> mem Or w (c_key Or c) = Some u ->
  c_primary Or c = false -> c_memcache Or c = false ->
  (fst (sample_call Or c w), st Or (snd (sample_call Or c w))) =
  smp Or (c_obj Or c) (c_n Or c) (c_lc Or c) (c_rc Or c) (st Or w).
Proof. exact existing_file_ignored. Qed.
Print Assumptions C31_ignored.
Example C31_sat :
  sampleable ex_oracle (ex_loading true false) /\ files ex_oracle ex_file_world (CacheNpy "f") = Some (Arr [PInt 7; PInt 8]) /\
  c_load ex_oracle (ex_loading true false) = Some "f"%string /\ c_reload ex_oracle (ex_loading true false) = false.
Proof. split; [split; simpl; [lia|discriminate]|repeat split]. Qed.

(* ---------------------------------------------------------------- C32 *)
Theorem C32_dump_load :
  forall Or (c1 : call Or) w v w1 p h c2, sample_call Or c1 w = (Ok v, w1) -> c_dump Or c1 = Some p ->
  Forall (keeps_file Or p v) h ->
  sampleable Or c2 -> c_load Or c2 = Some p -> c_primary Or c2 = true -> c_reload Or c2 = false ->
  c_lc Or c2 = None -> c_rc Or c2 = None ->
  Forall (fun x => x <> PNone) (elems v) ->
  fst (sample_call Or c2 (run Or h w1)) = Ok v /\
  st Or (snd (sample_call Or c2 (run Or h w1))) = st Or (run Or h w1).
Proof. exact round_trip. Qed.
Print Assumptions C32_dump_load.

Example C32_sat :
  let c1 := mkCall ex_oracle ex_u "u" 3 None None false false (Some "f"%string) None false 1 (fun _ => ex_state 0) [] in
  exists v w1, sample_call ex_oracle c1 (ex_world 0) = (Ok v, w1) /\ n_samples 3 v /\
    Forall (fun x => x <> PNone) (elems v) /\
    Forall (keeps_file ex_oracle "f" v) [Call ex_oracle (ex_call ex_u "u" 2)] /\
    sampleable ex_oracle (ex_loading true true).
Proof.
  cbv zeta. do 2 eexists. split; [vm_compute; reflexivity|]. split; [simpl; eauto|].
  split; [repeat constructor; discriminate|]. split; [repeat constructor; simpl; discriminate|].
  split; simpl; [lia|discriminate].
Qed.

(* ---------------------------------------------------------------- C33 *)
Theorem C33_reload :
  forall Or (c : call Or) w v w', sampleable Or c -> (c_cores Or c <= 1)%nat ->
  c_memcache Or c = true -> c_reload Or c = true -> sample_call Or c w = (Ok v, w') ->
  smp Or (c_obj Or c) (c_n Or c) (c_lc Or c) (c_rc Or c) (st Or w) = (Ok v, st Or w') /\
  mem Or w' (c_key Or c) = Some v /\ forall k, k <> c_key Or c -> mem Or w' k = mem Or w k.
Proof. exact reload_fresh. Qed.
Print Assumptions C33_reload.

Example C33_sat :
  let c := mkCall ex_oracle ex_u "u" 3 None None true true None None false 1 (fun _ => ex_state 0) [] in
  let w := mkWorld ex_oracle (ex_state 0) (fun _ => Some (Scalar (PInt 5))) (fun _ => None) in
  exists v w', sample_call ex_oracle c w = (Ok v, w') /\ n_samples 3 v /\ mem ex_oracle w' "u" = Some v.
Proof. cbv zeta. do 2 eexists. split; [vm_compute; reflexivity|]. split; [simpl; eauto|vm_compute; reflexivity]. Qed.

(* ---------------------------------------------------------------- C35 *)
Theorem C35_multicore_result :
  forall Or (c : call Or) w vs, uncached_multicore Or c ->
  Permutation (c_sched Or c) (seq 0 (c_cores Or c)) ->
  length vs = c_cores Or c ->
  (forall k v, nth_error vs k = Some v -> worker_result Or c w k = Ok v) ->
  Forall (fun v => Forall numeric_pv (elems v)) vs ->
  fst (sample_call Or c w) =
    apply_clips (c_lc Or c) (c_rc Or c) (Arr (map as_float (concat (map elems vs)))) /\
  (forall k, files Or (snd (sample_call Or c w)) (CoreNpy k) =
     if Nat.ltb k (c_cores Or c) then None else files Or w (CoreNpy k)).
Proof. exact multicore_result. Qed.
Print Assumptions C35_multicore_result.

Theorem C35_multicore_count :
  forall Or, right_length Or -> forall (c : call Or) w vs r w', uncached_multicore Or c -> covered (c_obj Or c) ->
  Permutation (c_sched Or c) (seq 0 (c_cores Or c)) ->
  length vs = c_cores Or c ->
  (forall k v, nth_error vs k = Some v -> worker_result Or c w k = Ok v) ->
  sample_call Or c w = (Ok r, w') -> c_lc Or c = None -> c_rc Or c = None ->
  length (elems r) = c_n Or c.
Proof. exact multicore_count. Qed.
Print Assumptions C35_multicore_count.

(** Same arguments, any two completion orders, any two sets of leftover files. *)
Theorem C35_order_irrelevant :
  forall Or (c c' : call Or) w w' vs, uncached_multicore Or c ->
  c_obj Or c' = c_obj Or c -> c_n Or c' = c_n Or c -> c_cores Or c' = c_cores Or c -> c_starts Or c' = c_starts Or c ->
  c_lc Or c' = c_lc Or c -> c_rc Or c' = c_rc Or c -> st Or w' = st Or w -> uncached_multicore Or c' ->
  Permutation (c_sched Or c) (seq 0 (c_cores Or c)) ->
  Permutation (c_sched Or c') (seq 0 (c_cores Or c)) ->
  length vs = c_cores Or c ->
  (forall k v, nth_error vs k = Some v -> worker_result Or c w k = Ok v) ->
  fst (sample_call Or c' w') = fst (sample_call Or c w).
Proof. exact multicore_order. Qed.
Print Assumptions C35_order_irrelevant.

Example C35_sat :
  let c := ex_multi ex_u 7 3 (fun k => 10 * S k)%nat [2; 0; 1]%nat in
  uncached_multicore ex_oracle c /\ Permutation (c_sched ex_oracle c) (seq 0 (c_cores ex_oracle c)) /\
  exists vs, length vs = 3%nat /\
    (forall k v, nth_error vs k = Some v -> worker_result ex_oracle c (ex_world 0) k = Ok v) /\
    Forall (fun v => Forall numeric_pv (elems v)) vs /\
    exists r, fst (sample_call ex_oracle c (ex_world 0)) = Ok (Arr r) /\ length r = 7%nat.
Proof.
  cbv zeta. split; [|split].
  - split; [split; simpl; [lia|discriminate]|]. split; [simpl; lia|]. right. auto.
  - simpl. apply Permutation_sym. eapply perm_trans; [apply perm_skip, perm_swap|]. apply perm_swap.
  - eexists [_; _; _]. split; [reflexivity|]. split; [|split].
    + intros [|[|[|[|k]]]] v H; simpl in H; try discriminate; injection H as <-; vm_compute; reflexivity.
    + repeat constructor.
    + eexists. split; [vm_compute; reflexivity|reflexivity].
Qed.

(* ---------------------------------------------------------------- C36 *)
(** Every call with more cores than samples fails, for every distribution. *)
Theorem C36_more_cores_than_samples_fail :
  forall Or (c : call Or) w v, uncached_multicore Or c -> (c_n Or c < c_cores Or c)%nat ->
  worker_result Or c w (pred (c_cores Or c)) = Ok v ->
  files Or w (CoreNpy 0) = None -> exists w', sample_call Or c w = (Err FileNotFoundError, w').
Proof. exact too_many_cores. Qed.
Print Assumptions C36_more_cores_than_samples_fail.

Theorem C36_refuted :
  exists c w, sampleable ex_oracle c /\ (forall f, files ex_oracle w f = None) /\
    (exists v, fst (smp ex_oracle (c_obj ex_oracle c) (c_n ex_oracle c) None None (st ex_oracle w)) = Ok v) /\
    fst (sample_call ex_oracle c w) = Err FileNotFoundError.
Proof.
  exists (ex_multi ex_u 2 3 (fun _ => 0%nat) [0; 1; 2]%nat), (ex_world 0).
  split; [split; simpl; [lia|discriminate]|]. split; [reflexivity|].
  split; [eexists|]; vm_compute; reflexivity.
Qed.
Print Assumptions C36_refuted.

(* ---------------------------------------------------------------- C37 *)
(** If every worker succeeds, leftovers are irrelevant: [C35_order_irrelevant] with
    the same schedule and two different sets of files. *)
Theorem C37_leftovers_ignored_partial :
  forall Or (c : call Or) w w' vs, uncached_multicore Or c -> st Or w' = st Or w ->
  Permutation (c_sched Or c) (seq 0 (c_cores Or c)) ->
  length vs = c_cores Or c ->
  (forall k v, nth_error vs k = Some v -> worker_result Or c w k = Ok v) ->
  fst (sample_call Or c w') = fst (sample_call Or c w).
Proof. intros Or c w w' vs U E P L W. apply (multicore_order Or c c w w' vs); auto. Qed.
Print Assumptions C37_leftovers_ignored_partial.

(** A worker that raises leaves its old file in place, which is then consumed. *)
Definition ex_flaky : obj (G ex_oracle) :=
  OCall (fun s => if Nat.even (rng s) then (Err (ValueError "boom"), s) else (Ok (OLit (PInt 1)), s)).
Theorem C37_refuted :
  exists c w stale r, uncached_multicore ex_oracle c /\ (c_cores ex_oracle c <= c_n ex_oracle c)%nat /\
    Permutation (c_sched ex_oracle c) (seq 0 (c_cores ex_oracle c)) /\
    files ex_oracle w (CoreNpy 0) = Some (Scalar stale) /\
    fst (sample_call ex_oracle c w) = Ok (Arr r) /\ In stale r /\
    (** the distribution never produces that value *)
    forall s v s', smp ex_oracle (c_obj ex_oracle c) 1 None None s = (Ok v, s') -> v = Scalar (PInt 1).
Proof.
  exists (ex_multi ex_flaky 2 2 (fun _ => 0%nat) [0; 1]%nat),
    (mkWorld ex_oracle (ex_state 1) (fun _ => None)
       (fun f => match f with CoreNpy 0 => Some (Scalar (PFlt (Fin 99))) | _ => None end)),
    (PFlt (Fin 99)), [PFlt (Fin 99); PFlt (Fin 1)].
  split; [split; [split; simpl; [lia|discriminate]|split; simpl; [lia|auto]]|].
  split; [simpl; lia|]. split; [apply Permutation_refl|]. split; [reflexivity|].
  split; [vm_compute; reflexivity|]. split; [left; reflexivity|].
  intros s v s' H. cbn -[Nat.even] in H. unfold wrap in H. cbn -[Nat.even] in H.
  unfold bindS in H. match type of H with context [Nat.even ?x] => destruct (Nat.even x) end;
    simpl in H; inversion H; reflexivity.
Qed.
Print Assumptions C37_refuted.

(* ---------------------------------------------------------------- C39 *)
(** Workers forked from the same process start with the same generator state, so
    all their batches are equal, for every distribution. *)
Theorem C39_forked_batches_equal :
  forall Or (c : call Or) w j k, (S j < c_cores Or c)%nat -> (S k < c_cores Or c)%nat ->
  c_starts Or c j = c_starts Or c k -> worker_result Or c w j = worker_result Or c w k.
Proof. exact same_start. Qed.
Print Assumptions C39_forked_batches_equal.

Theorem C39_refuted :
  exists c w a, uncached_multicore ex_oracle c /\ (forall k, c_starts ex_oracle c k = st ex_oracle w) /\
    Permutation (c_sched ex_oracle c) (seq 0 (c_cores ex_oracle c)) /\
    length a = 2%nat /\ NoDup a /\
    fst (sample_call ex_oracle c w) = Ok (Arr (a ++ a ++ a)).
Proof.
  exists (ex_multi ex_u 6 3 (fun _ => 0%nat) [0; 1; 2]%nat), (ex_world 0). eexists [_; _].
  split; [split; [split; simpl; [lia|discriminate]|split; simpl; [lia|auto]]|].
  split; [reflexivity|]. split; [apply Permutation_refl|]. split; [reflexivity|].
  split; [|vm_compute; reflexivity].
  repeat constructor; simpl; [|tauto]. intros [H|[]]. discriminate.
Qed.
Print Assumptions C39_refuted.

(* ---------------------------------------------------------------- C45 *)
Theorem C45_refuted :
  exists key n w r w1 x old new, heap_ok ex_oracle w /\
    h_sample ex_oracle key ex_u n true w = (Ok r, w1) /\
    deref (heap ex_oracle w1) r = Some old /\
    (** the caller overwrites the first element of what it got *)
    (let w2 := poke ex_oracle r 0 x w1 in
     exists r2 w3, h_sample ex_oracle key ex_u n true w2 = (Ok r2, w3) /\
       deref (heap ex_oracle w3) r2 = Some new /\ new <> old).
Proof.
  exists "u"%string, 2%nat, (mkH ex_oracle (ex_state 0) (fun _ => None) (fun _ => None) 0).
  do 2 eexists. exists (PInt 99). do 2 eexists. split.
  - split; [intros k l H; discriminate|reflexivity].
  - split; [cbv; reflexivity|]. split; [cbv; reflexivity|]. cbv zeta. do 2 eexists.
    split; [cbv; reflexivity|]. split; [cbv; reflexivity|]. discriminate.
Qed.
Print Assumptions C45_refuted.

(** Results of calls without [memcache], and scalars, are private. *)
Theorem C45_uncached_results_private_partial :
  forall Or key (o : obj (G Or)) n w r w1 i x k c, heap_ok Or w -> h_sample Or key o n false w = (Ok r, w1) ->
  h_mem Or w1 k = Some c ->
  deref (heap Or (poke Or r i x w1)) c = deref (heap Or w1) c /\ h_mem Or (poke Or r i x w1) k = Some c.
Proof. exact private_result. Qed.
Print Assumptions C45_uncached_results_private_partial.

(** Writing one element of a returned array changes that element alone. *)
Theorem C45_write_one_element :
  forall Or l i x w xs, heap Or w l = Some xs -> (i < length xs)%nat ->
  exists ys, deref (heap Or (poke Or (RLoc l) i x w)) (RLoc l) = Some (Arr ys) /\ length ys = length xs /\
    nth_error ys i = Some x /\ (forall j, j <> i -> nth_error ys j = nth_error xs j) /\
    (forall l', l' <> l -> heap Or (poke Or (RLoc l) i x w) l' = heap Or w l').
Proof. exact poke_one. Qed.
Print Assumptions C45_write_one_element.

Theorem C45_heap_ok_preserved :
  forall Or key (o : obj (G Or)) n b w r w', heap_ok Or w -> h_sample Or key o n b w = (r, w') -> heap_ok Or w'.
Proof. exact h_sample_ok. Qed.
Print Assumptions C45_heap_ok_preserved.

(** The model with identities returns the same values as the model without. *)
Theorem C45_same_values :
  forall Or key (o : obj (G Or)) n b s0 w u, heap_ok Or w -> abstracts Or w u -> (1 <= n)%nat -> o <> OOther ->
  match h_sample Or key o n b w, sample_call Or (plain_call Or key o n b s0) u with
  | (Ok r, w'), (Ok v, u') => deref (heap Or w') r = Some v /\ abstracts Or w' u'
  | (Err e, w'), (Err e', u') => e = e' /\ abstracts Or w' u'
  | _, _ => False
  end.
Proof. exact h_refines. Qed.
Print Assumptions C45_same_values.

Example C45_sat :
  let w := mkH ex_oracle (ex_state 0) (fun _ => Some (RLoc 0)) (fun l => if Nat.eqb l 0 then Some [PInt 1; PInt 2] else None) 1 in
  heap_ok ex_oracle w /\ exists r w1, h_sample ex_oracle "u" ex_u 2 false w = (Ok r, w1) /\ h_mem ex_oracle w1 "u" = Some (RLoc 0).
Proof.
  cbv zeta. split.
  - split; simpl.
    + intros k l H. injection H as <-. split; [lia|discriminate].
    + intros l H. destruct (Nat.eqb_spec l 0); [lia|reflexivity].
  - do 2 eexists. split; [cbv; reflexivity|reflexivity].
Qed.

(* ---------------------------------------------------------------- C87 *)
Theorem C87_nested_text :
  forall (fmt : pv -> string), (forall x, no_angle (fmt x)) -> forall T (e : pexp T),
  plain_names e -> is_operation e ->
  exists t, text fmt e = String.append head_mark t /\ ~ occurs_in head_mark t.
Proof. exact @nested_text. Qed.
Print Assumptions C87_nested_text.

Theorem C87_equal_hash :
  forall fmt T h version (e1 e2 : pexp T), text fmt e1 = text fmt e2 ->
  hash_of fmt h version e1 = hash_of fmt h version e2 /\
  repr_text fmt version e1 = String.append (text fmt e1) (String.append " (version " (String.append version ")")).
Proof. intros fmt T h version e1 e2 E. unfold hash_of, repr_text. now rewrite E. Qed.
Print Assumptions C87_equal_hash.

Example C87_sat :
  let e : pexp nat := XInfix (IOp Add) (XLeaf (KNorm (NI 0) (NI 1) None None)) (XMixture [(NI 1, XLeaf (KBeta (NI 1) (NI 2)))] None None) in
  plain_names e /\ is_operation e.
Proof. simpl. auto. Qed.
