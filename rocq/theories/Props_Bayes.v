(** Properties of [simple_bayes] and [bayesnet] (C38, C40-C45, C92, C93). *)
From Verif Require Import Base M_Weights M_Pick M_Values M_Sampler M_SampleApi M_Bayesnet SpecBayes
  P_SimpleBayes P_Bayesnet.
Open Scope Q_scope.

(** A small concrete program for the examples and refutations: events are numbers;
    function [f] returns [100 f + s] where [s] counts calls, and raises when the
    count reaches 7. *)
Definition ex_body (f s : nat) : res nat * nat :=
  if Nat.eqb s 7 then (Err RuntimeError, s) else (Ok (100 * f + s)%nat, Datatypes.S s).
Definition ex_wire (e : nat) : res nat := Ok e.
Definition ex_net := bayesnet nat nat unit ex_body ex_wire.
Definition ex_bc (f n cores : nat) (sched : list nat) : bcall nat nat unit :=
  mkBC nat nat unit (Some f) n None None None false (Some true) true true false None None false cores (fun k => k) sched.
Definition ex_bw (s : nat) : bworld nat nat := mkB nat nat s (fun _ => None) (fun _ => None) (fun _ => None).
Definition ex_ask (f n : nat) : bcall nat nat unit :=
  mkBC nat nat unit (Some f) n (Some (fun e => Ok (PBool (Nat.eqb e 1)))) (Some (fun e => Ok (Nat.ltb e 3))) None false
    (Some true) true true false None None false 1 (fun k => k) [].

(* ---------------------------------------------------------------- C38 *)
(** A multicore call on function 0 raises in the parent while worker 0 has already
    written its batch; the next multicore call, on function 1, returns that batch. *)
Theorem C38_refuted :
  exists (w : bworld nat nat) c1 c2 w1 w2 es,
    clean nat nat unit c1 w /\ q_fn _ _ _ c1 = Some 0%nat /\ q_fn _ _ _ c2 = Some 1%nat /\
    ex_net c1 w = (Err RuntimeError, w1) /\
    all_finish nat nat unit c2 /\
    ex_net c2 (mkB nat nat 0%nat (b_mem _ _ w1) (b_cache _ _ w1) (b_core _ _ w1)) = (Ok (OEvents nat unit es), w2) /\
    exists e, In e es /\ forall s s', ex_body 1 s <> (Ok e, s').
Proof.
  exists (ex_bw 7), (ex_bc 0 4 2 [0%nat]), (ex_bc 1 4 2 [0; 1]%nat). do 2 eexists. exists [0; 1; 100; 101]%nat.
  split; [intros k _; reflexivity|]. split; [reflexivity|]. split; [reflexivity|].
  split; [reflexivity|]. split; [intros k Hk; simpl in *; destruct k as [|[|k]]; auto; lia|].
  split; [reflexivity|]. exists 0%nat. split; [now left|].
  intros s s'. unfold ex_body. destruct (Nat.eqb s 7); [congruence|]. intros H. inversion H.
Qed.
Print Assumptions C38_refuted.

(** Without leftovers, and whatever the order in which workers finish, the events
    are the workers' batches in core order, n in total, and no file is left over. *)
Theorem C38_without_leftovers_partial :
  forall S E Y body wire (c : bcall S E Y) w f vs,
  q_fn _ _ _ c = Some f -> uncached S E Y c w -> q_dump _ _ _ c = None ->
  (2 <= q_cores _ _ _ c)%nat -> clean S E Y c w -> all_finish S E Y c ->
  Forall2 (fun k v => bworker S E Y body wire c f w k = Ok v) (seq 0 (q_cores _ _ _ c)) vs ->
  fst (bayesnet S E Y body wire c w) = analyse S E Y c (concat vs) /\
  clean S E Y c (snd (bayesnet S E Y body wire c w)).
Proof. exact multicore_clean. Qed.
Print Assumptions C38_without_leftovers_partial.

Theorem C38_event_count_partial :
  forall S E Y body wire (c : bcall S E Y) w f vs, (1 <= q_cores _ _ _ c)%nat ->
  Forall2 (fun k v => bworker S E Y body wire c f w k = Ok v) (seq 0 (q_cores _ _ _ c)) vs ->
  length (concat vs) = q_n _ _ _ c.
Proof. exact multicore_count. Qed.
Print Assumptions C38_event_count_partial.

Example C38_sat :
  let c := ex_bc 1 5 2 [1; 0]%nat in
  Forall2 (fun k v => bworker nat nat unit ex_body ex_wire c 1 (ex_bw 3) k = Ok v) (seq 0 2) [[100; 101]; [103; 104; 105]]%nat /\
  fst (ex_net c (ex_bw 3)) = Ok (OEvents nat unit [100; 101; 103; 104; 105]%nat).
Proof. split; [repeat constructor|reflexivity]. Qed.

(* ---------------------------------------------------------------- C40 *)
(** The posterior is a probability, satisfies P(h|e) P(e) = P(h and e), and has odds
    prior odds times likelihood ratio. *)
Theorem C40_bayes_rule :
  forall lh lnh prior, is_prob lh -> is_prob lnh -> is_prob prior ->
  forall q, simple_bayes lh lnh prior = Ok q ->
  is_prob q /\ q * (lh * prior + lnh * (1 - prior)) == lh * prior /\
  q * (lnh * (1 - prior)) == (1 - q) * (lh * prior).
Proof. exact bayes_rule. Qed.
Print Assumptions C40_bayes_rule.

Theorem C40_raises_iff_evidence_impossible :
  forall lh lnh prior, simple_bayes lh lnh prior = Err ZeroDivisionError <-> lh * prior + lnh * (1 - prior) == 0.
Proof. exact bayes_raises. Qed.
Print Assumptions C40_raises_iff_evidence_impossible.

Theorem C40_complement :
  forall lh lnh prior q r,
  simple_bayes lh lnh prior = Ok q -> simple_bayes lnh lh (1 - prior) = Ok r -> q + r == 1.
Proof. exact bayes_complement. Qed.
Print Assumptions C40_complement.

Theorem C40_monotone_in_prior :
  forall lh lnh p1 p2 q1 q2, is_prob lh -> is_prob lnh -> is_prob p1 -> is_prob p2 -> p1 <= p2 ->
  simple_bayes lh lnh p1 = Ok q1 -> simple_bayes lh lnh p2 = Ok q2 -> q1 <= q2.
Proof. exact bayes_monotone. Qed.
Print Assumptions C40_monotone_in_prior.

Theorem C40_strictly_monotone_in_prior :
  forall lh lnh p1 p2 q1 q2, 0 < lh -> 0 < lnh -> is_prob p1 -> is_prob p2 -> p1 < p2 ->
  simple_bayes lh lnh p1 = Ok q1 -> simple_bayes lh lnh p2 = Ok q2 -> q1 < q2.
Proof. exact bayes_strict. Qed.
Print Assumptions C40_strictly_monotone_in_prior.

(** Evidence likelier under the hypothesis or less likely without it raises the posterior. *)
Theorem C40_monotone_in_likelihoods :
  forall lh lnh lh' lnh' p q q', is_prob lh -> is_prob lnh' -> is_prob p -> lh <= lh' -> lnh' <= lnh ->
  simple_bayes lh lnh p = Ok q -> simple_bayes lh' lnh' p = Ok q' -> q <= q'.
Proof. exact bayes_evidence. Qed.
Print Assumptions C40_monotone_in_likelihoods.

Theorem C40_sequential_updates :
  forall lh1 lnh1 lh2 lnh2 prior q1, simple_bayes lh1 lnh1 prior = Ok q1 ->
  match simple_bayes lh2 lnh2 q1, simple_bayes (lh1 * lh2) (lnh1 * lnh2) prior with
  | Ok a, Ok b => a == b
  | Err e, Err e' => e = e'
  | _, _ => False
  end.
Proof. exact bayes_sequential. Qed.
Print Assumptions C40_sequential_updates.

Example C40_sat :
  exists q, simple_bayes (8 # 10) (96 # 1000) (1 # 100) = Ok q /\ q == 25 # 322 /\
  simple_bayes 0 0 (1 # 2) = Err ZeroDivisionError.
Proof. eexists. split; [reflexivity|]. split; reflexivity. Qed.

(* ---------------------------------------------------------------- C41 *)
(** [es] are the results of exactly n consecutive calls of the event function. *)
Theorem C41_rejection_sampling :
  forall S E Y body wire (c : bcall S E Y) w f find given es s',
  q_fn _ _ _ c = Some f -> asks S E Y c find given -> q_cores _ _ _ c = 1%nat -> q_dump _ _ _ c = None ->
  uncached S E Y c w ->
  calls S E body f (b_st _ _ w) es s' -> length es = q_n _ _ _ c ->
  b_st _ _ (snd (bayesnet S E Y body wire c w)) = s' /\
  (count given es = 0%nat ->
   fst (bayesnet S E Y body wire c w) = Err (ValueError "insufficient samples for condition")) /\
  ((0 < count given es)%nat -> exists q,
     fst (bayesnet S E Y body wire c w) = Ok (OMean E Y (PFlt (Fin q))) /\
     q == fraction find given es /\ 0 <= q /\ q <= 1).
Proof. exact rejection. Qed.
Print Assumptions C41_rejection_sampling.

(** Whatever find, condition and reduction: a result comes from n consecutive calls. *)
(** The values found must be numbers to be averaged. *)
Theorem C41_mean_needs_numbers :
  forall S E Y (c : bcall S E Y) f es vs v,
  q_cond _ _ _ c = None -> q_find _ _ _ c = Some f -> q_raw _ _ _ c = false -> q_reduce _ _ _ c = None ->
  es <> [] -> mapM f es = Ok vs -> In v vs -> as_x v = None -> analyse S E Y c es = Err TypeError.
Proof. exact mean_needs_numbers. Qed.
Print Assumptions C41_mean_needs_numbers.
Theorem C41_exactly_n_calls :
  forall S E Y body wire (c : bcall S E Y) w f o,
  q_fn _ _ _ c = Some f -> q_cores _ _ _ c = 1%nat -> uncached S E Y c w ->
  fst (bayesnet S E Y body wire c w) = Ok o ->
  exists es, calls S E body f (b_st _ _ w) es (b_st _ _ (snd (bayesnet S E Y body wire c w))) /\
    length es = q_n _ _ _ c /\ analyse S E Y c es = Ok o.
Proof. exact rejection_inv. Qed.
Print Assumptions C41_exactly_n_calls.

Theorem C41_event_errors_propagate :
  forall S E Y body wire (c : bcall S E Y) w f es s1 e s2,
  q_fn _ _ _ c = Some f -> q_cores _ _ _ c = 1%nat -> uncached S E Y c w ->
  calls S E body f (b_st _ _ w) es s1 -> (length es < q_n _ _ _ c)%nat -> body f s1 = (Err e, s2) ->
  bayesnet S E Y body wire c w = (Err e, mkB S E s2 (b_mem _ _ w) (b_cache _ _ w) (b_core _ _ w)).
Proof. exact event_raises. Qed.
Print Assumptions C41_event_errors_propagate.

Example C41_sat :
  asks nat nat unit (ex_ask 0 5) (fun e => Nat.eqb e 1) (fun e => Nat.ltb e 3) /\
  uncached nat nat unit (ex_ask 0 5) (ex_bw 0) /\
  calls nat nat ex_body 0 0%nat [0; 1; 2; 3; 4]%nat 5%nat /\
  (exists q, fst (ex_net (ex_ask 0 5) (ex_bw 0)) = Ok (OMean nat unit (PFlt (Fin q))) /\ q == 1 # 3) /\
  fst (ex_net (ex_ask 0 3) (ex_bw 4)) = Err (ValueError "insufficient samples for condition").
Proof.
  split; [repeat split|]. split; [split; auto|]. split; [repeat (econstructor; [reflexivity|]); constructor|].
  split; [eexists; split; reflexivity|reflexivity].
Qed.

(* ---------------------------------------------------------------- C42 *)
Theorem C42_caching_transparent :
  forall S E Y body wire (c1 : bcall S E Y) w0 f es s' h (c2 : bcall S E Y),
  default_caching S E Y c1 -> q_fn _ _ _ c1 = Some f -> q_cores _ _ _ c1 = 1%nat -> b_mem _ _ w0 (Some f) = None ->
  calls S E body f (b_st _ _ w0) es s' -> length es = q_n _ _ _ c1 ->
  Forall (leaves_alone S E Y (Some f)) h ->
  default_caching S E Y c2 -> q_fn _ _ _ c2 = Some f ->
  let w := brun S E Y body wire h (snd (bayesnet S E Y body wire c1 w0)) in
  ((q_n _ _ _ c2 <= q_n _ _ _ c1)%nat -> bayesnet S E Y body wire c2 w = (analyse S E Y c2 es, w)) /\
  ((q_n _ _ _ c1 < q_n _ _ _ c2)%nat ->
   bayesnet S E Y body wire c2 w = (Err (ValueError "insufficient samples"), w)).
Proof. exact caching_transparent. Qed.
Print Assumptions C42_caching_transparent.

(** However the entry came about (several cores, a file, a reload), it is reused. *)
Theorem C42_entry_reused :
  forall S E Y body wire (c : bcall S E Y) w es m,
  default_caching S E Y c -> b_mem _ _ w (q_fn _ _ _ c) = Some (es, m) ->
  ((q_n _ _ _ c <= m)%nat -> bayesnet S E Y body wire c w = (analyse S E Y c es, w)) /\
  ((m < q_n _ _ _ c)%nat -> bayesnet S E Y body wire c w = (Err (ValueError "insufficient samples"), w)).
Proof. exact cache_hit. Qed.
Print Assumptions C42_entry_reused.

Theorem C42_entry_kept :
  forall S E Y body wire k r h, Forall (leaves_alone S E Y k) h ->
  forall w, b_mem _ _ w k = Some r -> b_mem _ _ (brun S E Y body wire h w) k = Some r.
Proof. exact entry_kept. Qed.
Print Assumptions C42_entry_kept.

Example C42_sat :
  let h := [BCall nat nat unit (ex_bc 2 1 1 []); BOutside nat nat unit 0%nat (fun _ => None) (fun _ => None);
            BCall nat nat unit (ex_ask 1 2)] in
  default_caching nat nat unit (ex_bc 1 4 1 []) /\
  Forall (leaves_alone nat nat unit (Some 1%nat)) h /\
  let w := brun nat nat unit ex_body ex_wire h (snd (ex_net (ex_bc 1 4 1 []) (ex_bw 2))) in
  fst (ex_net (ex_bc 1 4 1 []) w) = Ok (OEvents nat unit [102; 103; 104; 105]%nat) /\
  fst (ex_net (ex_bc 1 5 1 []) w) = Err (ValueError "insufficient samples").
Proof.
  split; [repeat split|]. split; [|split; reflexivity].
  constructor; [simpl; intros [H _]; discriminate|]. constructor; [exact I|].
  constructor; [|constructor]. simpl. intros (_ & _ & H). discriminate.
Qed.

(* ---------------------------------------------------------------- C43 *)
(** After a call with n = 3, a call with n = 1 works with all three events. *)
Theorem C43_refuted :
  exists (w : bworld nat nat) c1 c2 es,
    default_caching nat nat unit c1 /\ default_caching nat nat unit c2 /\ q_fn _ _ _ c1 = q_fn _ _ _ c2 /\
    plain_events nat nat unit c2 /\
    fst (ex_net c2 (snd (ex_net c1 w))) = Ok (OEvents nat unit es) /\ length es <> q_n _ _ _ c2.
Proof.
  exists (ex_bw 0), (ex_bc 0 3 1 []), (ex_bc 0 1 1 []), [0; 1; 2]%nat. repeat split. discriminate.
Qed.
Print Assumptions C43_refuted.

(** Without a cached entry a single-core call uses exactly n events. *)
Theorem C43_fresh_events_partial :
  forall S E Y body wire (c : bcall S E Y) w f es,
  q_fn _ _ _ c = Some f -> q_cores _ _ _ c = 1%nat -> uncached S E Y c w -> plain_events S E Y c ->
  fst (bayesnet S E Y body wire c w) = Ok (OEvents E Y es) -> length es = q_n _ _ _ c.
Proof. exact fresh_events. Qed.
Print Assumptions C43_fresh_events_partial.

Example C43_sat : fst (ex_net (ex_bc 0 4 1 []) (ex_bw 0)) = Ok (OEvents nat unit [0; 1; 2; 3]%nat).
Proof. reflexivity. Qed.

(* ---------------------------------------------------------------- C44 *)
(** A file with four events is loaded by a call that asks for two; a later call that
    asks for three raises although four events are in memory. *)
Theorem C44_refuted :
  exists (w : bworld nat nat) c1 c2 es m,
    ex_net c1 w = (Ok (OEvents nat unit es), snd (ex_net c1 w)) /\
    b_mem _ _ (snd (ex_net c1 w)) (q_fn _ _ _ c2) = Some (es, m) /\ default_caching nat nat unit c2 /\
    fst (ex_net c2 (snd (ex_net c1 w))) = Err (ValueError "insufficient samples") /\
    (q_n _ _ _ c2 <= length es)%nat.
Proof.
  exists (mkB nat nat 0%nat (fun _ => None) (fun p => if String.eqb p "f" then Some (Some ([0; 1; 2; 3]%nat, 4%nat)) else None)
            (fun _ => None)).
  exists (mkBC nat nat unit (Some 0%nat) 2 None None None false (Some true) true true false None (Some "f"%string) false 1
            (fun k => k) []), (ex_bc 0 3 1 []), [0; 1; 2; 3]%nat, 2%nat.
  split; [reflexivity|]. split; [reflexivity|]. split; [repeat split|]. split; [reflexivity|]. simpl. lia.
Qed.
Print Assumptions C44_refuted.

(** In single-core histories that read no cache files the recorded number is right,
    so the error means that fewer events are stored than requested. *)
Theorem C44_recorded_number_partial :
  forall S E Y body wire h w, breaches S E Y body wire h w -> Forall (simple_action S E Y) h ->
  forall k es m, b_mem _ _ w k = Some (es, m) -> length es = m.
Proof. exact exact_counts. Qed.
Print Assumptions C44_recorded_number_partial.

Theorem C44_error_accurate_partial :
  forall S E Y body wire h w (c : bcall S E Y), breaches S E Y body wire h w -> Forall (simple_action S E Y) h ->
  q_load _ _ _ c = None -> q_reload _ _ _ c = false -> loads S E Y c = true ->
  fst (events_of S E Y body wire c w) = Err (ValueError "insufficient samples") ->
  forall es m, b_mem _ _ w (q_fn _ _ _ c) = Some (es, m) -> (length es < q_n _ _ _ c)%nat.
Proof. exact sufficiency_accurate. Qed.
Print Assumptions C44_error_accurate_partial.

Example C44_sat :
  let h := [BCall nat nat unit (ex_bc 1 4 1 []); BCall nat nat unit (ex_bc 1 2 1 [])] in
  exists w, breaches nat nat unit ex_body ex_wire h w /\ Forall (simple_action nat nat unit) h /\
  b_mem _ _ w (Some 1%nat) = Some ([100; 101; 102; 103]%nat, 4%nat) /\
  fst (events_of nat nat unit ex_body ex_wire (ex_bc 1 5 1 []) w) = Err (ValueError "insufficient samples").
Proof.
  eexists. split; [apply (br_step _ _ _ _ _ [_]); apply (br_step _ _ _ _ _ []); apply (br_start _ _ _ _ _ (ex_bw 0)); reflexivity|].
  split; [repeat constructor|]. split; reflexivity.
Qed.

(* ---------------------------------------------------------------- C45 *)
(** Without find, condition and reduction the caller gets the cached list itself:
    changing it in place changes what later calls return. *)
Theorem C45_bayesnet_refuted :
  exists (w : bworld nat nat) c es es',
    fst (ex_net c w) = Ok (OEvents nat unit es) /\ hands_out_cache nat nat unit c w = true /\
    fst (ex_net c (brun1 nat nat unit ex_body ex_wire (snd (ex_net c w)) (Edit nat nat unit (q_fn _ _ _ c) es')))
      = Ok (OEvents nat unit es') /\ es <> es'.
Proof.
  exists (ex_bw 0), (ex_bc 0 2 1 []), [0; 1]%nat, [9]%nat. repeat split. discriminate.
Qed.
Print Assumptions C45_bayesnet_refuted.

(** The list that is handed out is then the one in memory. *)
Theorem C45_bayesnet_handed_out_is_cached :
  forall S E Y body wire (c : bcall S E Y) w es w',
  bayesnet S E Y body wire c w = (Ok (OEvents E Y es), w') -> hands_out_cache S E Y c w = true ->
  exists m, b_mem S E w' (q_fn S E Y c) = Some (es, m).
Proof. exact handed_out_cached. Qed.
Print Assumptions C45_bayesnet_handed_out_is_cached.

(* ---------------------------------------------------------------- C92 *)
(** Events dumped to a file are what a later call loads, in any later session whose
    actions leave the file alone, with msgpack's effect on the events. *)
Theorem C92_dump_load_round_trip :
  forall S E Y body wire (c1 : bcall S E Y) w0 f es s' p es' h (c2 : bcall S E Y),
  q_fn _ _ _ c1 = Some f -> q_cores _ _ _ c1 = 1%nat -> uncached S E Y c1 w0 -> q_dump _ _ _ c1 = Some p ->
  calls S E body f (b_st _ _ w0) es s' -> length es = q_n _ _ _ c1 -> mapM wire es = Ok es' ->
  Forall (keeps_cache S E Y p (es', q_n _ _ _ c1)) h ->
  q_load _ _ _ c2 = Some p -> q_reload _ _ _ c2 = false -> q_dump _ _ _ c2 = None ->
  let w := brun S E Y body wire h (snd (bayesnet S E Y body wire c1 w0)) in
  (b_mem _ _ w (q_fn _ _ _ c2) = None \/ q_primary _ _ _ c2 = true) ->
  ((q_n _ _ _ c2 <= q_n _ _ _ c1)%nat ->
   fst (bayesnet S E Y body wire c2 w) = analyse S E Y c2 es' /\
   b_st _ _ (snd (bayesnet S E Y body wire c2 w)) = b_st _ _ w) /\
  ((q_n _ _ _ c1 < q_n _ _ _ c2)%nat ->
   bayesnet S E Y body wire c2 w = (Err (ValueError "insufficient samples"), w)).
Proof. exact round_trip. Qed.
Print Assumptions C92_dump_load_round_trip.
(** Unless the file is made the primary source, events in memory are used instead of it. *)
Theorem C92_memory_first :
  forall S E Y body wire (c : bcall S E Y) w p v es m,
  q_load _ _ _ c = Some p -> q_reload _ _ _ c = false -> q_dump _ _ _ c = None -> q_primary _ _ _ c = false ->
  b_cache _ _ w p = Some v -> b_mem _ _ w (q_fn _ _ _ c) = Some (es, m) -> loads _ _ _ c = true ->
  ((q_n _ _ _ c <= m)%nat -> bayesnet S E Y body wire c w = (analyse S E Y c es, w)) /\
  ((m < q_n _ _ _ c)%nat -> bayesnet S E Y body wire c w = (Err (ValueError "insufficient samples"), w)).
Proof. exact memory_first. Qed.
Print Assumptions C92_memory_first.
(** If memory must not be read either, the events are drawn again although both hold some. *)
Theorem C92_neither_used :
  forall S E Y body wire (c : bcall S E Y) w p v r f es s',
  q_load _ _ _ c = Some p -> q_reload _ _ _ c = false -> q_dump _ _ _ c = None -> q_primary _ _ _ c = false ->
  b_cache _ _ w p = Some v -> b_mem _ _ w (q_fn _ _ _ c) = Some r -> loads _ _ _ c = false ->
  q_fn _ _ _ c = Some f -> q_cores _ _ _ c = 1%nat -> calls S E body f (b_st _ _ w) es s' -> length es = q_n _ _ _ c ->
  fst (bayesnet S E Y body wire c w) = analyse S E Y c es /\ b_st _ _ (snd (bayesnet S E Y body wire c w)) = s'.
Proof. exact neither_used. Qed.
Print Assumptions C92_neither_used.

Definition ex_dump : bcall nat nat unit :=
  mkBC nat nat unit (Some 1%nat) 3 None None None false (Some false) true true false (Some "f"%string) None false 1 (fun k => k) [].
Definition ex_load : bcall nat nat unit :=
  mkBC nat nat unit None 2 None None None false (Some false) true true false None (Some "f"%string) false 1 (fun k => k) [].
Example C92_sat :
  mapM ex_wire [100; 101; 102]%nat = Ok [100; 101; 102]%nat /\
  calls nat nat ex_body 1 0%nat [100; 101; 102]%nat 3%nat /\
  fst (ex_net ex_load (snd (ex_net ex_dump (ex_bw 0)))) = Ok (OEvents nat unit [100; 101; 102]%nat).
Proof. split; [reflexivity|]. split; [repeat (econstructor; [reflexivity|]); constructor|reflexivity]. Qed.

Definition ex_both (memory primary : bool) : bcall nat nat unit :=
  mkBC nat nat unit (Some 1%nat) 2 None None None false (Some memory) true true false None (Some "f"%string) primary 1 (fun k => k) [].
Example C92_sources_sat :
  let w := mkB nat nat 0%nat (fun _ => Some ([5; 6]%nat, 2%nat)) (fun _ => Some (Some ([7; 8]%nat, 2%nat))) (fun _ => None) in
  loads _ _ _ (ex_both true false) = true /\ loads _ _ _ (ex_both false false) = false /\
  fst (ex_net (ex_both true false) w) = Ok (OEvents nat unit [5; 6]%nat) /\
  fst (ex_net (ex_both true true) w) = Ok (OEvents nat unit [7; 8]%nat) /\
  fst (ex_net (ex_both false false) w) = Ok (OEvents nat unit [100; 101]%nat).
Proof. repeat split. Qed.

(* ---------------------------------------------------------------- C93 *)
Theorem C93_no_event_fn :
  forall S E Y body wire (c : bcall S E Y) w, q_fn _ _ _ c = None -> uncached S E Y c w ->
  bayesnet S E Y body wire c w = (Ok (ONone E Y), w).
Proof. exact no_event_fn. Qed.
Print Assumptions C93_no_event_fn.

Example C93_sat : ex_net ex_load (ex_bw 0) = (Ok (ONone nat unit), ex_bw 0).
Proof. reflexivity. Qed.
