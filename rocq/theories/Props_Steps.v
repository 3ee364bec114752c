(** C143-C145: schedules, crashes and concurrency of multicore calls. *)
From Coq Require Import Lia Arith Permutation.
From Verif Require Import Base M_Weights M_Pick M_Values M_Sampler M_SampleApi SpecCache M_Bayesnet SpecBayes
  M_Steps SpecSteps P_Steps P_Steps2 P_Steps3.
Open Scope nat_scope.

(** However the processes are interleaved, a call on its own ends in one way only. *)
Theorem C143_schedule_independent :
  forall (V : Type) (r : run V) d l l' o o', 1 <= r_cores r ->
  ends r l d o -> ends r l' d o' -> o = o'.
Proof.
  intros V r d l l' o o' C H H'. eapply result_fun; eapply ends_result; eauto.
Qed.
Print Assumptions C143_schedule_independent.

(** It is the way the specification gives: the own batch's exception, or the files in
    core order. *)
Theorem C143_result :
  forall (V : Type) (r : run V) d l o, 1 <= r_cores r -> ends r l d o -> result r d o.
Proof. intros V r d l o C. exact (ends_result r C d l o). Qed.
Print Assumptions C143_result.

(** With every batch computed (and, for [bayesnet], no leftover file) the call returns
    the batches in core order and leaves none of its files. *)
Theorem C143_batches_in_order :
  forall (V : Type) (r : run V) d l vs o, 1 <= r_cores r -> all_compute r vs ->
  r_kind r = Npy \/ no_leftovers r d -> ends r l d o ->
  o = Returned vs /\
  forall k, fst (execute r l (d, begin)) k = if Nat.ltb k (r_cores r) then FAbsent else d k.
Proof.
  intros V r d l vs o C A K H. pose proof (ends_result r C d l o H) as R.
  assert (o = Returned vs) by (eapply compute_result; eauto). subst. split; auto.
  exact (ends_clean r C d l vs H).
Qed.
Print Assumptions C143_batches_in_order.

(** No deadlock: every schedule can be continued until nothing moves, and when nothing
    moves the call has ended. *)
Theorem C143_no_deadlock :
  forall (V : Type) (r : run V) d l, 1 <= r_cores r ->
  (exists l', at_rest r (execute r (l ++ l') (d, begin))) /\
  (at_rest r (execute r l (d, begin)) -> exists o, ends r l d o /\ result r d o).
Proof. intros V r d l C. split; [exact (rest_total r C d l)|exact (rest_result r C d l)]. Qed.
Print Assumptions C143_no_deadlock.

(** Termination: no schedule makes more than 7 steps per core and 2 more, every step counted. *)
Theorem C143_terminates :
  forall (V : Type) (r : run V) d l, 1 <= r_cores r -> moves r l (d, begin) <= 7 * r_cores r + 2.
Proof. intros V r d l C. exact (moves_total r C d l). Qed.
Print Assumptions C143_terminates.
Theorem C143_counts :
  forall (V : Type) (r : run V) l m x, moves r (l ++ [m]) x =
  match step r m (fst (execute r l x)) (snd (execute r l x)) with Some _ => S (moves r l x) | None => moves r l x end.
Proof. exact @moves_snoc. Qed.
Print Assumptions C143_counts.

(** The one-step model of a [sample] call gives what every schedule gives. *)
Theorem C143_sample_call :
  forall (Or : oracle) (c : call Or) w a l o, 2 <= c_cores Or c ->
  Permutation (c_sched Or c) (seq 0 (c_cores Or c)) ->
  ends (run_of Or c w a) l (npy_slots Or w) o ->
  match o with
  | Returned vs => fst (multicore Or c w) = Ok (joined_files Or vs)
  | Raised e => fst (multicore Or c w) = Err e
  | Missing => fst (multicore Or c w) = Err FileNotFoundError
  | Unreadable => False
  end.
Proof. exact sample_schedules. Qed.
Print Assumptions C143_sample_call.

(** The same for [bayesnet] calls whose batches are computed, with any leftovers. *)
Theorem C143_bayesnet_call :
  forall (S E Y : Type) body wire (c : bcall S E Y) f w a l o ws, 2 <= q_cores _ _ _ c ->
  all_finish S E Y c -> all_compute (brun_of S E Y body wire c f w a) ws ->
  ends (brun_of S E Y body wire c f w a) l (msg_slots S E w) o ->
  match o with
  | Returned vs => fst (generate S E Y body wire c f w) = Ok (concat vs)
  | Missing => fst (generate S E Y body wire c f w) = Err FileNotFoundError
  | Unreadable => fst (generate S E Y body wire c f w) = Err Unmodelled
  | Raised _ => False
  end.
Proof. exact net_schedules. Qed.
Print Assumptions C143_bayesnet_call.

(** Two cores of each kind; the second task is the calling process. *)
Definition two (k : kind) (area a b : nat) : run nat :=
  mkRun k area 2 (fun i => Ok (match i with 0 => a | _ => b end)).
Definition nothing : slots nat := fun _ => FAbsent.
Definition t0 : list mover := repeat (Task 0) 5.
Definition t1 : list mover := repeat (Task 1) 5.
Definition collecting : list mover := repeat Parent 6.
Example C143_sat :
  ends (two Npy 0 5 6) (t0 ++ t1 ++ collecting) nothing (Returned [5; 6]) /\
  ends (two Npy 0 5 6) ([Task 1; Parent; Task 0; Task 1; Task 0; Task 1; Parent] ++ t0 ++ t1 ++ collecting)
    (fun _ => FWhole 9) (Returned [5; 6]) /\
  ends (two Msg 0 5 6) ([Task 1; Task 1; Parent; Task 0] ++ t1 ++ t0 ++ collecting) nothing (Returned [5; 6]) /\
  all_compute (two Msg 0 5 6) [5; 6] /\ no_leftovers (two Msg 0 5 6) nothing /\
  ends (mkRun Npy 0 2 (fun k => match k with 0 => Err IndexError | _ => Ok 6 end)) (t0 ++ t1 ++ collecting) nothing Missing.
Proof. repeat split; try reflexivity. repeat constructor. Qed.

(** Leftovers of crashed calls, complete or not, never change what a [sample] call
    returns. *)
Theorem C144_sample_ignores_leftovers_partial :
  forall (V : Type) (r : run V) d l vs o, 1 <= r_cores r -> r_kind r = Npy -> all_compute r vs ->
  ends r l d o -> o = Returned vs.
Proof. intros V r d l vs o C K A H. exact (proj1 (C143_batches_in_order V r d l vs o C A (or_introl K) H)). Qed.
Print Assumptions C144_sample_ignores_leftovers_partial.

(** A [bayesnet] call interrupted between opening and closing a file makes every later
    call that uses this file fail, for ever: no later call of any number of calls, in
    any interleaving, removes the file or returns. *)
Theorem C144_bayesnet_stuck :
  forall (V : Type) (runs : nat -> run V) (a k : nat),
  (forall i, r_area (runs i) = a -> r_kind (runs i) = Msg) ->
  forall d l, d a k = FPart ->
  fst (gexecute runs l (d, fun _ => begin)) a k = FPart /\
  forall i vs, r_area (runs i) = a -> k < r_cores (runs i) ->
    p_parent (snd (gexecute runs l (d, fun _ => begin)) i) <> PEnd (Returned vs).
Proof. intros V runs a k M d l D. exact (stuck runs a k M d l D). Qed.
Print Assumptions C144_bayesnet_stuck.

(** One interrupted before collecting hands its events to the next call. *)
Theorem C144_bayesnet_takes_leftovers :
  forall (V : Type) (r : run V) d vs v l o, 1 <= r_cores r -> r_kind r = Msg -> reads (r_cores r) d vs ->
  r_batch r (pred (r_cores r)) = Ok v -> ends r l d o -> o = Returned vs.
Proof. intros V r d vs v l o. exact (kept_reads r d vs v l o). Qed.
Print Assumptions C144_bayesnet_takes_leftovers.

(** So for [bayesnet] crashes are not harmless: after a call stopped at some point, a
    new call with all batches computed returns the old events, or cannot read a file. *)
Theorem C144_crash_harmless_refuted :
  exists (r r' : run nat) vs, r_kind r = Msg /\ r_kind r' = Msg /\ r_area r = r_area r' /\ all_compute r' vs /\
  (exists crash l, ends r' l (fst (execute r crash (nothing, begin))) Unreadable) /\
  (exists crash l old, old <> vs /\ ends r' l (fst (execute r crash (nothing, begin))) (Returned old)).
Proof.
  exists (two Msg 0 5 6), (two Msg 0 7 8), [7; 8]. split; [reflexivity|]. split; [reflexivity|]. split; [reflexivity|].
  split; [repeat constructor|]. split.
  - exists [Task 0; Task 0; Task 0], (t0 ++ t1 ++ collecting). reflexivity.
  - exists (t0 ++ t1), (t0 ++ t1 ++ collecting), [5; 6]. split; [discriminate|reflexivity].
Qed.
Print Assumptions C144_crash_harmless_refuted.

Example C144_sat :
  ends (two Npy 0 7 8) (t0 ++ t1 ++ collecting) (fst (execute (two Npy 0 5 6) [Task 0; Task 0] (nothing, begin))) (Returned [7; 8]) /\
  (let d := fst (execute (two Msg 0 5 6) [Task 0; Task 0; Task 0] (nothing, begin)) in d 0 = FPart).
Proof. split; reflexivity. Qed.

(** Calls in different directories, or of different kinds, do not touch each other:
    in every interleaving each goes through the states it goes through alone. *)
Theorem C145_unshared_directories_partial :
  forall (V : Type) (runs : nat -> run V) i, (forall j, j <> i -> r_area (runs j) <> r_area (runs i)) ->
  forall l d ps, (fst (gexecute runs l (d, ps)) (r_area (runs i)), snd (gexecute runs l (d, ps)) i) =
    execute (runs i) (map snd (filter (fun im => Nat.eqb (fst im) i) l)) (d (r_area (runs i)), ps i).
Proof. intros V runs i H l d ps. exact (solo runs i H l (d, ps)). Qed.
Print Assumptions C145_unshared_directories_partial.

(** So such a call, with all batches computed and no leftovers, returns its own
    batches whatever the others do or fail to do. *)
Theorem C145_own_batches_partial :
  forall (V : Type) (runs : nat -> run V) i vs, (forall j, j <> i -> r_area (runs j) <> r_area (runs i)) ->
  1 <= r_cores (runs i) -> all_compute (runs i) vs ->
  forall l d ps o, ps i = begin -> r_kind (runs i) = Npy \/ no_leftovers (runs i) (d (r_area (runs i))) ->
  p_parent (snd (gexecute runs l (d, ps)) i) = PEnd o -> o = Returned vs.
Proof.
  intros V runs i vs H C A l d ps o B K E. pose proof (solo runs i H l (d, ps)) as S. simpl in S. rewrite B in S.
  apply (f_equal snd) in S. simpl in S. rewrite S in E.
  exact (proj1 (C143_batches_in_order V (runs i) _ _ vs o C A K E)).
Qed.
Print Assumptions C145_own_batches_partial.

(** Two calls of the same kind in one directory: one returns the other's batches, or
    ends because a file is missing; for both kinds. *)
Theorem C145_concurrent_calls_refuted :
  forall k, exists (r r' : run nat) vs vs', r_kind r = k /\ r_kind r' = k /\ r_area r = r_area r' /\
  all_compute r vs /\ all_compute r' vs' /\ vs <> vs' /\
  let runs := fun i => if Nat.eqb i 0 then r else r' in
  exists l, let x := snd (gexecute runs l (fun _ => nothing, fun _ => begin)) in
  (p_parent (x 0) = PEnd (Returned vs') /\ p_parent (x 1) = PEnd Missing) \/
  (p_parent (x 1) = PEnd (Returned vs) /\ p_parent (x 0) = PEnd Missing).
Proof.
  intros k. exists (two k 0 5 6), (two k 0 7 8), [5; 6], [7; 8].
  split; [reflexivity|]. split; [reflexivity|]. split; [reflexivity|].
  split; [repeat constructor|]. split; [repeat constructor|]. split; [discriminate|].
  destruct k.
  - exists (map (pair 0) (t0 ++ t1) ++ map (pair 1) (t0 ++ t1) ++ map (pair 0) collecting ++ map (pair 1) collecting).
    left. split; reflexivity.
  - exists (map (pair 0) (t0 ++ t1) ++ map (pair 1) (t0 ++ t1) ++ map (pair 1) collecting ++ map (pair 0) collecting).
    right. split; reflexivity.
Qed.
Print Assumptions C145_concurrent_calls_refuted.

Example C145_sat :
  let runs := fun i => if Nat.eqb i 0 then two Npy 0 5 6 else two Msg 1 7 8 in
  let l := map (pair 0) (t0 ++ t1) ++ map (pair 1) (t0 ++ t1) ++ map (pair 0) collecting ++ map (pair 1) collecting in
  let x := snd (gexecute runs l (fun _ => nothing, fun _ => begin)) in
  p_parent (x 0) = PEnd (Returned [5; 6]) /\ p_parent (x 1) = PEnd (Returned [7; 8]).
Proof. split; reflexivity. Qed.
