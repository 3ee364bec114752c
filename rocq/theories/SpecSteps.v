(** Specification vocabulary for schedules of multicore calls. *)
From Verif Require Import Base M_Steps.
Open Scope nat_scope.

Section SpecSteps.
  Context {V : Type}.

  (** The file of task [k] once every task has ended, if it was [f] before the call:
      [sample] overwrites it with the batch; [bayesnet] keeps a file that is there. *)
  Definition left_behind (r : run V) (k : nat) (f : file V) : file V :=
    match r_kind r, f, r_batch r k with
    | Msg, FPart, _ | Msg, FWhole _, _ => f
    | _, _, Ok v => FWhole v
    | _, _, Err _ => f
    end.

  (** The files [0 .. n-1], read in order. *)
  Definition reads (n : nat) (d : slots V) (vs : list V) : Prop :=
    Forall2 (fun k v => d k = FWhole v) (seq 0 n) vs.
  Definition first_bad (n : nat) (d : slots V) (k : nat) : Prop :=
    k < n /\ (forall j, j < k -> exists v, d j = FWhole v) /\ (forall v, d k <> FWhole v).

  (** The result of a call that finds the files [d]. *)
  Definition result (r : run V) (d : slots V) (o : outcome V) : Prop :=
    match r_batch r (pred (r_cores r)) with
    | Err e => o = Raised e
    | Ok _ =>
        let d' := fun k => left_behind r k (d k) in
        (exists vs, reads (r_cores r) d' vs /\ o = Returned vs) \/
        (exists k, first_bad (r_cores r) d' k /\ d' k = FAbsent /\ o = Missing) \/
        (exists k, first_bad (r_cores r) d' k /\ d' k = FPart /\ o = Unreadable)
    end.

  (** Every task computes its batch. *)
  Definition all_compute (r : run V) (vs : list V) : Prop :=
    Forall2 (fun k v => r_batch r k = Ok v) (seq 0 (r_cores r)) vs.
  Definition no_leftovers (r : run V) (d : slots V) : Prop := forall k, k < r_cores r -> d k = FAbsent.

  (** The call has ended with [o] after the schedule [l]. *)
  Definition ends (r : run V) (l : list mover) (d : slots V) (o : outcome V) : Prop :=
    p_parent (snd (execute r l (d, begin))) = PEnd o.
  (** No process of the call can move any more. *)
  Definition at_rest (r : run V) (x : slots V * progress V) : Prop :=
    forall m, step r m (fst x) (snd x) = None.
End SpecSteps.

(** The multicore calls of M_SampleApi and M_Bayesnet as runs of processes. *)
From Coq Require Import Permutation.
From Verif Require Import M_Values M_Sampler M_SampleApi M_Bayesnet SpecCache SpecBayes.
Section Calls.
  Variable Or : oracle.
  Definition run_of (c : call Or) (w : world Or) (area : nat) : M_Steps.run val :=
    mkRun Npy area (c_cores Or c) (worker_result Or c w).
  Definition npy_slots (w : world Or) : slots val :=
    fun k => match files Or w (CoreNpy k) with Some v => FWhole v | None => FAbsent end.
  (** What [sample] makes of the files (samplers.py:1045-1050). *)
  Definition joined_files (vs : list val) : val :=
    Arr (fold_left (fun a v => cat (fmt Or) a (enlist v)) vs []).
End Calls.
Section BCalls.
  Variables S E Y : Type.
  Variable body : nat -> S -> res E * S.
  Variable wire : E -> res E.
  Definition brun_of (c : bcall S E Y) (f : nat) (w : bworld S E) (area : nat) : M_Steps.run (list E) :=
    mkRun Msg area (q_cores _ _ _ c) (bworker S E Y body wire c f w).
  Definition msg_slots (w : bworld S E) : slots (list E) :=
    fun k => match b_core _ _ w k with Some (Some l) => FWhole l | Some None => FPart | None => FAbsent end.
End BCalls.
