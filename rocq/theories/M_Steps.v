(** The multicore protocol of [sample] (samplers.py:1012-1054) and [bayesnet]
    (bayes.py:213-258) as steps of separate processes: every computation, opening,
    writing, reading and removing of a file is a step, and a schedule is any sequence
    of steps of any of the processes.  A crash is a process that takes no more steps.
    M_SampleApi and M_Bayesnet describe the same calls as one step each. *)
From Verif Require Import Base.
Open Scope nat_scope.

Section Steps.
  (** What one worker file holds. *)
  Context {V : Type}.

  (** [FPart]: opened for writing and not yet closed (any prefix of the contents may
      be there; reading it raises EOFError, ValueError or DecodeError). *)
  Inductive file : Type := FAbsent | FPart | FWhole (v : V).
  (** The worker files "test-core-<k>" of one directory and one extension. *)
  Definition slots : Type := nat -> file.

  (** [Npy]: [sample], files "test-core-<k>.npy".  [Msg]: [bayesnet], files
      "test-core-<k>.sqcache".  [batch k]: what task [k] computes, or its exception.
      [area]: the directory and extension.  Simplifications: a computed batch can be
      written; of two processes writing one file at once, the last to write wins. *)
  Inductive kind : Type := Npy | Msg.
  Record run : Type := mkRun {
    r_kind : kind;
    r_area : nat;
    r_cores : nat;
    r_batch : nat -> res V
  }.

  (** How the call ends: with the contents of the files, with the exception of its own
      batch, because a file is missing (FileNotFoundError), because a file is
      incomplete. *)
  Inductive outcome : Type := Returned (vs : list V) | Raised (e : exn) | Missing | Unreadable.

  (** Task [k]: computing; about to test whether the file exists (bayes.py:228); about
      to open it (samplers.py:1032, bayes.py:229); writing; finished; failed. *)
  Inductive task : Type := TStart | TCheck | TOpen | TWrite | TDone | TFail.
  (** The calling process after handing out the tasks: waiting (samplers.py:1039,
      bayes.py:240), reading file [k], removing file [k], returned. *)
  Inductive parent : Type :=
  | PWait
  | PRead (k : nat) (acc : list V)
  | PRemove (k : nat) (acc : list V)
  | PEnd (o : outcome).
  Record progress : Type := mkProg { p_task : nat -> task; p_parent : parent }.

  Definition begin : progress := mkProg (fun _ => TStart) PWait.

  Definition set_slot (d : slots) (k : nat) (f : file) : slots := fun i => if Nat.eqb i k then f else d i.
  Definition set_task (p : progress) (k : nat) (t : task) : progress :=
    mkProg (fun i => if Nat.eqb i k then t else p_task p i) (p_parent p).
  Definition set_parent (p : progress) (q : parent) : progress := mkProg (p_task p) q.

  Definition absent (f : file) : bool := match f with FAbsent => true | _ => false end.
  Definition own (r : run) (k : nat) : bool := Nat.eqb (S k) (r_cores r).

  (** One step of task [k]; [None] if it cannot move.  The last task runs in the
      calling process, whose exception ends the call (samplers.py:1036,
      bayes.py:237); exceptions of the others are never looked at. *)
  Definition task_step (r : run) (k : nat) (d : slots) (p : progress) : option (slots * progress) :=
    if Nat.ltb k (r_cores r) then
      match p_task p k with
      | TStart =>
          match r_batch r k with
          | Ok _ => Some (d, set_task p k (match r_kind r with Npy => TOpen | Msg => TCheck end))
          | Err e => let p' := set_task p k TFail in
                     Some (d, if own r k then set_parent p' (PEnd (Raised e)) else p')
          end
      | TCheck => Some (d, set_task p k (if absent (d k) then TOpen else TDone))
      | TOpen => Some (set_slot d k FPart, set_task p k TWrite)
      | TWrite =>
          match r_batch r k with
          | Ok v => Some (set_slot d k (FWhole v),
                          set_task p k (match r_kind r with Npy => TDone | Msg => TCheck end))
          | Err _ => None
          end
      | TDone | TFail => None
      end
    else None.

  (** [pool_results.ready()]: every task given to the pool has ended, well or not. *)
  Definition ended (t : task) : bool := match t with TDone | TFail => true | _ => false end.
  Definition ready (r : run) (p : progress) : bool :=
    forallb (fun k => ended (p_task p k)) (seq 0 (pred (r_cores r))).

  (** One step of the calling process after its own task. *)
  Definition parent_step (r : run) (d : slots) (p : progress) : option (slots * progress) :=
    match p_parent p with
    | PWait =>
        match p_task p (pred (r_cores r)) with
        | TDone => if ready r p then Some (d, set_parent p (PRead 0 [])) else None
        | _ => None
        end
    | PRead k acc =>
        if Nat.ltb k (r_cores r) then
          match d k with
          | FWhole v => Some (d, set_parent p (PRemove k (acc ++ [v])))
          | FAbsent => Some (d, set_parent p (PEnd Missing))
          | FPart => Some (d, set_parent p (PEnd Unreadable))
          end
        else Some (d, set_parent p (PEnd (Returned acc)))
    | PRemove k acc =>
        if absent (d k) then Some (d, set_parent p (PEnd Missing))
        else Some (set_slot d k FAbsent, set_parent p (PRead (S k) acc))
    | PEnd _ => None
    end.

  Inductive mover : Type := Task (k : nat) | Parent.
  Definition step (r : run) (m : mover) (d : slots) (p : progress) : option (slots * progress) :=
    match m with Task k => task_step r k d p | Parent => parent_step r d p end.

  (** A schedule; movers that cannot move are skipped. *)
  Definition step1 (r : run) (x : slots * progress) (m : mover) : slots * progress :=
    match step r m (fst x) (snd x) with Some y => y | None => x end.
  Definition execute (r : run) (l : list mover) (x : slots * progress) : slots * progress :=
    fold_left (step1 r) l x.
  (** The number of steps that were made. *)
  Fixpoint moves (r : run) (l : list mover) (x : slots * progress) : nat :=
    match l with
    | [] => 0
    | m :: l' => match step r m (fst x) (snd x) with
                 | Some y => S (moves r l' y)
                 | None => moves r l' x
                 end
    end.

  (** Several calls at once on one file system: call number [i] is [runs i]. *)
  Definition gstate : Type := (nat -> slots) * (nat -> progress).
  Definition gstep1 (runs : nat -> run) (x : gstate) (im : nat * mover) : gstate :=
    let (i, m) := im in
    match step (runs i) m (fst x (r_area (runs i))) (snd x i) with
    | Some (d, p) =>
        (fun a => if Nat.eqb a (r_area (runs i)) then d else fst x a,
         fun j => if Nat.eqb j i then p else snd x j)
    | None => x
    end.
  Definition gexecute (runs : nat -> run) (l : list (nat * mover)) (x : gstate) : gstate :=
    fold_left (gstep1 runs) l x.
End Steps.
Arguments file V : clear implicits.
Arguments slots V : clear implicits.
Arguments run V : clear implicits.
Arguments progress V : clear implicits.
Arguments parent V : clear implicits.
Arguments outcome V : clear implicits.
Arguments gstate V : clear implicits.
