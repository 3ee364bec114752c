(** Vocabulary for the caching and multicore properties. *)
From Verif Require Import Base M_Weights M_Pick M_Values M_Sampler M_SampleApi M_Alias SpecSampler.

Section Spec.
  Variable Or : oracle.
  Notation world := (world Or).
  Notation call := (call Or).
  Implicit Types (c : call) (w : world).

  (** The arguments pass the validation at the top of [sample]. *)
  Definition sampleable c : Prop := (1 <= c_n Or c)%nat /\ c_obj Or c <> OOther.

  (** A call that only uses the in-memory cache and does not clip. *)
  Definition plain_memcache c : Prop :=
    sampleable c /\ c_memcache Or c = true /\ c_reload Or c = false /\
    c_load Or c = None /\ c_dump Or c = None /\ c_lc Or c = None /\ c_rc Or c = None.

  (** An intervening action that does not reload key [k]. *)
  Definition no_reload_of (k : string) (x : action Or) : Prop :=
    match x with
    | Call _ c => ~ (c_key Or c = k /\ c_memcache Or c = true /\ c_reload Or c = true)
    | Outside _ _ _ => True
    end.

  (** An intervening action that leaves cache file [p] with contents [v]. *)
  Definition keeps_file (p : string) (v : val) (x : action Or) : Prop :=
    match x with
    | Call _ c => c_dump Or c <> Some p
    | Outside _ _ fs => fs (CacheNpy p) = Some v
    end.

  (** The documented order of the sources: the file if it exists and either the
      memory has no entry or the file is declared primary; else the memory. *)
  Definition file_wins c w v : Prop :=
    c_reload Or c = false /\ (exists p, c_load Or c = Some p /\ files Or w (CacheNpy p) = Some v) /\
    (mem Or w (c_key Or c) = None \/ c_primary Or c = true).
  Definition memory_wins c w v : Prop :=
    c_reload Or c = false /\ c_memcache Or c = true /\ mem Or w (c_key Or c) = Some v /\
    forall u, ~ file_wins c w u.

  (** Calls under key [k] always ask for [n] samples of a covered object, on one
      core and without loading a file. *)
  Definition steady (k : string) (n : nat) (x : action Or) : Prop :=
    match x with
    | Call _ c => c_key Or c = k -> covered (c_obj Or c) /\ c_n Or c = n /\ (c_cores Or c <= 1)%nat /\ c_load Or c = None
    | Outside _ _ _ => True
    end.

  (** Worlds reached from an empty cache, with the history that led there. *)
  Inductive reaches : list (action Or) -> world -> Prop :=
  | r_start w : (forall k, mem Or w k = None) -> reaches [] w
  | r_step h w x : reaches h w -> reaches (h ++ [x]) (run_action Or w x).
End Spec.

(** Work split and the result of one worker, stated without the temporary files. *)
Section Workers.
  Variable Or : oracle.
  Definition share (n cores k : nat) : nat :=
    if Nat.eqb (S k) cores then n - pred cores * (n / cores) else n / cores.
  Definition worker_result (c : call Or) (w : world Or) (k : nat) : res val :=
    fst (smp Or (c_obj Or c) (share (c_n Or c) (c_cores Or c) k) (c_lc Or c) (c_rc Or c)
           (if Nat.eqb (S k) (c_cores Or c) then st Or w else c_starts Or c k)).
  (** A multicore call that does not consult a cache. *)
  Definition uncached_multicore (c : call Or) : Prop :=
    sampleable Or c /\ (2 <= c_cores Or c)%nat /\
    (c_reload Or c = true \/ (c_memcache Or c = false /\ c_load Or c = None)).
End Workers.

(** Array elements: what concatenating into a float array does to a number. *)
Definition numeric_pv (x : pv) : Prop := match x with PInt _ | PFlt _ | PBool _ => True | _ => False end.
Definition as_float (x : pv) : pv :=
  match x with PInt z => PFlt (Fin (inject_Z z)) | PBool b => PFlt (Fin (inject_Z (if b then 1 else 0))) | _ => x end.

Section Heap.
  Variable Or : oracle.
  (** Every cached array is allocated, and nothing is allocated beyond [next]. *)
  Definition heap_ok (w : hworld Or) : Prop :=
    (forall k l, h_mem Or w k = Some (RLoc l) -> (l < next Or w)%nat /\ heap Or w l <> None) /\
    (forall l, (next Or w <= l)%nat -> heap Or w l = None).

End Heap.
