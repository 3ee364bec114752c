(** Identity of the arrays handed out by [sample], needed because numpy arrays
    are mutable (squigglepy/samplers.py:1004-1010, 1230-1260).
    Restricted to single-core, in-memory calls without clips. *)
From Verif Require Import Base M_Weights M_Pick M_Values M_Sampler M_SampleApi.

(** A returned value: scalars are immutable, an array is a location. *)
Inductive ref : Type := RVal (x : pv) | RLoc (l : nat).
Section Alias.
  Variable Or : oracle.
  Record hworld : Type := mkH {
    h_st : state (G Or);
    h_mem : string -> option ref;
    heap : nat -> option (list pv);
    next : nat
  }.
  Definition deref (h : nat -> option (list pv)) (r : ref) : option val :=
    match r with RVal x => Some (Scalar x) | RLoc l => option_map Arr (h l) end.
  Definition upd_nat {A} (m : nat -> option A) (k : nat) (v : option A) : nat -> option A :=
    fun k' => if Nat.eqb k' k then v else m k'.
  (** A fresh object for a freshly generated value. *)
  Definition alloc (v : val) (w : hworld) : ref * hworld :=
    match v with
    | Scalar x => (RVal x, w)
    | Arr l => (RLoc (next w), mkH (h_st w) (h_mem w) (upd_nat (heap w) (next w) (Some l)) (S (next w)))
    end.
  (** [sample(o, n, memcache=memcache)]: on a hit the cached object itself is
      returned; on a miss the new object is both stored and returned. *)
  Definition h_sample (key : string) (o : obj (G Or)) (n : nat) (memcache : bool) (w : hworld)
    : res ref * hworld :=
    match (if memcache then h_mem w key else None) with
    | Some r => (Ok r, w)
    | None =>
        match smp Or o n None None (h_st w) with
        | (Err e, s1) => (Err e, mkH s1 (h_mem w) (heap w) (next w))
        | (Ok v, s1) =>
            let (r, w1) := alloc v (mkH s1 (h_mem w) (heap w) (next w)) in
            (Ok r, mkH (h_st w1) (if memcache then upd_str (h_mem w1) key (Some r) else h_mem w1) (heap w1) (next w1))
        end
    end.
  (** The caller writes [result[i] = x]. *)
  Definition poke (r : ref) (i : nat) (x : pv) (w : hworld) : hworld :=
    match r with
    | RVal _ => w
    | RLoc l =>
        match heap w l with
        | None => w
        | Some xs => mkH (h_st w) (h_mem w)
            (upd_nat (heap w) l (Some (firstn i xs ++ match skipn i xs with [] => [] | _ :: t => x :: t end))) (next w)
        end
    end.
End Alias.
