(** Model of the caching and multicore parts of squigglepy/samplers.py:sample
    (lines 903-1260) on top of the uncached single-core sampler [smp]. *)
From Verif Require Import Base M_Weights M_Pick M_Values M_Sampler.

(** File names the library builds.  The four families never clash: cache files
    end in ".sqcache.npy" / ".sqcache" after the user's path, worker files are
    "test-core-<number>.npy" / ".sqcache" in the working directory.  A user path
    that itself spells "test-core-<number>" clashes for the msgpack family; the
    constructor keeps the user's path, so such a clash is not modelled.
    Different spellings of one path are different names here. *)
Inductive fname : Type :=
| CacheNpy (path : string)       (* samplers.py:990, 1250 *)
| CoreNpy (core : nat)           (* samplers.py:1032 *)
| CacheMsg (path : string)       (* bayes.py:165, 274 *)
| CoreMsg (core : nat).          (* bayes.py:231 *)
Definition fname_eqb (a b : fname) : bool :=
  match a, b with
  | CacheNpy x, CacheNpy y | CacheMsg x, CacheMsg y => String.eqb x y
  | CoreNpy x, CoreNpy y | CoreMsg x, CoreMsg y => Nat.eqb x y
  | _, _ => false
  end.
(** Dictionaries and the file system as partial maps. *)
Definition upd_str {A} (m : string -> option A) (k : string) (v : option A) : string -> option A :=
  fun k' => if String.eqb k' k then v else m k'.
Definition upd_file {A} (m : fname -> option A) (k : fname) (v : option A) : fname -> option A :=
  fun k' => if fname_eqb k' k then v else m k'.

(** [np.concatenate((a, b), axis=None)] where [a] started as [np.array([])], a
    float array (samplers.py:1045-1048): the dummy float gives the result dtype. *)
Definition cat (f : pv -> string) (a b : list pv) : list pv :=
  tl (np_array f (PFlt (Fin 0) :: a ++ b)).

Section Api.
  Variable Or : oracle.
  Notation St := (state (G Or)).

  (** What a call can read and write: generator and correlation state, the
      in-memory cache, the files.  A 0-d array (a saved scalar) is identified
      with the scalar. *)
  Record world : Type := mkWorld {
    st : St;
    mem : string -> option val;
    files : fname -> option val
  }.

  (** The arguments of [sample].  [c_key] is [str(dist)], the key of the in-memory
      cache (samplers.py:987); see M_Str for what it looks like.  [n] is clipped below at 0 ([n <= 0] raises).
      An empty file name counts as no file name.  [cores <= 1] is single core.
      [starts k] is the state of the worker process that runs task [k] when it
      starts (a forked worker starts from a copy of the parent's state, possibly
      advanced by an earlier task); [sched] lists the tasks whose file gets
      written, in order of completion. *)
  Record call : Type := mkCall {
    c_obj : obj (G Or);
    c_key : string;
    c_n : nat;
    c_lc : option num;
    c_rc : option num;
    c_memcache : bool;
    c_reload : bool;
    c_dump : option string;
    c_load : option string;
    c_primary : bool;
    c_cores : nat;
    c_starts : nat -> St;
    c_sched : list nat
  }.

  (** [np.load(f)] without [allow_pickle]: object arrays are rejected. *)
  Definition np_load (v : val) : res val :=
    if existsb is_none (enlist v) then Err (ValueError "Object arrays cannot be loaded") else Ok v.

  Definition the_file (c : call) (w : world) : option val :=
    match c_load c with Some f => files w (CacheNpy f) | None => None end.
  Definition is_some {A} (o : option A) : bool := match o with Some _ => true | None => false end.

  (** samplers.py:985-1010. *)
  Definition from_cache (c : call) (w : world) : res (option val) :=
    let m := mem w (c_key c) in
    if (is_some (c_load c) || c_memcache c) && negb (c_reload c) then
      match the_file c w with
      | Some v =>
          if negb (is_some m) || c_primary c then do x <- np_load v; Ok (Some x)
          else if c_memcache c then Ok m else Ok None
      | None => if c_memcache c then Ok m else Ok None
      end
    else Ok None.

  (** One batch: [sample(dist, n=cuts[core], lclip, rclip, cores=1)],
      samplers.py:1020-1030. *)
  Definition batch (c : call) (cuts : list Z) (k : nat) (s : St) : res val * St :=
    match nth_error cuts k with
    | Some m => smp Or (c_obj c) (Z.to_nat m) (c_lc c) (c_rc c) s
    | None => (Err IndexError, s)
    end.

  (** Task [k] completes: its batch is written, samplers.py:1032-1033.  A worker
      that raised writes nothing, and the exception is never looked at (the
      result object is only polled with [ready()]).  The last task runs in the
      parent, in the parent's state. *)
  Definition finish_task (c : call) (cuts : list Z) (w : world) (fs : fname -> option val) (k : nat)
    : fname -> option val :=
    if Nat.ltb k (c_cores c) then
      match fst (batch c cuts k (if Nat.eqb (S k) (c_cores c) then st w else c_starts c k)) with
      | Ok v => upd_file fs (CoreNpy k) (Some v)
      | Err _ => fs
      end
    else fs.

  (** Collecting the files in core order, samplers.py:1045-1050. *)
  Fixpoint collect (ks : list nat) (acc : list pv) (fs : fname -> option val)
    : res (list pv) * (fname -> option val) :=
    match ks with
    | [] => (Ok acc, fs)
    | k :: ks' =>
        match fs (CoreNpy k) with
        | None => (Err FileNotFoundError, fs)
        | Some v => collect ks' (cat (fmt Or) acc (enlist v)) (upd_file fs (CoreNpy k) None)
        end
    end.

  (** samplers.py:1012-1054.  If the parent's own batch raises, the exception
      propagates after whatever worker files were written. *)
  Definition multicore (c : call) (w : world) : res val * world :=
    match core_cuts (Z.of_nat (c_n c)) (c_cores c) with
    | Err e => (Err e, w)
    | Ok cuts =>
        let fs := fold_left (finish_task c cuts w) (c_sched c) (files w) in
        match batch c cuts (pred (c_cores c)) (st w) with
        | (Err e, s1) => (Err e, mkWorld s1 (mem w) fs)
        | (Ok _, s1) =>
            let (r, fs') := collect (seq 0 (c_cores c)) [] fs in
            (do l <- r; Ok (Arr l), mkWorld s1 (mem w) fs')
        end
    end.

  (** Samples before the final clipping.  A cached or multicore result is
      clipped by the call's bounds only (samplers.py:1057 skips the merge); the
      single-core sampler clips by the merged bounds itself. *)
  Definition obtain (c : call) (w : world) : res val * world :=
    match from_cache c w with
    | Err e => (Err e, w)
    | Ok (Some v) => (apply_clips (c_lc c) (c_rc c) v, w)
    | Ok None =>
        if Nat.ltb 1 (c_cores c) then
          match multicore c w with
          | (Ok v, w1) => (apply_clips (c_lc c) (c_rc c) v, w1)
          | (Err e, w1) => (Err e, w1)
          end
        else
          let (r, s1) := smp Or (c_obj c) (c_n c) (c_lc c) (c_rc c) (st w) in
          (r, mkWorld s1 (mem w) (files w))
    end.

  (** Saving, samplers.py:1242-1257.  Simplification: the stored object is the
      array form of the result ([np.array] of a list is made on return in the
      code; the conversion is idempotent). *)
  Definition save (c : call) (had : bool) (v : val) (w : world) : world :=
    mkWorld (st w)
      (if c_memcache c && (negb had || c_reload c) then upd_str (mem w) (c_key c) (Some v) else mem w)
      (match c_dump c with Some f => upd_file (files w) (CacheNpy f) (Some v) | None => files w end).

  Definition sample_call (c : call) (w : world) : res val * world :=
    match c_n c with
    | O => (Err (ValueError "n must be >= 1"), w)
    | _ =>
      match c_obj c with
      | OOther => (Err (ValueError "input to sample is malformed"), w)
      | _ =>
        match obtain c w with
        | (Err e, w1) => (Err e, w1)
        | (Ok v, w1) => (Ok v, save c (is_some (mem w (c_key c))) v w1)
        end
      end
    end.

  (** Everything that can happen between two calls: another call, or arbitrary
      changes outside [sample] (re-seeding, other programs writing files). *)
  Inductive action : Type :=
  | Call (c : call)
  | Outside (s : St) (fs : fname -> option val).
  Definition run_action (w : world) (x : action) : world :=
    match x with
    | Call c => snd (sample_call c w)
    | Outside s fs => mkWorld s (mem w) fs
    end.
  Definition run (h : list action) (w : world) : world := fold_left run_action h w.
End Api.
