(** Model of squigglepy/bayes.py: [simple_bayes] (lines 28-60) and [bayesnet]
    (lines 63-310). *)
From Verif Require Import Base M_Weights M_Pick M_Values M_Sampler M_SampleApi.
Open Scope Q_scope.

(** [simple_bayes], bayes.py:60.  Exact numbers; float division by zero raises. *)
Definition simple_bayes (lh lnh prior : Q) : res Q :=
  let d := lh * prior + lnh * (1 - prior) in
  if Qeq_bool d 0 then Err ZeroDivisionError else Ok ((lh * prior) / d).

(** [np.mean] of a list of scalars; the empty list does not reach it. *)
Definition as_num (v : pv) : res xnum := match as_x v with Some x => Ok x | None => Err TypeError end.
Definition np_mean (l : list pv) : res pv :=
  do xs <- mapM as_num l;
  Ok (PFlt (xdiv (fold_left xadd xs (Fin 0)) (Fin (inject_Z (Z.of_nat (length l)))))).

Section Net.
  (** [S]: everything an event function can read or change (the generator, Python
      globals) except the library's own cache; [E]: events; [Y]: results of a
      user's reduce function. *)
  Variables S E Y : Type.
  (** The functions of the program; Python compares functions by identity, so a
      function is a number here.  One call may raise. *)
  Variable body : nat -> S -> res E * S.
  (** What an event looks like after msgpack encoding and decoding; encoding
      unsupported types raises. *)
  Variable wire : E -> res E.

  Record bworld : Type := mkB {
    b_st : S;
    (** events and [metadata["n"]] per event function; [None] is a possible key *)
    b_mem : option nat -> option (list E * nat);
    (** files written by [dump_cache_file]; inner [None]: unreadable *)
    b_cache : string -> option (option (list E * nat));
    (** test-core-<k>.sqcache; inner [None]: unreadable *)
    b_core : nat -> option (option (list E))
  }.

  (** The arguments; [memcache] other than True and False is [None].  An empty file
      name counts as none.  [starts] and [sched] as in M_SampleApi. *)
  Record bcall : Type := mkBC {
    q_fn : option nat;
    q_n : nat;
    q_find : option (E -> res pv);
    q_cond : option (E -> res bool);
    q_reduce : option (list E + list pv -> res Y);
    q_raw : bool;
    q_memcache : option bool;
    q_mload : bool;
    q_msave : bool;
    q_reload : bool;
    q_dump : option string;
    q_load : option string;
    q_primary : bool;
    q_cores : nat;
    q_starts : nat -> S;
    q_sched : list nat
  }.
  Inductive out : Type :=
  | ONone
  | OEvents (l : list E)
  | OFound (l : list pv)
  | OMean (x : pv)
  | OReduced (y : Y).

  (** bayes.py:155-160. *)
  Definition loads (c : bcall) : bool := match q_memcache c with Some b => b | None => q_mload c end.
  Definition saves (c : bcall) : bool := match q_memcache c with Some b => b | None => q_msave c end.

  Definition key_eqb (a b : option nat) : bool :=
    match a, b with Some x, Some y => Nat.eqb x y | None, None => true | _, _ => false end.
  Definition upd_key {A} (m : option nat -> option A) k (v : option A) : option nat -> option A :=
    fun k' => if key_eqb k' k then v else m k'.
  Definition upd_core {A} (m : nat -> option A) k (v : option A) : nat -> option A :=
    fun k' => if Nat.eqb k' k then v else m k'.

  Definition b_file (c : bcall) (w : bworld) : option (option (list E * nat)) :=
    match q_load c with Some f => b_cache w f | None => None end.

  (** bayes.py:161-194: the cached record, if a source applies. *)
  Definition b_source (c : bcall) (w : bworld) : res (option (list E * nat)) :=
    if q_reload c then Ok None
    else match b_file c w with
         | Some v =>
             if negb (is_some (b_mem w (q_fn c))) || q_primary c then
               match v with Some r => Ok (Some r) | None => Err Unmodelled end   (* DecodeError *)
             else if loads c then Ok (b_mem w (q_fn c)) else Ok None
         | None => if loads c then Ok (b_mem w (q_fn c)) else Ok None
         end.

  (** [[event_fn() for _ in range(k)]] *)
  Fixpoint gen (f : nat) (k : nat) (s : S) : res (list E) * S :=
    match k with
    | O => (Ok [], s)
    | Datatypes.S k' =>
        match body f s with
        | (Err e, s1) => (Err e, s1)
        | (Ok x, s1) =>
            match gen f k' s1 with
            | (Err e, s2) => (Err e, s2)
            | (Ok xs, s2) => (Ok (x :: xs), s2)
            end
        end
    end.

  Definition b_batch (c : bcall) (f : nat) (cuts : list Z) (k : nat) (s : S) : res (list E) * S :=
    match nth_error cuts k with
    | Some m => gen f (Z.to_nat m) s
    | None => (Err IndexError, s)
    end.
  (** [while not os.path.exists(f): write], bayes.py:229-232: an existing file is
      kept; a failing encoder leaves an empty file behind. *)
  Definition put_core (fs : nat -> option (option (list E))) (k : nat) (l : list E) : nat -> option (option (list E)) :=
    match fs k with
    | Some _ => fs
    | None => upd_core fs k (Some (match mapM wire l with Ok l' => Some l' | Err _ => None end))
    end.
  (** Worker [k] finishes; exceptions in workers are never looked at. *)
  Definition b_finish (c : bcall) (f : nat) (cuts : list Z) (w : bworld) (fs : nat -> option (option (list E))) (k : nat) :=
    if Nat.ltb k (q_cores c) then
      match fst (b_batch c f cuts k (if Nat.eqb (Datatypes.S k) (q_cores c) then b_st w else q_starts c k)) with
      | Ok l => put_core fs k l
      | Err _ => fs
      end
    else fs.
  (** bayes.py:246-256. *)
  Fixpoint b_collect (ks : list nat) (acc : list E) (fs : nat -> option (option (list E)))
    : res (list E) * (nat -> option (option (list E))) :=
    match ks with
    | [] => (Ok acc, fs)
    | k :: ks' =>
        match fs k with
        | None => (Err FileNotFoundError, fs)
        | Some None => (Err Unmodelled, fs)                         (* DecodeError *)
        | Some (Some l) => b_collect ks' (acc ++ l) (upd_core fs k None)
        end
    end.
  (** bayes.py:206-258. *)
  Definition generate (c : bcall) (f : nat) (w : bworld) : res (list E) * bworld :=
    if Nat.eqb (q_cores c) 1 then
      let (r, s1) := gen f (q_n c) (b_st w) in (r, mkB s1 (b_mem w) (b_cache w) (b_core w))
    else if Nat.eqb (q_cores c) 0 then (Err Unmodelled, w)          (* ProcessingPool(0) *)
    else
      match core_cuts (Z.of_nat (q_n c)) (q_cores c) with
      | Err e => (Err e, w)
      | Ok cuts =>
          let fs := fold_left (b_finish c f cuts w) (q_sched c) (b_core w) in
          match b_batch c f cuts (pred (q_cores c)) (b_st w) with
          | (Err e, s1) => (Err e, mkB s1 (b_mem w) (b_cache w) fs)
          | (Ok l, s1) =>
              match b_core w (pred (q_cores c)), mapM wire l with
              | None, Err e => (Err e, mkB s1 (b_mem w) (b_cache w) fs)
              | _, _ =>
                  let (r, fs') := b_collect (seq 0 (q_cores c)) [] fs in
                  (r, mkB s1 (b_mem w) (b_cache w) fs')
              end
          end
      end.

  (** Filtering and reducing, bayes.py:278-310.  [find], [conditional_on] and
      [reduce_fn] may raise but are taken to change no state. *)
  Fixpoint keep (p : E -> res bool) (l : list E) : res (list E) :=
    match l with
    | [] => Ok []
    | x :: xs => do b <- p x; do ys <- keep p xs; Ok (if b then x :: ys else ys)
    end.
  Definition analyse (c : bcall) (es : list E) : res out :=
    do es <- (match q_cond c with Some p => keep p es | None => Ok es end);
    match es with
    | [] => Err (ValueError "insufficient samples for condition")
    | _ =>
        match q_find c with
        | None => match q_reduce c with
                  | None => Ok (OEvents es)
                  | Some r => do y <- r (inl es); Ok (OReduced y)
                  end
        | Some f =>
            do vs <- mapM f es;
            if q_raw c then Ok (OFound vs)
            else match q_reduce c with
                 | None => do m <- np_mean vs; Ok (OMean m)
                 | Some r => do y <- r (inr vs); Ok (OReduced y)
                 end
        end
    end.

  (** The events a call works with, bayes.py:161-258. *)
  Definition events_of (c : bcall) (w : bworld) : res (option (list E)) * bworld :=
    match b_source c w with
    | Err e => (Err e, w)
    | Ok (Some (es, m)) =>
        if Nat.ltb m (q_n c) then (Err (ValueError "insufficient samples"), w) else (Ok (Some es), w)
    | Ok None =>
        match q_fn c with
        | None => (Ok None, w)
        | Some f => match generate c f w with
                    | (Err e, w1) => (Err e, w1)
                    | (Ok es, w1) => (Ok (Some es), w1)
                    end
        end
    end.
  (** Saving, bayes.py:260-276; the stored [n] is the requested one. *)
  Definition save_mem (c : bcall) (had : bool) (es : list E) (w : bworld) : bworld :=
    mkB (b_st w)
      (if saves c && (negb had || q_reload c) then upd_key (b_mem w) (q_fn c) (Some (es, q_n c)) else b_mem w)
      (b_cache w) (b_core w).
  Definition save_file (c : bcall) (es : list E) (w : bworld) : res unit * bworld :=
    match q_dump c with
    | None => (Ok tt, w)
    | Some p =>
        match mapM wire es with
        | Ok es' => (Ok tt, mkB (b_st w) (b_mem w) (upd_str (b_cache w) p (Some (Some (es', q_n c)))) (b_core w))
        | Err e => (Err e, mkB (b_st w) (b_mem w) (upd_str (b_cache w) p (Some None)) (b_core w))
        end
    end.

  Definition bayesnet (c : bcall) (w : bworld) : res out * bworld :=
    match events_of c w with
    | (Err e, w1) => (Err e, w1)
    | (Ok None, w1) => (Ok ONone, w1)
    | (Ok (Some es), w1) =>
        match save_file c es (save_mem c (is_some (b_mem w (q_fn c))) es w1) with
        | (Err e, w2) => (Err e, w2)
        | (Ok _, w2) => (analyse c es, w2)
        end
    end.

  (** What can happen between two calls.  [Edit k es]: a caller changes, in place,
      the list it was given when that list is the cached one. *)
  Inductive baction : Type :=
  | BCall (c : bcall)
  | BOutside (s : S) (cf : string -> option (option (list E * nat))) (co : nat -> option (option (list E)))
  | Edit (k : option nat) (es : list E).
  Definition brun1 (w : bworld) (x : baction) : bworld :=
    match x with
    | BCall c => snd (bayesnet c w)
    | BOutside s cf co => mkB s (b_mem w) cf co
    | Edit k es =>
        match b_mem w k with
        | Some (_, m) => mkB (b_st w) (upd_key (b_mem w) k (Some (es, m))) (b_cache w) (b_core w)
        | None => w
        end
    end.
  Definition brun (h : list baction) (w : bworld) : bworld := fold_left brun1 h w.

  (** The list a call returns is the very list kept in the cache: no filter, no
      find, no reduce, and the events came from memory or were just saved. *)
  Definition hands_out_cache (c : bcall) (w : bworld) : bool :=
    negb (is_some (q_cond c)) && negb (is_some (q_find c)) && negb (is_some (q_reduce c)) &&
    (match b_source c w with
     | Ok (Some _) =>
         match b_file c w with
         | Some _ => (is_some (b_mem w (q_fn c)) && negb (q_primary c)) || (saves c && negb (is_some (b_mem w (q_fn c))))
         | None => true
         end
     | Ok None => saves c && (negb (is_some (b_mem w (q_fn c))) || q_reload c)
     | Err _ => false
     end).
End Net.
