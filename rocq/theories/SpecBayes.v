(** Vocabulary for the Bayes properties. *)
From Verif Require Import Base M_Values M_SampleApi M_Bayesnet.
Open Scope Q_scope.

(** How many events satisfy a condition, and the fraction of those that also
    satisfy another one. *)
Fixpoint count {A} (p : A -> bool) (l : list A) : nat :=
  match l with [] => 0 | x :: xs => (if p x then 1 else 0) + count p xs end.
Definition fraction {A} (p given : A -> bool) (l : list A) : Q :=
  inject_Z (Z.of_nat (count (fun x => given x && p x) l)) / inject_Z (Z.of_nat (count given l)).

Section Spec.
  Variables S E Y : Type.
  Variable body : nat -> S -> res E * S.
  Variable wire : E -> res E.
  Notation bworld := (bworld S E).
  Notation bcall := (bcall S E Y).
  Implicit Types (c : bcall) (w : bworld).

  (** [event_fn] called once after the other: from [s] the calls return [es] and
      leave [s']. *)
  Inductive calls (f : nat) : S -> list E -> S -> Prop :=
  | no_call s : calls f s [] s
  | one_more s x s1 es s2 : body f s = (Ok x, s1) -> calls f s1 es s2 -> calls f s (x :: es) s2.

  (** A call with total boolean predicates and the default aggregation. *)
  Definition asks c (find given : E -> bool) : Prop :=
    q_find _ _ _ c = Some (fun e => Ok (PBool (find e))) /\
    q_cond _ _ _ c = Some (fun e => Ok (given e)) /\
    q_reduce _ _ _ c = None /\ q_raw _ _ _ c = false.

  (** No cache file is involved. *)
  Definition no_files c : Prop := q_dump _ _ _ c = None /\ q_load _ _ _ c = None.
  (** Default caching arguments. *)
  Definition default_caching c : Prop := q_memcache _ _ _ c = Some true /\ q_reload _ _ _ c = false /\ no_files c.

  (** An intervening action that does not reload or edit the entry of [k]. *)
  Definition leaves_alone (k : option nat) (x : baction S E Y) : Prop :=
    match x with
    | BCall _ _ _ c => ~ (q_fn _ _ _ c = k /\ saves _ _ _ c = true /\ q_reload _ _ _ c = true)
    | BOutside _ _ _ _ _ _ => True
    | Edit _ _ _ k' _ => k' <> k
    end.
  (** An intervening action that keeps cache file [p] as it is. *)
  Definition keeps_cache (p : string) (v : list E * nat) (x : baction S E Y) : Prop :=
    match x with
    | BCall _ _ _ c => q_dump _ _ _ c <> Some p
    | BOutside _ _ _ _ cf _ => cf p = Some (Some v)
    | Edit _ _ _ _ _ => True
    end.

  (** A single-core call that reads no cache file. *)
  Definition simple_action (x : baction S E Y) : Prop :=
    match x with
    | BCall _ _ _ c => q_cores _ _ _ c = 1%nat /\ q_load _ _ _ c = None
    | BOutside _ _ _ _ _ _ => True
    | Edit _ _ _ _ _ => False
    end.
  Inductive breaches : list (baction S E Y) -> bworld -> Prop :=
  | br_start w : (forall k, b_mem _ _ w k = None) -> breaches [] w
  | br_step h w x : breaches h w -> breaches (h ++ [x]) (brun1 S E Y body wire w x).

  (** Multicore work split, without temporary files. *)
  Definition bshare (n cores k : nat) : nat :=
    if Nat.eqb (Datatypes.S k) cores then n - pred cores * (n / cores) else n / cores.
  Definition bworker c f w k : res (list E) :=
    do l <- fst (gen S E body f (bshare (q_n _ _ _ c) (q_cores _ _ _ c) k)
                   (if Nat.eqb (Datatypes.S k) (q_cores _ _ _ c) then b_st _ _ w else q_starts _ _ _ c k));
    mapM wire l.
End Spec.

Section Spec2.
  Variables S E Y : Type.
  (** Nothing cached applies to this call. *)
  Definition uncached (c : bcall S E Y) (w : bworld S E) : Prop :=
    q_load _ _ _ c = None /\
    (q_reload _ _ _ c = true \/ loads _ _ _ c = false \/ b_mem _ _ w (q_fn _ _ _ c) = None).
  (** No temporary file of an earlier run is around. *)
  Definition clean (c : bcall S E Y) (w : bworld S E) : Prop :=
    forall k, (k < q_cores _ _ _ c)%nat -> b_core _ _ w k = None.
  Definition all_finish (c : bcall S E Y) : Prop :=
    forall k, (k < q_cores _ _ _ c)%nat -> In k (q_sched _ _ _ c).
  (** A call that just wants the events. *)
  Definition plain_events (c : bcall S E Y) : Prop :=
    q_find _ _ _ c = None /\ q_cond _ _ _ c = None /\ q_reduce _ _ _ c = None.
End Spec2.
