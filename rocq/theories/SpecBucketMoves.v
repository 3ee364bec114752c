(** How buckets move with the data. *)
From Verif Require Import Base M_Buckets SpecBuckets.
Open Scope Q_scope.

(** The same report but for names changed by [f]; or the same error. *)
Definition same_report (f : label -> label) (d d' : list (label * Q)) : Prop :=
  Forall2 (fun x y => label_eqb (f (fst x)) (fst y) = true /\ snd x == snd y) d d'.
Definition same_outcome (f : label -> label) (a b : res (list (label * Q))) : Prop :=
  match a, b with
  | Ok d, Ok d' => same_report f d d'
  | Err e, Err e' => e = e'
  | _, _ => False
  end.
(** A change of units: x becomes k x + c. *)
Definition unit_change (k c x : Q) : Q := k * x + c.
Definition move_edge (k c : Q) (e : edge) : edge := match e with EFin q => EFin (unit_change k c q) | _ => e end.
Definition move_range (k c : Q) (r : edge * edge) : edge * edge := (move_edge k c (fst r), move_edge k c (snd r)).
Definition move_label (k c : Q) (l : label) : label :=
  match l with Auto o lo hi => Auto o (move_edge k c lo) (move_edge k c hi) | Given s => Given s end.
Definition move_bins (k c : Q) (b : bins_arg) : bins_arg :=
  match b with BinEdges l => BinEdges (map (move_edge k c) l) | _ => b end.
(** What a value counts for when data are put together. *)
Definition size (normalize : bool) (data : list Q) : Q := if normalize then inject_Z (Z.of_nat (length data)) else 1.
(** Entries [n] and [n + 1] added up into one. *)
Definition merged (n : nat) (vs vs' : list Q) : Prop :=
  exists before u v w after, length before = n /\ vs = before ++ u :: v :: after /\ vs' = before ++ w :: after /\ w == u + v.
