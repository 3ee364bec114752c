(** What buckets count. *)
From Verif Require Import Base M_Buckets.
Open Scope Q_scope.

Definition edge_le (a b : edge) : Prop :=
  match a, b with
  | ENeg, _ => True
  | _, EPos => True
  | EFin p, EFin q => p <= q
  | _, _ => False
  end.
Definition edge_at (edges : list edge) (i : nat) : edge := nth i edges ENeg.
(** Edges in order. *)
Definition rising (edges : list edge) : Prop :=
  forall i, (S i < length edges)%nat -> edge_le (edge_at edges i) (edge_at edges (S i)).
Definition edge_below (a : edge) (x : Q) : Prop := match a with ENeg => True | EFin q => q <= x | EPos => False end.
Definition edge_above (b : edge) (x : Q) : Prop := match b with ENeg => False | EFin q => x < q | EPos => True end.
Definition edge_upto (b : edge) (x : Q) : Prop := match b with ENeg => False | EFin q => x <= q | EPos => True end.

(** Membership of a half-open range, and of the i-th bucket of a list of edges: the last
    one includes its right end. *)
Definition in_range (r : edge * edge) (x : Q) : Prop := edge_below (fst r) x /\ edge_above (snd r) x.
Definition in_bucket (edges : list edge) (i : nat) (x : Q) : Prop :=
  edge_below (edge_at edges i) x /\
  if Nat.eqb (S (S i)) (length edges) then edge_upto (edge_at edges (S i)) x else edge_above (edge_at edges (S i)) x.
(** Being within all the edges. *)
Definition covered (edges : list edge) (x : Q) : Prop :=
  edge_below (edge_at edges 0) x /\ edge_upto (edge_at edges (length edges - 1)) x.

(** [n] of the data satisfy [P]. *)
Inductive how_many (P : Q -> Prop) : list Q -> nat -> Prop :=
| hm_nil : how_many P [] 0
| hm_yes : forall x l n, P x -> how_many P l n -> how_many P (x :: l) (S n)
| hm_no : forall x l n, ~ P x -> how_many P l n -> how_many P (x :: l) n.

Definition disjoint_ranges (rs : list (edge * edge)) : Prop :=
  forall i j x, (i < length rs)%nat -> (j < length rs)%nat ->
    in_range (nth i rs (ENeg, ENeg)) x -> in_range (nth j rs (ENeg, ENeg)) x -> i = j.

(** How a count of [data] is reported. *)
Definition reported (normalize as_percentage : bool) (total n : nat) : Q :=
  if normalize then inject_Z (Z.of_nat n) / inject_Z (Z.of_nat total) * (if as_percentage then 100 else 1)
  else inject_Z (Z.of_nat n).
Fixpoint add_up (l : list Q) : Q := match l with [] => 0 | x :: r => x + add_up r end.
Definition whole (normalize as_percentage : bool) (total : nat) : Q :=
  if normalize then (if as_percentage then 100 else 1) else inject_Z (Z.of_nat total).

(** Labels no two of which are equal. *)
Fixpoint distinct (l : list label) : Prop :=
  match l with [] => True | x :: r => (forall y, In y r -> label_eqb x y = false) /\ distinct r end.
(** The labels a call uses. *)
Definition names (edges : list edge) (labels : option (list string)) : list label :=
  match labels with None => auto_labels edges | Some l => map Given l end.
(** The label a range should have. *)
Definition describes (lab : label) (r : edge * edge) : Prop :=
  match lab with
  | Auto o lo hi => lo = fst r /\ hi = snd r /\ (o = true <-> fst r = ENeg)
  | Given _ => False
  end.
Definition contiguous (rs : list (edge * edge)) : Prop :=
  forall i, (S i < length rs)%nat -> snd (nth i rs (ENeg, ENeg)) = fst (nth (S i) rs (ENeg, ENeg)).
(** No two ranges start alike. *)
Definition distinct_lows (rs : list (edge * edge)) : Prop :=
  forall i j, (i < j < length rs)%nat ->
    edge_eqb (fst (nth i rs (ENeg, ENeg))) (fst (nth j rs (ENeg, ENeg))) = false.
(** The numbers in the labels of custom ranges: where each starts, and where the last one
    ends. *)
Definition label_edges (cb : list (edge * edge)) : list edge := map fst cb ++ [snd (last cb (ENeg, ENeg))].
(** Being exactly at an edge. *)
Definition at_edge (b : edge) (x : Q) : Prop := match b with EFin q => x == q | _ => False end.
