(** How many of those results that fulfil a condition have a property. *)
From Verif Require Import Base SpecShare SpecBayes SpecProgram SpecLarge SpecChernoff.
Open Scope Q_scope.

Definition both {A} (find given : A -> bool) (a : A) : bool := given a && find a.
Definition other {A} (find given : A -> bool) (a : A) : bool := given a && negb (find a).
(** The share of [find] among the results with [given] is at least, at most [x / y]; if there are none, both hold. *)
Definition at_least {A} (x y : nat) (find given : A -> bool) (l : list A) : bool := Nat.leb (x * count given l) (y * count (both find given) l).
Definition at_most {A} (x y : nat) (find given : A -> bool) (l : list A) : bool := Nat.leb (y * count (both find given) l) (x * count given l).
(** The base of the bounds. *)
Definition tilt {A} (p : prog A) (find given : A -> bool) (x y : nat) (t : Q) : Q :=
  1 + chance p (both find given) * (npow t (y - x) - 1) + chance p (other find given) * (/ npow t x - 1).
