(** How many of [n] results have a property. *)
From Verif Require Import Base M_Values M_Sampler M_Bayesnet SpecShare SpecBayes SpecProgram SpecLarge.
Open Scope Q_scope.

(** [x] to the power of [n]. *)
Fixpoint npow (x : Q) (n : nat) : Q := match n with O => 1 | S n' => x * npow x n' end.
(** At least, at most [k] of the results have the property [P]. *)
Definition many {A} (k : nat) (P : A -> bool) (l : list A) : bool := Nat.leb k (count P l).
Definition few {A} (k : nat) (P : A -> bool) (l : list A) : bool := Nat.leb (count P l) k.
(** [bayesnet] called in state [s] of the generator answers with a number that is at least, at most [y]. *)
Definition answers_above {S E Y} (body : nat -> S -> res E * S) (wire : E -> res E) (q : bcall S E Y) (w : S -> bworld S E) (y : Q) (s : S) : bool :=
  match fst (bayesnet S E Y body wire q (w s)) with Ok (OMean _ _ (PFlt (Fin x))) => Qle_bool y x | _ => false end.
Definition answers_below {S E Y} (body : nat -> S -> res E * S) (wire : E -> res E) (q : bcall S E Y) (w : S -> bworld S E) (y : Q) (s : S) : bool :=
  match fst (bayesnet S E Y body wire q (w s)) with Ok (OMean _ _ (PFlt (Fin x))) => Qle_bool x y | _ => false end.
