(** Which laws of arithmetic hold for distributions. *)
From Verif Require Import Base M_Values M_Sampler SpecWeights SpecProgram SpecLarge SpecIndep.
Open Scope Q_scope.

(** Two expressions have the same law: the same expected value of every function of numbers, so
    the same probability of every property. *)
Definition numeric (f : Q -> Q) : Prop := forall x y, x == y -> f x == f y.
Definition same_law (a b : dexp) : Prop := forall f, numeric f -> expect (prog_of a) f == expect (prog_of b) f.
(** Every part of a mixture changed by an operator with [b]. *)
Definition each_with (o : binary) (l : list (Q * dexp)) (b : dexp) : list (Q * dexp) := map (fun e => (fst e, XOp o (snd e) b)) l.
Definition each_scaled (w : Q) (l : list (Q * dexp)) : list (Q * dexp) := map (fun e => (w * fst e, snd e)) l.
