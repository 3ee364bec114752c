(** Expressions that are stochastically below others. *)
From Verif Require Import Base M_Values M_Sampler SpecWeights SpecProgram SpecLarge SpecIndep.
Open Scope Q_scope.

Definition above (t x : Q) : bool := Qlt_bool t x.
(** Whatever the level, [b] is above it at least as likely as [a]. *)
Definition never_likelier (p q : prog Q) : Prop := forall t, chance p (above t) <= chance q (above t).
Definition lower (a b : dexp) : Prop := never_likelier (prog_of a) (prog_of b).
Definition rising (f : Q -> Q) : Prop := forall x y, x <= y -> f x <= f y.
(** A property of lists that raising numbers does not take away. *)
Definition upward (P : list Q -> bool) : Prop := forall xs ys, Forall2 Qle xs ys -> P xs = true -> P ys = true.
(** No result is negative. *)
Definition never_negative (e : dexp) : Prop := returns (prog_of e) (fun x => 0 <= x).
