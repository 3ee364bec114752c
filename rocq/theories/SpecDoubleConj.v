(** Combining many pieces of evidence in double precision. *)
From Verif Require Import Base M_DoubleConj.
Open Scope Q_scope.

(** Beta distributions combined by updates, in some order and grouping. *)
Inductive combined : Type :=
| Single (ab : Q * Q)
| Both (x y : combined).
Fixpoint pieces (t : combined) : list (Q * Q) :=
  match t with Single ab => [ab] | Both x y => pieces x ++ pieces y end.
Fixpoint posterior (t : combined) : Q * Q :=
  match t with Single ab => ab | Both x y => fl_beta_update (posterior x) (posterior y) end.
Definition sum_of (f : Q * Q -> Q) (l : list (Q * Q)) : Q := fold_right (fun p s => f p + s) 0 l.
(** A whole number that is not negative. *)
Definition whole (x : Q) : Prop := exists n : Z, (0 <= n)%Z /\ x = inject_Z n.
(** The exact posterior shape and scale of a gamma distribution. *)
Definition exact_shape (s s' w : Q) : Q := s + s' * w.
Definition exact_scale (s t s' t' w : Q) : Q := (s + s' * w) / (s / t + s' * w / t').
