(** Averages in double precision. *)
From Coq Require Import Permutation Qabs.
From Verif Require Import Base M_DoubleMean.
Open Scope Q_scope.

(** [m] is a mean of [l] that adding in some order can give. *)
Definition averages_to (l : list Q) (m : Q) : Prop :=
  exists t, Permutation (terms t) l /\ m == fl_mean t.
(** How often something happened. *)
Definition occurrences (bs : list bool) : Z := Z.of_nat (length (filter (fun b => b) bs)).
Definition cases (bs : list bool) : Z := Z.of_nat (length bs).
Definition magnitude (l : list Q) : Q := fold_right (fun x s => Qabs x + s) 0 l.
Definition exactly (l : list Q) : Q := fold_right Qplus 0 l.
(** The share of cases, as reported. *)
Definition reported (bs : list bool) (p : Q) : Prop := averages_to (map fl_bool bs) p.
(** The same additions of numbers that are no larger. *)
Inductive no_larger : additions -> additions -> Prop :=
| nl_term x y : x <= y -> no_larger (Term x) (Term y)
| nl_plus a b a' b' : no_larger a a' -> no_larger b b' -> no_larger (Plus a b) (Plus a' b').
