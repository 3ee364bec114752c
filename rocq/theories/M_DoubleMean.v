(** [np.mean] in double precision, as [bayesnet] (squigglepy/bayes.py:304-305) and
    [get_mean_and_ci] (squigglepy/utils.py:590) use it: a sum of doubles, divided by their number.

    numpy does not say in which order it adds (it adds in blocks, and halves long arrays), so
    a sum is any binary tree of additions; Booleans count as 0.0 and 1.0.
    Simplifications: values are finite; the exponent is unbounded (M_Double). *)
From Verif Require Import Base M_Double M_DoubleProb.
Open Scope Q_scope.

Inductive additions : Type :=
| Term (x : Q)
| Plus (a b : additions).
Fixpoint terms (t : additions) : list Q :=
  match t with Term x => [x] | Plus a b => terms a ++ terms b end.
Fixpoint fl_sum (t : additions) : Q :=
  match t with Term x => x | Plus a b => dadd (fl_sum a) (fl_sum b) end.
Definition fl_mean (t : additions) : Q :=
  ddiv (fl_sum t) (inject_Z (Z.of_nat (length (terms t)))).
(** A Boolean as a float. *)
Definition fl_bool (b : bool) : Q := if b then 1 else 0.
