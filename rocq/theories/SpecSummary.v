(** Summaries of samples that are off by a share of each sample. *)
From Coq Require Import Qabs.
From Verif Require Import Base M_Percentiles SpecPercentiles SpecPctOrder.
Open Scope Q_scope.

(** [y] is off from the positive number [x] by at most the share [t] of it. *)
Definition within (t x y : Q) : Prop := Qabs (y - x) <= t * x.
Definition all_within (t : Q) (xs ys : list Q) : Prop := Forall2 (within t) xs ys.
Definition out_within (t : Q) : pout -> pout -> Prop := related (within t).
(** The exact average. *)
Definition average (xs : list Q) : Q := fold_right Qplus 0 xs / inject_Z (Z.of_nat (length xs)).
