(** Means weighted by precision. *)
From Verif Require Import Base.
Open Scope Q_scope.

(** Precision is one over variance; evidence counts [w] times. *)
Definition pooled_precision (pv ev w : Q) : Q := / pv + w * / ev.
Definition pooled_mean (pm pv em ev w : Q) : Q := (pm * / pv + w * (em * / ev)) / pooled_precision pv ev w.
