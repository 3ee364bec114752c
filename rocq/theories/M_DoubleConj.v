(** [update] of beta and gamma distributions (squigglepy/bayes.py) in double precision.

    Simplifications: arguments are finite; the exponent is unbounded (M_Double); divisions by
    zero raise, as they do for Python floats. *)
From Verif Require Import Base M_Double M_DoubleProb.
Open Scope Q_scope.

Definition fdivide (a b : Q) : res Q := if Qeq_bool b 0 then Err ZeroDivisionError else Ok (ddiv a b).
(** bayes.py:384-388: the two counts of the posterior. *)
Definition fl_beta_update (p e : Q * Q) : Q * Q := (dadd (fst p) (fst e), dadd (snd p) (snd e)).
(** bayes.py:393-408: shape and scale of the posterior. *)
Definition fl_gamma_update (p e : Q * Q) (weight : Q) : res (Q * Q) :=
  let evidence_shape := dmul (fst e) weight in
  let shape := dadd (fst p) evidence_shape in
  do prior_rate <- fdivide 1 (snd p);
  do evidence_rate <- fdivide 1 (snd e);
  do rate <- fdivide (dadd (dmul (fst p) prior_rate) (dmul evidence_shape evidence_rate)) (dadd (fst p) evidence_shape);
  do scale <- fdivide 1 rate;
  Ok (shape, scale).
