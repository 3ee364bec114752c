(** Bayes' rule applied again and again in double precision. *)
From Verif Require Import Base M_Bayesnet M_DoubleProb.
Open Scope Q_scope.

(** Pairs of likelihoods, each posterior being the next prior. *)
Fixpoint learn (rule : Q -> Q -> Q -> res Q) (prior : Q) (evidence : list (Q * Q)) : res Q :=
  match evidence with
  | [] => Ok prior
  | (lh, lnh) :: r => do p <- rule lh lnh prior; learn rule p r
  end.
