(** Spec: sizes for which binary64 arithmetic stays in range. *)
From Coq Require Import Qabs.
From Verif Require Import Base M_Double.
Open Scope Q_scope.

(** Zero, or between 2^-100 and 2^100 in size. *)
Definition moderate (q : Q) : Prop := q == 0 \/ (pow2 (-100) <= Qabs q /\ Qabs q <= pow2 100).
(** Between 2^-50 and 2^50. *)
Definition moderate_sd (s : Q) : Prop := pow2 (-50) <= s /\ s <= pow2 50.
