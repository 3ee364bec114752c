(** Rounding to decimal digits, half to even. *)
From Coq Require Import Qabs.
From Verif Require Import Base.
Open Scope Q_scope.

(** [r] is [q] rounded to [d] decimal digits: a multiple of 10^-d at most half a unit
    away, and the even multiple when both neighbours are half a unit away. *)
Definition rounds (d : Z) (q r : Q) : Prop :=
  exists k : Z, r == inject_Z k / Qpower 10 d /\
    Qabs (q * Qpower 10 d - inject_Z k) <= 1#2 /\
    (Qabs (q * Qpower 10 d - inject_Z k) == 1#2 -> Z.Even k).
