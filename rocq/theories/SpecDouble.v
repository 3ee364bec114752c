(** What double precision numbers are, and monotone arithmetic. *)
From Coq Require Import Qabs.
From Verif Require Import Base M_Float SpecWeights SpecFloat.
Open Scope Q_scope.

(** Numbers with 53 binary digits. *)
Definition is_double (x : Q) : Prop := exists m e : Z, (Z.abs m <= 2 ^ 53)%Z /\ x == inject_Z m * Qpower 2 e.
(** [y] is a double nearest to [q]. *)
Definition nearest_double (q y : Q) : Prop :=
  is_double y /\ forall z, is_double z -> Qabs (y - q) <= Qabs (z - q).
(** Adding a weight does not make a running sum smaller. *)
Definition sums_grow (F : floats_impl) (ws : list Q) : Prop :=
  forall acc w, is_double acc -> 0 <= acc -> In w ws -> is_double (fadd F acc w) /\ acc <= fadd F acc w.
(** The values a uniform draw from [0, 1) can have: multiples of 2^-53. *)
Definition uniform_draw (r : Q) : Prop := exists k : Z, (0 <= k < 2 ^ 53)%Z /\ r == inject_Z k * Qpower 2 (-53).
(** The largest relative error of a sum of n numbers. *)
Definition slack (u : Q) (n : nat) : Q := 2 * inject_Z (Z.of_nat n) * u.
