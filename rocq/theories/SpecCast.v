(** What numpy does with a list of Python values when the first of them fixes the kind. *)
From Verif Require Import Base M_Values.
Open Scope Q_scope.

(** Python's [bool(x)] is [False]. *)
Definition false_like (x : pv) : Prop :=
  x = PInt 0 \/ x = PBool false \/ x = PNone \/ x = PStr "" \/ exists q, x = PFlt (Fin q) /\ q == 0.
Definition as_bool (x y : pv) : Prop :=
  (y = PBool true /\ ~ false_like x) \/ (y = PBool false /\ false_like x).
(** [z] is [q] without its fractional part. *)
Definition cut (q : Q) (z : Z) : Prop :=
  (0 <= q /\ inject_Z z <= q /\ q < inject_Z z + 1) \/ (q < 0 /\ q <= inject_Z z /\ inject_Z z < q + 1).
Inductive as_integer : pv -> pv -> Prop :=
| ai_int z : as_integer (PInt z) (PInt z)
| ai_true : as_integer (PBool true) (PInt 1)
| ai_false : as_integer (PBool false) (PInt 0)
| ai_float q z : cut q z -> as_integer (PFlt (Fin q)) (PInt z).
Inductive as_float : pv -> pv -> Prop :=
| af_int z : as_float (PInt z) (PFlt (Fin (inject_Z z)))
| af_true : as_float (PBool true) (PFlt (Fin 1))
| af_false : as_float (PBool false) (PFlt (Fin 0))
| af_float x : as_float (PFlt x) (PFlt x)
| af_none : as_float PNone (PFlt NaN).
(** Values with no integer to stand for them, and what the conversion raises. *)
Inductive no_integer : pv -> exn -> Prop :=
| ni_none : no_integer PNone TypeError
| ni_nan : no_integer (PFlt NaN) (ValueError "cannot convert float NaN to integer")
| ni_inf : no_integer (PFlt PInf) OverflowError
| ni_minf : no_integer (PFlt NInf) OverflowError.
