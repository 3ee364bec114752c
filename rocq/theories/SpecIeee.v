(** Reading the standard library's specification of IEEE 754 numbers. *)
From Coq.Floats Require Import SpecFloat.
From Coq Require Import Qabs.
From Verif Require Import Base M_Values M_Double.
Open Scope Q_scope.

(** The number meant; zero loses its sign. *)
Definition value (x : spec_float) : xnum :=
  match x with
  | S754_zero _ => Fin 0
  | S754_infinity s => if s then NInf else PInf
  | S754_nan => NaN
  | S754_finite s m e => Fin (inject_Z (if s then Zneg m else Zpos m) * Qpower 2 e)
  end.
Definition same (a b : xnum) : Prop :=
  match a, b with
  | Fin x, Fin y => x == y
  | PInf, PInf | NInf, NInf | NaN, NaN => True
  | _, _ => False
  end.
(** A binary64 number: 53 digits, exponents up to 1024. *)
Definition ieee (x : spec_float) : Prop := valid_binary 53 1024 x = true.
(** [v] is [r], or infinity if [r] is too large; [q] has its sign. *)
Definition limited (q r : Q) (v : xnum) : Prop :=
  (Qabs r < pow2 1024 -> same v (Fin r)) /\
  (pow2 1024 <= Qabs r -> same v (if Qlt_bool q 0 then NInf else PInf)).
(** A finite binary64 number. *)
Definition finite64 (a : Q) : Prop := exists x, ieee x /\ same (value x) (Fin a).
(** Where overflow begins: half a unit above the largest of them. *)
Definition limit64 : Q := inject_Z (2 ^ 54 - 1) * pow2 970.
