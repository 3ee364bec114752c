(** IEEE 754 binary64 with its range: subnormal numbers, overflow, infinities and NaN.
    M_Double leaves the range out.

    Simplification: zero has no sign. *)
From Verif Require Import Base M_Values M_Ops M_Double.
Open Scope Q_scope.

(** The nearest double, ties to even; the last digit is worth at least 2^-1074, and from
    2^1024 on it is infinity. *)
Definition round64_pos (q : Q) : xnum :=
  let e := Z.max (last_digit q) (-1074) in
  let r := inject_Z (round_half_even (q * pow2 (- e))) * pow2 e in
  if Qlt_bool r (pow2 1024) then Fin r else PInf.
Definition round64 (x : xnum) : xnum :=
  match x with
  | Fin q => match Qnum q with Z0 => Fin 0 | Zpos _ => round64_pos q | Zneg _ => xneg (round64_pos (- q)) end
  | _ => x
  end.
