(** The normal distribution of an interval (squigglepy/distributions.py:697-711) and the
    normal update (squigglepy/bayes.py:354-366) in IEEE 754 arithmetic with its range.

    Simplifications: finite arguments, which are Python floats (dividing by zero raises, and
    so does a square that is too large); squares are rounded to the nearest double; the
    square root of the variance is not taken. *)
From Verif Require Import Base M_Values M_Ops M_Ieee.
Open Scope Q_scope.

Definition i_add (a b : xnum) : xnum := round64 (xadd a b).
Definition i_sub (a b : xnum) : xnum := round64 (xsub a b).
Definition i_mul (a b : xnum) : xnum := round64 (xmul a b).
Definition i_div (a b : xnum) : xnum := round64 (xdiv a b).
(** See [fl_norm_params]. *)
Definition ieee_norm_params (x y sigma : Q) : res (xnum * xnum) :=
  if Qlt_bool y x then Err (ValueError "`high value` cannot be lower than `low value`")
  else let mean := i_div (i_add (Fin x) (Fin y)) (Fin 2) in Ok (mean, i_div (i_sub (Fin y) mean) (Fin sigma)).
(** [sd ** 2], bayes.py:355 and 357. *)
Definition ieee_square (s : Q) : res xnum :=
  match i_mul (Fin s) (Fin s) with Fin q => Ok (Fin q) | _ => Err OverflowError end.
(** See [fl_update]; [ps] and [es] are the sds. *)
Definition ieee_update (pm ps em es w : Q) : res (xnum * xnum) :=
  do pv <- ieee_square ps;
  do ev <- ieee_square es;
  let d := i_add (i_mul (Fin w) pv) ev in
  if xzero d then Err ZeroDivisionError
  else Ok (i_div (i_add (i_mul ev (Fin pm)) (i_mul (Fin w) (i_mul pv (Fin em)))) d, i_div (i_mul ev pv) d).
