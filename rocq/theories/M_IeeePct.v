(** [get_percentiles] without weights (squigglepy/utils.py:456-500, [np.percentile] at
    line 494) in IEEE 754 arithmetic with its range, before rounding to digits.

    Simplifications: finite data; the position in the sorted data is computed as in
    M_DoublePct, without underflow. *)
From Verif Require Import Base M_Values M_Ops M_Percentiles M_Double M_DoubleProb M_Ieee.
Open Scope Q_scope.

Definition ieee_lerp (a b t : Q) : xnum :=
  let d := round64 (xsub (Fin b) (Fin a)) in
  if Qle_bool (1#2) t then round64 (xsub (Fin b) (round64 (xmul d (Fin (dsub 1 t)))))
  else round64 (xadd (Fin a) (round64 (xmul d (Fin t)))).
(** See [fl_percentile]. *)
Definition ieee_percentile (data : list Q) (p : Q) : xnum :=
  let s := qsort data in
  let last := (length data - 1)%nat in
  let n1 := inject_Z (Z.of_nat last) in
  let v := dmul n1 (ddiv p 100) in
  if Qle_bool n1 v then ieee_lerp (nth last s 0) (nth last s 0) (dadd v 1)
  else
    let i := Z.to_nat (Qfloor v) in
    ieee_lerp (nth i s 0) (nth (S i) s 0) (dsub v (inject_Z (Qfloor v))).
