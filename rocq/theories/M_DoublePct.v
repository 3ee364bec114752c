(** Percentiles computed in double precision: [get_percentiles] (squigglepy/utils.py:456-500)
    before rounding to digits, without weights ([np.percentile], utils.py:494) and with
    weights ([_weighted_percentile], utils.py:430-453).

    Simplifications: data, weights and percentiles are finite doubles; the exponent is
    unbounded (M_Double); [np.sum] adds in an order of its own and is an argument. *)
From Verif Require Import Base M_Values M_Ops M_Percentiles M_Float M_Double M_DoubleProb.
Open Scope Q_scope.

(** numpy's interpolation between neighbours: from the nearer one. *)
Definition fl_lerp (a b t : Q) : Q :=
  let d := dsub b a in
  if Qle_bool (1#2) t then dsub b (dmul d (dsub 1 t)) else dadd a (dmul d t).
(** [np.percentile(data, p)]: the position (n - 1) * (p / 100) in the sorted data.  At or
    above the last index both neighbours are the last datum. *)
Definition fl_percentile (data : list Q) (p : Q) : Q :=
  let s := qsort data in
  let last := (length data - 1)%nat in
  let n1 := inject_Z (Z.of_nat last) in
  let v := dmul n1 (ddiv p 100) in
  if Qle_bool n1 v then fl_lerp (nth last s 0) (nth last s 0) (dadd v 1)
  else
    let i := Z.to_nat (Qfloor v) in
    fl_lerp (nth i s 0) (nth (S i) s 0) (dsub v (inject_Z (Qfloor v))).

(** [np.interp(x, xp, fp)]: the value at a point equal to [x], else along the slope from the
    last point to the left of [x]. *)
Fixpoint fl_interp_from (x x0 y0 : Q) (pts : list (Q * Q)) : Q :=
  match pts with
  | [] => y0
  | (x1, y1) :: r =>
      if Qle_bool x1 x then fl_interp_from x x1 y1 r
      else if Qeq_bool x x0 then y0
      else dadd (dmul (ddiv (dsub y1 y0) (dsub x1 x0)) (dsub x x0)) y0
  end.
Definition fl_interp (pts : list (Q * Q)) (x : Q) : Q :=
  match pts with
  | [] => 0
  | (x0, y0) :: r => if Qlt_bool x x0 then y0 else fl_interp_from x x0 y0 r
  end.
(** [(np.cumsum(weights) - 0.5 * weights) / np.sum(weights)]. *)
Definition fl_points (total : Q) (ws : list Q) : list Q :=
  map (fun cw => ddiv (dsub (fst cw) (dmul (1#2) (snd cw))) total) (combine (fl_cumsum binary64 ws) ws).
(** [_weighted_percentile] of one percentile, for data already sorted. *)
Definition fl_weighted_percentile (total : Q) (data weights : list Q) (p : Q) : Q :=
  fl_interp (combine (fl_points total weights) data) (ddiv p 100).
