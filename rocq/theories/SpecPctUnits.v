(** What percentiles mean: changes of units, shares of the data. *)
From Verif Require Import Base M_Percentiles SpecPercentiles.
Open Scope Q_scope.

(** A change of units. *)
Definition affine (a b : Q) (x : Q) : Q := a * x + b.
Definition out_map (f : Q -> Q) (o : pout) : pout :=
  match o with One v => One (f v) | Dict d => Dict (map (fun kv => (fst kv, f (snd kv))) d) end.

(** The whole weight of the data below, or not above, a number. *)
Definition weight_below (data weights : list Q) (v : Q) : Q :=
  sum (map snd (filter (fun dw => Qlt_bool (fst dw) v) (combine data weights))).
Definition weight_upto (data weights : list Q) (v : Q) : Q :=
  sum (map snd (filter (fun dw => Qle_bool (fst dw) v) (combine data weights))).
(** How many data lie in a closed interval. *)
Definition count_inside (l : list Q) (lo hi : Q) : nat :=
  length (filter (fun y => Qle_bool lo y && Qle_bool y hi) l).
Definition count (n : nat) : Q := inject_Z (Z.of_nat n).
