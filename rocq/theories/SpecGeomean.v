(** How geometric means move with their values. *)
From Coq Require Import Reals.
From Verif Require Import Base M_Weights M_Formulas SpecFormulas.
Open Scope R_scope.

(** A function applied to every number, NA and infinities staying. *)
Definition change (h : R -> R) (v : rnum) : rnum := match v with RFin x => RFin (h x) | _ => v end.
(** The weighted arithmetic mean. *)
Fixpoint weighted_total (ws : list Q) (xs : list R) : R :=
  match ws, xs with w :: ws', x :: xs' => Q2R w * x + weighted_total ws' xs' | _, _ => 0 end.
Definition arithmetic_mean (ws : list Q) (xs : list R) : R := weighted_total ws xs / weight_total ws.
Fixpoint sum_of (xs : list R) : R := match xs with [] => 0 | x :: xs' => x + sum_of xs' end.
