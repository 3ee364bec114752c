(** How percentiles move when the data move. *)
From Verif Require Import Base M_Percentiles SpecPercentiles.
From Coq Require Import Qabs.
Open Scope Q_scope.

(** No datum falls; no datum moves by more than [e]. *)
Definition risen (data data' : list Q) : Prop := Forall2 Qle data data'.
Definition moved (e : Q) (data data' : list Q) : Prop := Forall2 (fun x y => Qabs (x - y) <= e) data data'.
(** Two results with the same keys and related values. *)
Definition related (R : Q -> Q -> Prop) (a b : pout) : Prop :=
  match a, b with
  | One v, One v' => R v v'
  | Dict d, Dict d' => Forall2 (fun x y => fst x = fst y /\ R (snd x) (snd y)) d d'
  | _, _ => False
  end.
Definition out_le : pout -> pout -> Prop := related Qle.
Definition out_close (e : Q) : pout -> pout -> Prop := related (fun x y => Qabs (x - y) <= e).
(** The data keep their order. *)
Definition same_order (data data' : list Q) : Prop :=
  length data' = length data /\
  forall i j, (i < length data)%nat -> (j < length data)%nat -> nth i data 0 < nth j data 0 -> nth i data' 0 < nth j data' 0.
