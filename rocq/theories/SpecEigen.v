(** What the eigenvalue test and the tolerance test of correlations are about. *)
From Coq Require Import Reals Qreals.
From Verif Require Import Base M_Corr SpecCorr SpecIman.
Open Scope R_scope.

(** [l] is a real eigenvalue of the [k] by [k] matrix [a]: some vector other than zero
    is stretched by [l]. *)
Definition eigenvalue (k : nat) (a : nat -> nat -> R) (l : R) : Prop :=
  exists x, (exists i, (i < k)%nat /\ x i <> 0) /\
  forall i, (i < k)%nat -> total (map (fun j => a i j * x j) (seq 0 k)) = l * x i.
Definition no_negative_eigenvalue (k : nat) (m : matrix) : Prop :=
  forall l, eigenvalue k (fun i j => Q2R (entry m i j)) l -> 0 <= l.
(** Two columns in opposite order. *)
Definition opposite_order (a b : list Q) : Prop :=
  length a = length b /\
  forall i j, (i < length a)%nat -> (j < length a)%nat -> (nth i a 0%Q < nth j a 0%Q <-> nth j b 0%Q < nth i b 0%Q)%Q.
