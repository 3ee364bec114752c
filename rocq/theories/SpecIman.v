(** What the re-correlation of scores should achieve. *)
From Coq Require Import Reals.
From Verif Require Import Base M_Corr.
Open Scope R_scope.

Definition total (l : list R) : R := fold_right Rplus 0 l.
Definition average (l : list R) : R := total l / INR (length l).
(** Sum of products of deviations from the averages. *)
Definition co_deviation (a b : list R) : R :=
  total (map (fun p => (fst p - average a) * (snd p - average b)) (combine a b)).
(** Pearson's correlation coefficient. *)
Definition pearson (a b : list R) : R := co_deviation a b / sqrt (co_deviation a a * co_deviation b b).

(** Quadratic form and definiteness of a real [k] by [k] matrix. *)
Definition real_quad (k : nat) (a : nat -> nat -> R) (x : nat -> R) : R :=
  total (map (fun i => total (map (fun j => x i * a i j * x j) (seq 0 k))) (seq 0 k)).
Definition real_definite (k : nat) (a : nat -> nat -> R) : Prop :=
  forall x, (exists i, (i < k)%nat /\ x i <> 0) -> 0 < real_quad k a x.
(** A quantile function. *)
Definition increasing_quantile (ppf : R -> R) : Prop :=
  forall p q, 0 < p -> p < q -> q < 1 -> ppf p < ppf q.
(** The scores of a column of samples: quantiles of its ranks. *)
Definition score_column (ppf : R -> R) (c : list Q) : list R :=
  map (fun r => ppf (INR r / (INR (length c) + 1))) (rank_min c).
