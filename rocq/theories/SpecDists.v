(** Vocabulary for the distribution-parameter properties. *)
From Coq Require Import Reals.
From Verif Require Import Base M_Dists.
Open Scope R_scope.

(** What is assumed of [scipy.stats.norm.ppf]: it inverts a strictly increasing
    cumulative distribution function that is symmetric around 0. *)
Record normal_quantile (Phi ppf : R -> R) : Prop := {
  nq_increasing : forall x y, x < y -> Phi x < Phi y;
  nq_symmetric : forall x, Phi (- x) = 1 - Phi x;
  nq_inverse : forall p, 0 < p -> p < 1 -> Phi (ppf p) = p
}.

(** Probability of being at most [v] for a normal, a lognormal and the reciprocal of
    a lognormal with the given underlying mean and (positive) sd. *)
Definition normal_cdf (Phi : R -> R) (mean sd v : R) : R := Phi ((v - mean) / sd).
Definition lognormal_cdf (Phi : R -> R) (mean sd v : R) : R := Phi ((ln v - mean) / sd).
Definition inv_lognormal_cdf (Phi : R -> R) (mean sd v : R) : R := 1 - lognormal_cdf Phi mean sd (/ v).

(** Mean and variance of exp(N(m, s)) and of its reciprocal exp(N(-m, s)). *)
Definition lognormal_mean (m s : R) : R := exp (m + s * s / 2).
Definition lognormal_var (m s : R) : R := (exp (s * s) - 1) * (lognormal_mean m s * lognormal_mean m s).
Definition inv_lognormal_mean (m s : R) : R := lognormal_mean (- m) s.
Definition inv_lognormal_var (m s : R) : R := lognormal_var (- m) s.

(** Precision (inverse variance) of a normal. *)
Definition precision (s : R) : R := / (s * s).

(** A well-formed normal, lognormal, gamma. *)
Definition normal_of (d : rdist) (m s : R) : Prop :=
  match d with DNorm n => n_mean n = Some m /\ n_sd n = Some s | _ => False end.
Definition lognormal_of (d : rdist) (m s : R) : Prop :=
  match d with DLognorm n => l_mean n = Some m /\ l_sd n = Some s | _ => False end.
Definition gamma_of (d : rdist) (k th : R) : Prop :=
  match d with DGamma a b _ _ => a = k /\ b = th | _ => False end.
Definition beta_mean (a b : R) : R := a / (a + b).

(** The four supported pairs. *)
Definition same_supported (p e : rdist) : Prop :=
  match p, e with
  | DNorm _, DNorm _ | DLognorm _, DLognorm _ | DBeta _ _, DBeta _ _ | DGamma _ _ _ _, DGamma _ _ _ _ => True
  | _, _ => False
  end.
(** The same distribution without its clips. *)
Definition without_clips (d : rdist) : rdist :=
  match d with
  | DNorm n => DNorm (mkNormal (n_mean n) (n_sd n) None None)
  | DLognorm l => DLognorm (mkLognormal (l_mean l) (l_sd l) (l_lmean l) (l_lsd l) None None)
  | DBeta a b => DBeta a b
  | DGamma k th _ _ => DGamma k th None None
  | DOther k => DOther k
  end.
