(** Areas, the normal density, and what it means for a function to be its quantile. *)
From Coq Require Import Reals.
Open Scope R_scope.

(** The area under [f] from [a] to [b], by an antiderivative. *)
Definition area (f : R -> R) (a b I : R) : Prop :=
  exists F, (forall x, derivable_pt_lim F x (f x)) /\ F b - F a = I.
(** The whole area under [f]: the limit of the areas from far left to far right. *)
Definition whole_area (f : R -> R) (I : R) : Prop :=
  exists F, (forall x, derivable_pt_lim F x (f x)) /\
    forall eps, 0 < eps -> exists A, forall a b, a <= - A -> A <= b -> Rabs (F b - F a - I) < eps.
(** The density of the normal distribution with mean [m] and standard deviation [s]. *)
Definition bell (m s x : R) : R := exp (- ((x - m) * (x - m)) / (2 * (s * s))) / (s * sqrt (2 * PI)).
(** The area under [f] left of [b]. *)
Definition area_left (f : R -> R) (b I : R) : Prop :=
  exists F, (forall x, derivable_pt_lim F x (f x)) /\
    (forall eps, 0 < eps -> exists A, forall x, x <= - A -> Rabs (F x) < eps) /\ F b = I.
(** The quantile function of the standard normal distribution. *)
Definition true_quantile (ppf : R -> R) : Prop := forall p, 0 < p -> p < 1 -> area_left (bell 0 1) (ppf p) p.
(** [g] is [f] up to a positive factor, on [on]. *)
Definition proportional (on : R -> Prop) (f g : R -> R) : Prop := exists K, 0 < K /\ forall x, on x -> g x = K * f x.
(** Densities of beta and gamma distributions, up to a factor, and the likelihood of [a]
    successes and [b] failures. *)
Definition beta_shape (a b x : R) : R := Rpower x (a - 1) * Rpower (1 - x) (b - 1).
Definition counts (a b x : R) : R := Rpower x a * Rpower (1 - x) b.
Definition gamma_shape (k th x : R) : R := Rpower x (k - 1) * exp (- x / th).
(** The area under [f] strictly between [l] and [r], where [f] may be unbounded near the
    ends. *)
Definition area_within (l r : R) (f : R -> R) (I : R) : Prop :=
  exists F, (forall x, l < x < r -> derivable_pt_lim F x (f x)) /\
    forall eps, 0 < eps -> exists d, 0 < d /\ forall a b, l < a < l + d -> r - d < b < r -> Rabs (F b - F a - I) < eps.
(** A beta distribution stretched to the interval from [l] to [r]. *)
Definition stretched_beta (l r a b x : R) : R := beta_shape a b ((x - l) / (r - l)).
