(** C169: what updating does to the mean and the variance. *)
From Coq Require Import Reals Lra.
From Verif Require Import Base M_Dists SpecDists SpecNormal SpecMoments P_Moments.
Open Scope R_scope.

(** Mean and variance by integration. *)
Theorem C169_values : forall m v,
  (forall mu s, moments_of (DNorm (mkNormal (Some mu) (Some s) None None)) m v <-> 0 < s /\ m = mu /\ v = s * s) /\
  (forall mu s x y, moments_of (DLognorm (mkLognormal (Some mu) (Some s) x y None None)) m v <->
     0 < s /\ m = exp (mu + s * s / 2) /\ v = (exp (s * s) - 1) * (exp (mu + s * s / 2) * exp (mu + s * s / 2))) /\
  (forall a b, moments_of (DBeta a b) m v <-> 0 < a /\ 0 < b /\ m = a / (a + b) /\ v = a * b / ((a + b) * (a + b) * (a + b + 1))) /\
  (forall k th, moments_of (DGamma k th None None) m v <-> 0 < k /\ 0 < th /\ m = k * th /\ v = k * (th * th)).
Proof.
  intros m v. split; [intros; apply moments_normal|]. split; [intros; apply moments_lognormal|]. split; [intros; apply moments_beta|intros; apply moments_gamma].
Qed.
Print Assumptions C169_values.
(** The posterior mean lies between those of prior and evidence for normals and betas. *)
Theorem C169_between_partial : forall ppf p e w d m v m' v', normals_or_betas p e -> 0 <= w ->
  moments_of p m v -> moments_of e m' v' -> update ppf p e w = Ok d ->
  exists M V, moments_of d M V /\ Rmin m m' <= M <= Rmax m m'.
Proof. exact update_between. Qed.
Print Assumptions C169_between_partial.
(** For lognormals it can be below both: evidence equal to the prior lowers the mean. *)
Theorem C169_lognormal_refuted : forall ppf mu s x y w, 0 < s -> 0 < w ->
  let p := DLognorm (mkLognormal (Some mu) (Some s) x y None None) in
  exists d m v M V, update ppf p p w = Ok d /\ moments_of p m v /\ moments_of d M V /\ M < m /\ V < v.
Proof. exact lognormal_shrinks. Qed.
Print Assumptions C169_lognormal_refuted.
(** For gammas it can be above both: evidence equal to the prior multiplies mean and
    variance. *)
Theorem C169_gamma_refuted : forall ppf k th w, 0 < k -> 0 < th -> 0 <= w -> let p := DGamma k th None None in
  exists d m v, update ppf p p w = Ok d /\ moments_of p m v /\ moments_of d ((1 + w) * m) ((1 + w) * v) /\ 0 < m /\ 0 < v.
Proof. exact gamma_grows. Qed.
Print Assumptions C169_gamma_refuted.
(** Normal posteriors are not wider than the prior; *)
Theorem C169_normal_narrows : forall ppf p e w d m v m' v', 0 <= w ->
  moments_of (DNorm p) m v -> moments_of (DNorm e) m' v' -> update ppf (DNorm p) (DNorm e) w = Ok d ->
  exists M V, moments_of d M V /\ V <= v.
Proof. exact normal_narrows. Qed.
Print Assumptions C169_normal_narrows.
(** beta posteriors are narrower when the evidence is the same as the prior, *)
Theorem C169_beta_narrows_partial : forall ppf a b w m v, moments_of (DBeta a b) m v ->
  exists d V, update ppf (DBeta a b) (DBeta a b) w = Ok d /\ moments_of d m V /\ V < v.
Proof. exact beta_same. Qed.
Print Assumptions C169_beta_narrows_partial.
(** not in general. *)
Theorem C169_beta_narrows_refuted : forall ppf, exists p e d m v m' v' M V, update ppf p e 1 = Ok d /\
  moments_of p m v /\ moments_of e m' v' /\ moments_of d M V /\ v < V /\ v' < V.
Proof. exact beta_widens. Qed.
Print Assumptions C169_beta_narrows_refuted.
Example C169_sat : moments_of (DNorm (mkNormal (Some 1) (Some 2) None None)) 1 4 /\ moments_of (DBeta 1 1) (1 / 2) (1 / 12) /\ moments_of (DGamma 2 3 None None) 6 18.
Proof.
  split; [apply moments_normal; repeat split; lra|]. split; [apply moments_beta; repeat split; lra|apply moments_gamma; repeat split; lra].
Qed.
