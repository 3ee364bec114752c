(** C165-C167: what the parameters of normal and lognormal distributions, and updates of
    them, mean for densities. *)
From Coq Require Import Reals Lra.
From Verif Require Import Base M_Dists SpecDists SpecNormal P_Normal P_Dists P_NormalUse.
Open Scope R_scope.

(* ---------------------------------------------------------------- C165 *)
(** [bell m s] is a density with mean [m] and variance [s * s]. *)
Theorem C165_density : forall m s, 0 < s ->
  whole_area (bell m s) 1 /\ whole_area (fun x => x * bell m s x) m /\
  whole_area (fun x => (x - m) * (x - m) * bell m s x) (s * s).
Proof. intros. split; [now apply bell_whole|]. split; [now apply bell_mean|now apply bell_variance]. Qed.
Print Assumptions C165_density.
(** Of the normal distribution built from an interval, the interval contains the share the
    credibility says, with as much on either side. *)
Theorem C165_interval : forall ppf c x y lc rc, true_quantile ppf -> 0 < c -> c < 100 -> x < y ->
  exists m s, norm ppf (Some x) (Some y) None None c lc rc = Ok (mkNormal (Some m) (Some s) lc rc) /\ 0 < s /\
    area_left (bell m s) x (1 / 2 - c / 200) /\ area (bell m s) x y (c / 100).
Proof. exact norm_area. Qed.
Print Assumptions C165_interval.
(** There is one quantile function. *)
Theorem C165_quantile_unique : forall f g p, true_quantile f -> true_quantile g -> 0 < p -> p < 1 -> f p = g p.
Proof. exact quantile_unique. Qed.
Print Assumptions C165_quantile_unique.
(** It meets the contract the other properties about normal distributions use. *)
Theorem C165_contract : forall ppf, true_quantile ppf -> normal_quantile Phi ppf.
Proof. exact true_normal. Qed.
Print Assumptions C165_contract.
Example C165_sat : exists ppf, true_quantile ppf.
Proof. exists quantile. exact quantile_true. Qed.

(* ---------------------------------------------------------------- C166 *)
(** The mean and sd a lognormal distribution reports are those of exp(X) for normal X. *)
Theorem C166_moments : forall ppf x y nm ns lm ls c lc rc d m s M S, lognorm ppf x y nm ns lm ls c lc rc = Ok d ->
  (forall q, ls = Some q -> 0 <= q) -> (forall p, lm = Some p -> 0 < p) ->
  l_mean d = Some m -> l_sd d = Some s -> l_lmean d = Some M -> l_lsd d = Some S -> 0 < s ->
  whole_area (fun x => exp x * bell m s x) M /\ whole_area (fun x => (exp x - M) * (exp x - M) * bell m s x) (S * S).
Proof. exact lognorm_true_moments. Qed.
Print Assumptions C166_moments.
(** exp(X) is between [x] and [y] if X is between ln x and ln y. *)
Theorem C166_interval : forall ppf c x y lc rc, true_quantile ppf -> 0 < c -> c < 100 -> 0 < x -> x < y ->
  exists d m s, lognorm ppf (Some x) (Some y) None None None None c lc rc = Ok d /\ l_mean d = Some m /\ l_sd d = Some s /\ 0 < s /\
    area_left (bell m s) (ln x) (1 / 2 - c / 200) /\ area (bell m s) (ln x) (ln y) (c / 100).
Proof. exact lognorm_area. Qed.
Print Assumptions C166_interval.
(** 1 / exp(X) is if X is between -ln y and -ln x. *)
Theorem C166_inverse_interval : forall ppf c x y lc rc, true_quantile ppf -> 0 < c -> c < 100 -> 0 < x -> x < y ->
  exists d m s, invlognorm ppf (Some x) (Some y) None None None None c lc rc = Ok d /\ l_mean d = Some m /\ l_sd d = Some s /\ 0 < s /\
    area_left (bell m s) (- ln y) (1 / 2 - c / 200) /\ area (bell m s) (- ln y) (- ln x) (c / 100).
Proof. exact invlognorm_area. Qed.
Print Assumptions C166_inverse_interval.
(** The moments C81 measures invlognorm by are those of 1 / exp(X); *)
Theorem C166_inverse_moments : forall m s, 0 < s ->
  whole_area (fun x => / exp x * bell m s x) (inv_lognormal_mean m s) /\
  whole_area (fun x => (/ exp x - inv_lognormal_mean m s) * (/ exp x - inv_lognormal_mean m s) * bell m s x) (inv_lognormal_var m s).
Proof. exact inv_mean_var. Qed.
Print Assumptions C166_inverse_moments.
(** the mean invlognorm reports is not. *)
Theorem C166_inverse_mean_refuted : forall ppf,
  exists d m s M, invlognorm ppf None None (Some 0) (Some 1) None None 90 None None = Ok d /\
  l_mean d = Some m /\ l_sd d = Some s /\ l_lmean d = Some M /\ 0 < s /\ ~ whole_area (fun x => / exp x * bell m s x) M.
Proof. exact invlognorm_reported. Qed.
Print Assumptions C166_inverse_mean_refuted.
Example C166_sat : forall ppf, exists d M S, lognorm ppf None None (Some 1) (Some 2) None None 90 None None = Ok d /\
  l_mean d = Some 1 /\ l_sd d = Some 2 /\ l_lmean d = Some M /\ l_lsd d = Some S.
Proof. intro ppf. eexists _, _, _. repeat split. Qed.

(* ---------------------------------------------------------------- C167 *)
(** The posterior of normals is the prior times the evidence to the power of its weight,
    rescaled; of lognormals likewise for the logarithms; *)
Theorem C167_normal : forall ppf p e pm ps em es w d, normal_of p pm ps -> normal_of e em es -> 0 < ps -> 0 < es -> 0 <= w ->
  update ppf p e w = Ok d -> exists m s, normal_of d m s /\ 0 < s /\
  proportional (fun _ => True) (fun x => bell pm ps x * Rpower (bell em es x) w) (bell m s).
Proof. exact normal_update_density. Qed.
Print Assumptions C167_normal.
Theorem C167_lognormal : forall ppf p e pm ps em es w d, lognormal_of p pm ps -> lognormal_of e em es -> 0 < ps -> 0 < es -> 0 <= w ->
  update ppf p e w = Ok d -> exists m s, lognormal_of d m s /\ 0 < s /\
  proportional (fun _ => True) (fun x => bell pm ps x * Rpower (bell em es x) w) (bell m s).
Proof. exact lognormal_update_density. Qed.
Print Assumptions C167_lognormal.
(** of betas it is the prior times the likelihood of the evidence's counts; *)
Theorem C167_beta : forall ppf a b a' b' w, exists A B, update ppf (DBeta a b) (DBeta a' b') w = Ok (DBeta A B) /\
  proportional (fun x => 0 < x < 1) (fun x => beta_shape a b x * counts a' b' x) (beta_shape A B).
Proof. intros. exists (a + a'), (b + b'). split; [reflexivity|apply beta_update_density]. Qed.
Print Assumptions C167_beta.
(** of gammas it is neither. *)
Theorem C167_gamma_refuted : forall ppf, exists k th k' th' K Th,
  update ppf (DGamma k th None None) (DGamma k' th' None None) 1 = Ok (DGamma K Th None None) /\
  ~ proportional (fun x => 0 < x) (fun x => gamma_shape k th x * gamma_shape k' th' x) (gamma_shape K Th) /\
  ~ proportional (fun x => 0 < x) (fun x => gamma_shape k th x * (Rpower x k' * exp (- x / th'))) (gamma_shape K Th).
Proof. exact gamma_update_density. Qed.
Print Assumptions C167_gamma_refuted.
Example C167_sat : forall ppf,
  let p := DNorm (mkNormal (Some 1) (Some 2) None None) in
  normal_of p 1 2 /\ exists d, update ppf p p 1 = Ok d.
Proof.
  intros ppf p. split; [now split|]. destruct (P_Update.normal_update_spec ppf p p 1 2 1 2 1 (conj eq_refl eq_refl) (conj eq_refl eq_refl)) as (m & s & E & _); try lra.
  eexists. exact E.
Qed.
