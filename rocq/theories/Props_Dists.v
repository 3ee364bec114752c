(** Properties of the normal-family constructors (C77-C82). *)
From Coq Require Import Reals Lra.
From Verif Require Import Base M_Dists SpecDists P_Dists P_DistsSat.
Open Scope R_scope.

(* ---------------------------------------------------------------- C77 *)
Theorem C77_credible_interval :
  forall Phi ppf c x y lc rc, normal_quantile Phi ppf -> 0 < c -> c < 100 -> x < y ->
  exists m s, norm ppf (Some x) (Some y) None None c lc rc = Ok (mkNormal (Some m) (Some s) lc rc) /\
    m = (x + y) / 2 /\ 0 < s /\
    normal_cdf Phi m s x = 1 / 2 - c / 200 /\ normal_cdf Phi m s y = 1 / 2 + c / 200.
Proof. exact norm_interval. Qed.
Print Assumptions C77_credible_interval.

Theorem C77_point_interval :
  forall ppf c x lc rc, norm ppf (Some x) (Some x) None None c lc rc = Ok (mkNormal (Some x) (Some 0) lc rc).
Proof. exact norm_degenerate. Qed.
Print Assumptions C77_point_interval.

Theorem C77_accepted_combinations :
  forall ppf x y mean sd c lc rc,
  (exists d, norm ppf x y mean sd c lc rc = Ok d) <->
  (exists a b, x = Some a /\ y = Some b /\ a <= b /\ sd = None) \/ (x = None /\ y = None /\ sd <> None).
Proof. exact norm_accepts. Qed.
Print Assumptions C77_accepted_combinations.

Theorem C77_rejection_is_ValueError :
  forall ppf x y mean sd c lc rc e, norm ppf x y mean sd c lc rc = Err e -> exists s, e = ValueError s.
Proof. exact norm_rejects. Qed.
Print Assumptions C77_rejection_is_ValueError.

Theorem C77_mean_and_sd :
  forall ppf c m s lc rc, norm ppf None None (Some m) (Some s) c lc rc = Ok (mkNormal (Some m) (Some s) lc rc).
Proof. exact norm_mean_sd. Qed.
Print Assumptions C77_mean_and_sd.

(** The mean is 0 if only the spread is given. *)
Theorem C77_sd_only :
  forall ppf c s lc rc, norm ppf None None None (Some s) c lc rc = Ok (mkNormal (Some 0) (Some s) lc rc).
Proof. exact norm_sd_only. Qed.
Print Assumptions C77_sd_only.

(** The assumptions on the quantile function can be met. *)
Example C77_sat : exists Phi ppf, normal_quantile Phi ppf.
Proof. exact quantile_exists. Qed.

(* ---------------------------------------------------------------- C78 *)
Theorem C78_refuted :
  forall ppf, exists d, norm ppf (Some 1) (Some 2) (Some 5) None 90 None None = Ok d /\ n_sd d = None.
Proof. exact norm_incomplete. Qed.
Print Assumptions C78_refuted.

(** Such a distribution cannot be updated. *)
Theorem C78_incomplete_not_updatable :
  forall ppf x y m c lc rc d e w, norm ppf (Some x) (Some y) (Some m) None c lc rc = Ok d ->
  update ppf (DNorm d) (DNorm e) w = Err TypeError.
Proof.
  intros ppf x y m c lc rc d e w. unfold norm. destruct (above _ _); [discriminate|]. simpl. intros H. inversion H. reflexivity.
Qed.
Print Assumptions C78_incomplete_not_updatable.

Theorem C78_without_mean_and_interval_partial :
  forall ppf x y mean sd c lc rc d, norm ppf x y mean sd c lc rc = Ok d ->
  mean = None \/ x = None -> exists m s, n_mean d = Some m /\ n_sd d = Some s.
Proof. exact norm_full. Qed.
Print Assumptions C78_without_mean_and_interval_partial.

Example C78_sat : forall ppf, norm ppf None None None (Some 2) 90 None None = Ok (mkNormal (Some 0) (Some 2) None None).
Proof. intros; reflexivity. Qed.

(* ---------------------------------------------------------------- C79 *)
Theorem C79_credible_interval :
  forall Phi ppf c x y lc rc, normal_quantile Phi ppf -> 0 < c -> c < 100 -> 0 < x -> x < y ->
  exists m s, lognorm ppf (Some x) (Some y) None None None None c lc rc =
      Ok (mkLognormal (Some m) (Some s) (Some (fst (to_moments m s))) (Some (snd (to_moments m s))) lc rc) /\
    m = (ln x + ln y) / 2 /\ 0 < s /\
    lognormal_cdf Phi m s x = 1 / 2 - c / 200 /\ lognormal_cdf Phi m s y = 1 / 2 + c / 200.
Proof. exact lognorm_interval. Qed.
Print Assumptions C79_credible_interval.

Theorem C79_all_four_parameters :
  forall ppf x y nm ns lm ls c lc rc d, lognorm ppf x y nm ns lm ls c lc rc = Ok d ->
  exists m s M S, l_mean d = Some m /\ l_sd d = Some s /\ l_lmean d = Some M /\ l_lsd d = Some S.
Proof. exact lognorm_full. Qed.
Print Assumptions C79_all_four_parameters.

Theorem C79_moment_equations :
  forall ppf x y nm ns lm ls c lc rc d m s M S, lognorm ppf x y nm ns lm ls c lc rc = Ok d ->
  (forall q, ls = Some q -> 0 <= q) -> (forall p, lm = Some p -> 0 < p) ->
  l_mean d = Some m -> l_sd d = Some s -> l_lmean d = Some M -> l_lsd d = Some S ->
  M = lognormal_mean m s /\ S * S = lognormal_var m s.
Proof. exact lognorm_consistent. Qed.
Print Assumptions C79_moment_equations.

Theorem C79_round_trip_from_norm :
  forall ppf m s c lc rc M S d, 0 <= s ->
  lognorm ppf None None (Some m) (Some s) None None c lc rc = Ok d -> l_lmean d = Some M -> l_lsd d = Some S ->
  lognorm ppf None None None None (Some M) (Some S) c lc rc = Ok d.
Proof. exact lognorm_round_trip. Qed.
Print Assumptions C79_round_trip_from_norm.

Theorem C79_round_trip_from_lognorm :
  forall ppf M S c lc rc m s d, 0 < M -> 0 <= S ->
  lognorm ppf None None None None (Some M) (Some S) c lc rc = Ok d -> l_mean d = Some m -> l_sd d = Some s ->
  lognorm ppf None None (Some m) (Some s) None None c lc rc = Ok d.
Proof. exact lognorm_round_trip2. Qed.
Print Assumptions C79_round_trip_from_lognorm.

(** Everything else raises ValueError, but a zero lognormal mean divides by zero. *)
Theorem C79_rejections :
  forall ppf x y nm ns lm ls c lc rc e, lognorm ppf x y nm ns lm ls c lc rc = Err e ->
  (exists s, e = ValueError s) \/ (e = ZeroDivisionError /\ lm = Some 0 /\ ls <> None).
Proof. exact lognorm_rejects. Qed.
Print Assumptions C79_rejections.
Theorem C79_accepted_combinations :
  forall ppf x y nm ns lm ls c lc rc,
  (exists d, lognorm ppf x y nm ns lm ls c lc rc = Ok d) <->
  (exists a b, x = Some a /\ y = Some b /\ 0 < a /\ a <= b /\ ns = None /\ ls = None /\ (nm = None \/ lm = None)) \/
  (x = None /\ y = None /\ ns <> None /\ lm = None /\ ls = None) \/
  (x = None /\ y = None /\ ns = None /\ nm = None /\ ls <> None /\ lm <> Some 0).
Proof. exact lognorm_accepts. Qed.
Print Assumptions C79_accepted_combinations.

Example C79_sat : forall ppf, exists d,
  lognorm ppf None None (Some 1) (Some 2) None None 90 None None = Ok d /\ l_lmean d = Some (lognormal_mean 1 2).
Proof. intros. eexists. split; [reflexivity|]. simpl. reflexivity. Qed.

(* ---------------------------------------------------------------- C80 *)
Theorem C80_credible_interval :
  forall Phi ppf c x y lc rc, normal_quantile Phi ppf -> 0 < c -> c < 100 -> 0 < x -> x < y ->
  exists m s l2 l3, invlognorm ppf (Some x) (Some y) None None None None c lc rc =
      Ok (mkLognormal (Some m) (Some s) l2 l3 lc rc) /\ 0 < s /\
    inv_lognormal_cdf Phi m s x = 1 / 2 - c / 200 /\ inv_lognormal_cdf Phi m s y = 1 / 2 + c / 200.
Proof. exact invlognorm_interval. Qed.
Print Assumptions C80_credible_interval.

Example C80_sat : exists Phi ppf m s l2 l3, normal_quantile Phi ppf /\
  invlognorm ppf (Some 1) (Some 10) None None None None 90 None None = Ok (mkLognormal (Some m) (Some s) l2 l3 None None).
Proof.
  destruct quantile_exists as (Phi & ppf & NQ). exists Phi, ppf.
  destruct (invlognorm_interval Phi ppf 90 1 10 None None NQ) as (m & s & a & b & H & _); try lra.
  exists m, s, a, b. split; assumption.
Qed.

(** Clips are kept as given, by all three constructors. *)
Theorem C80_clips_kept :
  forall ppf x y nm ns lm ls c lc rc,
  (forall d, norm ppf x y nm ns c lc rc = Ok d -> n_lclip d = lc /\ n_rclip d = rc) /\
  (forall d, lognorm ppf x y nm ns lm ls c lc rc = Ok d -> l_lclip d = lc /\ l_rclip d = rc) /\
  (forall d, invlognorm ppf x y nm ns lm ls c lc rc = Ok d -> l_lclip d = lc /\ l_rclip d = rc).
Proof. exact clips_kept. Qed.
Print Assumptions C80_clips_kept.

(* ---------------------------------------------------------------- C81 *)
Theorem C80_rejections :
  forall ppf x y nm ns lm ls c lc rc e, invlognorm ppf x y nm ns lm ls c lc rc = Err e ->
  (exists s, e = ValueError s) \/ (e = ZeroDivisionError /\ lm = Some 0 /\ ls <> None).
Proof. exact invlognorm_rejects. Qed.
Print Assumptions C80_rejections.

Theorem C81_reported_mean_refuted :
  forall ppf, exists d M,
  invlognorm ppf None None (Some 0) (Some 1) None None 90 None None = Ok d /\
  l_mean d = Some 0 /\ l_sd d = Some 1 /\ l_lmean d = Some M /\ M <> inv_lognormal_mean 0 1.
Proof. exact invlognorm_reported_wrong. Qed.
Print Assumptions C81_reported_mean_refuted.

Theorem C81_sampled_mean_refuted :
  forall ppf, exists d m s,
  invlognorm ppf None None None None (Some 1) (Some 1) 90 None None = Ok d /\
  l_mean d = Some m /\ l_sd d = Some s /\ l_lmean d = Some 1 /\ inv_lognormal_mean m s <> 1.
Proof. exact invlognorm_sampled_wrong. Qed.
Print Assumptions C81_sampled_mean_refuted.

(** The reported mean is right on one curve of parameters only. *)
Theorem C81_when_right :
  forall m s, fst (inv_moments m s) = inv_lognormal_mean m s <-> m = - (s * s).
Proof. exact invlognorm_mean_iff. Qed.
Print Assumptions C81_when_right.
(** The reported sd is off by the same factor as the reported mean: their ratio is the
    one of the distribution. *)
Theorem C81_relative_sd_partial :
  forall ppf x y nm ns c lc rc d m s,
  invlognorm ppf x y nm ns None None c lc rc = Ok d -> l_mean d = Some m -> l_sd d = Some s ->
  exists M S, l_lmean d = Some M /\ l_lsd d = Some S /\ S / M = sqrt (inv_lognormal_var m s) / inv_lognormal_mean m s.
Proof. exact invlognorm_relative_sd. Qed.
Print Assumptions C81_relative_sd_partial.

(** Given lognorm_mean and lognorm_sd, the draws have mean lognorm_mean + lognorm_sd^2 /
    lognorm_mean: too large, unless the sd is 0.  The sd relative to the mean is as asked. *)
Theorem C81_sampled_partial :
  forall ppf lm ls c lc rc d m s, 0 < lm ->
  invlognorm ppf None None None None (Some lm) (Some ls) c lc rc = Ok d -> l_mean d = Some m -> l_sd d = Some s ->
  inv_lognormal_mean m s = lm + Rsqr ls / lm /\
  inv_lognormal_var m s / Rsqr (inv_lognormal_mean m s) = Rsqr ls / Rsqr lm.
Proof. exact invlognorm_sampled_mean. Qed.
Print Assumptions C81_sampled_partial.

(* ---------------------------------------------------------------- C82 *)
Theorem C82_positive_is_lognorm :
  forall ppf x y c lc rc, 0 < x ->
  to ppf x y c lc rc = (do d <- lognorm ppf (Some x) (Some y) None None None None c lc rc; Ok (DLognorm d)).
Proof. exact to_positive. Qed.
Print Assumptions C82_positive_is_lognorm.
Theorem C82_otherwise_norm :
  forall ppf x y c lc rc, x <= 0 ->
  to ppf x y c lc rc = (do d <- norm ppf (Some x) (Some y) None None c lc rc; Ok (DNorm d)).
Proof. exact to_other. Qed.
Print Assumptions C82_otherwise_norm.
Theorem C82_result_kind :
  forall ppf x y c lc rc, x <= y ->
  (0 < x -> exists d, to ppf x y c lc rc = Ok (DLognorm d) /\ l_lclip d = lc /\ l_rclip d = rc) /\
  (x <= 0 -> exists d, to ppf x y c lc rc = Ok (DNorm d) /\ n_lclip d = lc /\ n_rclip d = rc).
Proof. exact to_result. Qed.
Print Assumptions C82_result_kind.
Theorem C82_reversed_interval :
  forall ppf x y c lc rc, y < x -> exists s, to ppf x y c lc rc = Err (ValueError s).
Proof. exact to_raises. Qed.
Print Assumptions C82_reversed_interval.

Example C82_sat : forall ppf, exists d, to ppf (-1) 1 90 None (Some 1) = Ok (DNorm d) /\ n_rclip d = Some 1.
Proof. intros. destruct (to_result ppf (-1) 1 90 None (Some 1)) as [_ H]; [lra|]. destruct (H ltac:(lra)) as (d & A & _ & B). eauto. Qed.
