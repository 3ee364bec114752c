(** C188: constructors and updates follow a change of units. *)
From Coq Require Import Reals Lra.
From Verif Require Import Base M_Dists SpecDists P_Dists P_DistsSat P_NewUnits.
Open Scope R_scope.

(** C188.  A normal interval in other units: *)
Theorem C188_norm : forall ppf x y c lc rc lc' rc' a b m s, 0 < a ->
  norm ppf (Some x) (Some y) None None c lc rc = Ok (mkNormal (Some m) (Some s) lc rc) ->
  norm ppf (Some (a * x + b)) (Some (a * y + b)) None None c lc' rc' = Ok (mkNormal (Some (a * m + b)) (Some (a * s)) lc' rc').
Proof. exact norm_units. Qed.
Print Assumptions C188_norm.
Theorem C188_norm_mirrored : forall ppf x y c lc rc lc' rc' m s,
  norm ppf (Some x) (Some y) None None c lc rc = Ok (mkNormal (Some m) (Some s) lc rc) ->
  norm ppf (Some (- y)) (Some (- x)) None None c lc' rc' = Ok (mkNormal (Some (- m)) (Some s) lc' rc').
Proof. exact norm_mirror. Qed.
Print Assumptions C188_norm_mirrored.
(** lognormal intervals in other units, and of powers; *)
Theorem C188_lognorm : forall ppf x y c lc rc lc' rc' k m s M S, 0 < k ->
  lognorm ppf (Some x) (Some y) None None None None c lc rc = Ok (mkLognormal (Some m) (Some s) (Some M) (Some S) lc rc) ->
  lognorm ppf (Some (k * x)) (Some (k * y)) None None None None c lc' rc' =
  Ok (mkLognormal (Some (m + ln k)) (Some s) (Some (k * M)) (Some (k * S)) lc' rc').
Proof. exact lognorm_units. Qed.
Print Assumptions C188_lognorm.
Theorem C188_lognorm_powers : forall ppf x y c lc rc lc' rc' a d, 0 < a ->
  lognorm ppf (Some x) (Some y) None None None None c lc rc = Ok d ->
  exists m s d', l_mean d = Some m /\ l_sd d = Some s /\
    lognorm ppf (Some (Rpower x a)) (Some (Rpower y a)) None None None None c lc' rc' = Ok d' /\ l_mean d' = Some (a * m) /\ l_sd d' = Some (a * s).
Proof. exact lognorm_power. Qed.
Print Assumptions C188_lognorm_powers.
(** they are the normal interval of the logarithms, and inverse lognormals the lognormal
    interval of the reciprocals; *)
Theorem C188_lognorm_logs : forall ppf x y c lc rc d, lognorm ppf (Some x) (Some y) None None None None c lc rc = Ok d ->
  norm ppf (Some (ln x)) (Some (ln y)) None None c lc rc = Ok (mkNormal (l_mean d) (l_sd d) lc rc).
Proof. exact lognorm_logs. Qed.
Print Assumptions C188_lognorm_logs.
Theorem C188_inverse_reciprocal : forall ppf x y c lc rc d, invlognorm ppf (Some x) (Some y) None None None None c lc rc = Ok d ->
  exists d', lognorm ppf (Some (1 / y)) (Some (1 / x)) None None None None c lc rc = Ok d' /\ l_mean d' = l_mean d /\ l_sd d' = l_sd d.
Proof. exact invlognorm_reciprocal. Qed.
Print Assumptions C188_inverse_reciprocal.
(** [to] keeps its choice in other units. *)
Theorem C188_to : forall ppf x y c lc rc lc' rc' k d, 0 < k -> to ppf x y c lc rc = Ok d ->
  exists d', to ppf (k * x) (k * y) c lc' rc' = Ok d' /\
    ((exists m s, normal_of d m s /\ normal_of d' (k * m) (k * s)) \/ (exists m s, lognormal_of d m s /\ lognormal_of d' (m + ln k) s)).
Proof. exact to_units. Qed.
Print Assumptions C188_to.
(** Wider intervals have larger sds, more credible ones smaller sds, and reading a credible
    interval of any credibility off the result leads back to it. *)
Theorem C188_wider : forall Phi ppf c x y x' y' lc rc lc' rc' m s m' s', normal_quantile Phi ppf -> 0 < c -> c < 100 -> x' <= x -> y <= y' ->
  norm ppf (Some x) (Some y) None None c lc rc = Ok (mkNormal (Some m) (Some s) lc rc) ->
  norm ppf (Some x') (Some y') None None c lc' rc' = Ok (mkNormal (Some m') (Some s') lc' rc') -> s <= s'.
Proof. exact norm_wider. Qed.
Print Assumptions C188_wider.
Theorem C188_more_credible : forall Phi ppf c c' x y lc rc lc' rc' m s m' s', normal_quantile Phi ppf -> 0 < c -> c < c' -> c' < 100 -> x < y ->
  norm ppf (Some x) (Some y) None None c lc rc = Ok (mkNormal (Some m) (Some s) lc rc) ->
  norm ppf (Some x) (Some y) None None c' lc' rc' = Ok (mkNormal (Some m') (Some s') lc' rc') -> m' = m /\ s' < s.
Proof. exact norm_surer. Qed.
Print Assumptions C188_more_credible.
Theorem C188_read_back : forall Phi ppf c c' x y lc rc lc' rc' m s, normal_quantile Phi ppf -> 0 < c -> c < 100 -> 0 < c' -> c' < 100 ->
  norm ppf (Some x) (Some y) None None c lc rc = Ok (mkNormal (Some m) (Some s) lc rc) ->
  norm ppf (Some (m - ppf (cdf_value c') * s)) (Some (m + ppf (cdf_value c') * s)) None None c' lc' rc' =
  Ok (mkNormal (Some m) (Some s) lc' rc').
Proof. exact norm_reread. Qed.
Print Assumptions C188_read_back.
(** Updates in other units. *)
Theorem C188_update_norm : forall ppf a b pm ps em es w m s, 0 < a ->
  let n m s := DNorm (mkNormal (Some m) (Some s) None None) in
  update ppf (n pm ps) (n em es) w = Ok (n m s) ->
  update ppf (n (a * pm + b) (a * ps)) (n (a * em + b) (a * es)) w = Ok (n (a * m + b) (a * s)).
Proof. exact update_norm_units. Qed.
Print Assumptions C188_update_norm.
Theorem C188_update_lognorm : forall ppf k p e p' e' w pm ps em es r m s,
  lognormal_of p pm ps -> lognormal_of e em es -> lognormal_of p' (pm + ln k) ps -> lognormal_of e' (em + ln k) es ->
  update ppf p e w = Ok r -> lognormal_of r m s ->
  exists r', update ppf p' e' w = Ok r' /\ lognormal_of r' (m + ln k) s.
Proof. exact update_lognorm_units. Qed.
Print Assumptions C188_update_lognorm.
Theorem C188_update_gamma : forall ppf k psh psc esh esc w sh sc lc rc lc' rc', 0 < k ->
  update ppf (DGamma psh psc lc rc) (DGamma esh esc lc' rc') w = Ok (DGamma sh sc None None) ->
  update ppf (DGamma psh (k * psc) lc rc) (DGamma esh (k * esc) lc' rc') w = Ok (DGamma sh (k * sc) None None).
Proof. exact update_gamma_units. Qed.
Print Assumptions C188_update_gamma.
Theorem C188_update_beta : forall ppf a b a' b' w A B, update ppf (DBeta a b) (DBeta a' b') w = Ok (DBeta A B) ->
  update ppf (DBeta b a) (DBeta b' a') w = Ok (DBeta B A).
Proof. exact update_beta_swap. Qed.
Print Assumptions C188_update_beta.

Example C188_sat :
  (exists Phi ppf, normal_quantile Phi ppf) /\
  norm (fun _ => 2) (Some 1) (Some 5) None None 90 None None = Ok (mkNormal (Some 3) (Some 1) None None) /\
  norm (fun _ => 2) (Some (10 * 1 + 7)) (Some (10 * 5 + 7)) None None 90 None None = Ok (mkNormal (Some 37) (Some 10) None None) /\
  (exists d, lognorm (fun _ => 2) (Some 1) (Some 5) None None None None 90 None None = Ok d) /\
  (exists d, invlognorm (fun _ => 2) (Some 1) (Some 5) None None None None 90 None None = Ok d) /\
  (exists m s, update (fun _ => 2) (DNorm (mkNormal (Some 0) (Some 1) None None)) (DNorm (mkNormal (Some 4) (Some 1) None None)) 1
     = Ok (DNorm (mkNormal (Some m) (Some s) None None)) /\ m = 2).
Proof.
  split; [exact quantile_exists|].
  split; [apply norm_runs; split; [lra|]; f_equal; f_equal; lra|].
  split; [apply norm_runs; split; [lra|]; f_equal; f_equal; lra|].
  split; [eexists; apply lognorm_runs; lra|]. split; [eexists; apply invlognorm_runs; lra|].
  unfold update. cbn [n_sd n_mean need bind]. unfold combine, Rsqr. destruct (Req_EM_T (1 * (1 * 1) + 1 * 1) 0) as [E|_]; [lra|].
  destruct (Rlt_dec (1 * 1 * (1 * 1) / (1 * (1 * 1) + 1 * 1)) 0) as [E|_]; [lra|]. cbn [bind fst snd]. rewrite norm_mean_sd. cbn [bind].
  do 2 eexists. split; [reflexivity|]. lra.
Qed.
