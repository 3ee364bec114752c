(** C58-C63, C67, C68: the formula helpers. *)
From Coq Require Import Reals Lra Lia ZArith.
From Verif Require Import Base M_Weights SpecWeights M_Formulas SpecFormulas
  P_Formulas P_Geomean P_GeomeanX P_Geomean2 P_GeomeanOdds P_Formulas2 P_Pooling.
Open Scope R_scope.

(* ---------------------------------------------------------------- C58 *)
(** For a number or a list of numbers in (0,1), with NA anywhere, converting to odds
    and back gives the same. *)
Theorem C58_odds_round_trip :
  forall a, Forall prob_or_na (renlist a) ->
  exists o, p_to_odds a = Ok o /\ odds_to_p o = Ok (rsimplify (renlist a)) /\ length (renlist o) = length (renlist a).
Proof. exact odds_round_trip. Qed.
Print Assumptions C58_odds_round_trip.
Theorem C58_prob_round_trip :
  forall a, Forall odds_or_na (renlist a) ->
  exists p, odds_to_p a = Ok p /\ p_to_odds p = Ok (rsimplify (renlist a)) /\ length (renlist p) = length (renlist a).
Proof. exact prob_round_trip. Qed.
Print Assumptions C58_prob_round_trip.
Theorem C58_values :
  forall p o, (0 < p < 1 -> p_to_odds (RScalar (RFin p)) = Ok (RScalar (RFin (p / (1 - p))))) /\
              (0 < o -> odds_to_p (RScalar (RFin o)) = Ok (RScalar (RFin (o / (1 + o)))) /\ 0 < o / (1 + o) < 1).
Proof.
  intros p o. split.
  - intros H. unfold p_to_odds. simpl. now destruct (odds_value p H) as [-> _].
  - intros H. unfold odds_to_p. simpl. destruct (prob_value o H) as [-> P]. now split.
Qed.
Print Assumptions C58_values.
Theorem C58_rejects :
  forall a,
  (p_to_odds a = Err (ValueError "p must be between 0 and 1") <-> exists v, In v (renlist a) /\ ~ prob_or_na v) /\
  (forall e, p_to_odds a = Err e -> e = ValueError "p must be between 0 and 1") /\
  (odds_to_p a = Err (ValueError "odds must be greater than 0") <->
   exists v, In v (renlist a) /\ ~ odds_or_na v /\ v <> RInf) /\
  (forall e, odds_to_p a = Err e -> e = ValueError "odds must be greater than 0").
Proof. intros a. destruct (p_to_odds_rejects a), (odds_to_p_rejects a). auto. Qed.
Print Assumptions C58_rejects.
Theorem C58_increasing :
  forall x y a b, x < y ->
  (p_to_odds (RScalar (RFin x)) = Ok (RScalar (RFin a)) -> p_to_odds (RScalar (RFin y)) = Ok (RScalar (RFin b)) -> a < b) /\
  (odds_to_p (RScalar (RFin x)) = Ok (RScalar (RFin a)) -> odds_to_p (RScalar (RFin y)) = Ok (RScalar (RFin b)) -> a < b).
Proof. exact conversions_increase. Qed.
Print Assumptions C58_increasing.
Example C58_sat : Forall prob_or_na (renlist (RSeq [RFin (1/2); RNone; RNan; RFin (1/4)])) /\
  Forall odds_or_na (renlist (RScalar (RFin 3))).
Proof. split; repeat constructor; simpl; auto; lra. Qed.

(* ---------------------------------------------------------------- C59 *)
(** Whatever the form of the values and weights: if geomean returns and all values
    are between lo > 0 and hi (dropped NA aside), so is the result. *)
Theorem C59_between :
  forall lo hi w rw v d g, 0 < lo -> usable lo hi d v -> geomean w rw v d = Ok g ->
  exists r, g = RFin r /\ lo <= r <= hi.
Proof. exact geomean_bounds. Qed.
Print Assumptions C59_between.
(** Scaling, for every argument whatever, errors included. *)
Theorem C59_scaling :
  forall k w rw v d, 0 < k -> geomean w rw (map_varg (times k) v) d = map_res (times k) (geomean w rw v d).
Proof. exact geomean_times. Qed.
Print Assumptions C59_scaling.
Theorem C59_unweighted :
  forall rs d, rs <> [] -> (forall r, In r rs -> 0 < r) ->
  exists g, geomean WNone WNone (VList (numbers rs)) d = Ok (RFin g) /\ 0 < g /\ g ^ length rs = product rs.
Proof. exact unweighted_formula. Qed.
Print Assumptions C59_unweighted.
Theorem C59_weighted :
  forall ws rs d, nonneg ws -> length ws = length rs -> (99#100 < total ws)%Q -> (total ws < 101#100)%Q ->
  (forall r, In r rs -> 0 < r) ->
  geomean (WList (map Num ws)) WNone (VList (numbers rs)) d = Ok (RFin (power_product (weight_total ws) ws rs)).
Proof. exact explicit_formula. Qed.
Print Assumptions C59_weighted.
Theorem C59_relative_weights :
  forall ws rs d, nonneg ws -> length ws = length rs -> (0 < total ws)%Q -> (forall r, In r rs -> 0 < r) ->
  geomean WNone (WList (map Num ws)) (VList (numbers rs)) d = Ok (RFin (power_product (weight_total ws) ws rs)).
Proof. exact relative_formula. Qed.
Print Assumptions C59_relative_weights.
Theorem C59_permutation :
  forall l l' d, Permutation.Permutation l l' -> nonneg (map fst l) -> (forall r, In r (map snd l) -> 0 < r) ->
  ((99#100 < total (map fst l))%Q -> (total (map fst l) < 101#100)%Q ->
   geomean (WList (map Num (map fst l))) WNone (VList (numbers (map snd l))) d =
   geomean (WList (map Num (map fst l'))) WNone (VList (numbers (map snd l'))) d) /\
  ((0 < total (map fst l))%Q ->
   geomean WNone (WList (map Num (map fst l))) (VList (numbers (map snd l))) d =
   geomean WNone (WList (map Num (map fst l'))) (VList (numbers (map snd l'))) d).
Proof. exact geomean_permutation. Qed.
Print Assumptions C59_permutation.
Theorem C59_ignores_na :
  forall l, (exists x, In x l /\ na_like x = false) ->
  geomean WNone WNone (VList (map GVal l)) true =
  geomean WNone WNone (VList (map GVal (filter (fun x => negb (na_like x)) l))) true.
Proof. exact geomean_ignores_na. Qed.
Print Assumptions C59_ignores_na.
(** Zeros, infinities, values without logarithm, NA kept and nothing kept. *)
Theorem C59_unusual_values :
  forall w rw v d ws xs, fst (pwv g_pair g_na w rw v d) = Ok (ws, map GVal xs) ->
  (xs = [] -> geomean w rw v d = Err ZeroDivisionError) /\
  (In RNone xs -> geomean w rw v d = Err TypeError) /\
  (~ In RNone xs -> (exists x, In x xs /\ no_log x) -> geomean w rw v d = Ok RNan) /\
  (~ In RNone xs -> In (RFin 0) xs -> In RInf xs -> geomean w rw v d = Ok RNan) /\
  (~ In RNone xs -> ~ (exists x, In x xs /\ no_log x) -> In (RFin 0) xs -> ~ In RInf xs -> geomean w rw v d = Ok (RFin 0)) /\
  (~ In RNone xs -> ~ (exists x, In x xs /\ no_log x) -> ~ In (RFin 0) xs -> In RInf xs -> geomean w rw v d = Ok RInf).
Proof. exact geomean_unusual. Qed.
Print Assumptions C59_unusual_values.
Example C59_unusual_sat :
  fst (pwv g_pair g_na WNone WNone (VList (map GVal [RInf; RFin 1])) false) = Ok ([1#2; 1#2], map GVal [RInf; RFin 1]) /\
  fst (pwv g_pair g_na WNone (WArray [Num 0; Num 0]) (VList (map GVal [RFin 2; RFin 1])) false) = Ok ([], []).
Proof. split; reflexivity. Qed.
Example C59_sat : nonneg [1#4; 3#4] /\ (99#100 < total [1#4; 3#4] < 101#100)%Q /\ usable 2 8 true (VList (numbers [2; 8])) /\
  exists g, geomean WNone WNone (VList (numbers [2; 8])) true = Ok (RFin g) /\ g ^ 2 = 16.
Proof.
  split; [repeat constructor; unfold Qle; simpl; lia|]. split; [split; reflexivity|]. split.
  - intros x H. inversion H; subst. inversion H0; subst. left. simpl in H1.
    destruct H1 as [<-|[<-|[]]]; simpl; eexists; split; try reflexivity; lra.
  - destruct (unweighted_formula [2; 8] true) as (g & E & _ & P); [discriminate|intros r [<-|[<-|[]]]; lra|].
    exists g. split; auto. simpl in *. lra.
Qed.

(* ---------------------------------------------------------------- C60 *)
Theorem C60_between :
  forall lo hi w rw v d a, 0 < lo -> hi < 1 -> usable lo hi d v -> geomean_odds w rw v d = Ok a ->
  exists p, a = RScalar (RFin p) /\ lo <= p <= hi.
Proof. exact geomean_odds_bounds. Qed.
Print Assumptions C60_between.
(** Complementing every probability complements the result, for every argument and
    every choice of weights, errors included. *)
Theorem C60_complement :
  forall w rw v d, geomean_odds w rw (map_varg complement v) d = map_res complement_arg (geomean_odds w rw v d).
Proof. exact geomean_odds_complement. Qed.
Print Assumptions C60_complement.
Theorem C60_unweighted :
  forall rs d, (2 <= length rs)%nat -> (forall r, In r rs -> 0 < r < 1) ->
  exists p, geomean_odds WNone WNone (VList (numbers rs)) d = Ok (RScalar (RFin p)) /\ 0 < p < 1 /\
    (p / (1 - p)) ^ length rs = product (map (fun q => q / (1 - q)) rs).
Proof. exact geomean_odds_unweighted. Qed.
Print Assumptions C60_unweighted.
Theorem C60_weighted :
  forall ws rs d, (2 <= length rs)%nat -> (forall r, In r rs -> 0 < r < 1) ->
  Forall (fun w => (0 < w)%Q) ws -> length ws = length rs -> (99#100 < total ws)%Q -> (total ws < 101#100)%Q ->
  exists p, geomean_odds (WList (map Num ws)) WNone (VList (numbers rs)) d = Ok (RScalar (RFin p)) /\ 0 < p < 1 /\
    p / (1 - p) = power_product (weight_total ws) ws (map (fun q => q / (1 - q)) rs).
Proof. exact geomean_odds_weighted. Qed.
Print Assumptions C60_weighted.
Example C60_sat : exists p, geomean_odds WNone WNone (VList (numbers [1/2; 1/2])) true = Ok (RScalar (RFin p)) /\ p = 1/2.
Proof.
  destruct (geomean_odds_unweighted [1/2; 1/2] true) as (p & E & P & F); [simpl; lia|intros r [<-|[<-|[]]]; lra|].
  exists p. split; auto. simpl in F. assert (0 < p / (1 - p)) by (apply Rdiv_lt_0_compat; lra).
  replace (1 / 2 / (1 - 1 / 2) * (1 / 2 / (1 - 1 / 2) * 1)) with 1 in F by field.
  assert (O : p / (1 - p) = 1) by nra. apply (f_equal (fun x => x * (1 - p))) in O.
  unfold Rdiv in O. rewrite Rmult_assoc, Rinv_l in O by lra. lra.
Qed.

(* ---------------------------------------------------------------- C61 *)
(** One probability is always an error, although geomean of one number works. *)
Theorem C61_single_probability_refuted :
  exists p, 0 < p < 1 /\
  (forall d, geomean_odds WNone WNone (VList (numbers [p])) d = Err (ValueError "passed values must be an iterable")) /\
  (forall d, exists g, geomean WNone WNone (VList (numbers [p])) d = Ok (RFin g)).
Proof.
  exists (1/2). split; [lra|]. split.
  - intros d. eapply geomean_odds_single.
    + apply (unweighted_pwv [1/2] d). discriminate.
    + eexists. split; [reflexivity|lra].
  - intros d. destruct (unweighted_formula [1/2] d) as (g & E & _); [discriminate|intros r [<-|[]]; lra|]. eauto.
Qed.
Print Assumptions C61_single_probability_refuted.
(** It fails for every probability and every way of giving it. *)
Theorem C61_every_single_probability_fails :
  forall w rw v d ws i, fst (pwv g_pair g_na w rw v d) = Ok (ws, [i]) ->
  (exists p, i = GVal (RFin p) /\ 0 < p < 1) -> geomean_odds w rw v d = Err (ValueError "passed values must be an iterable").
Proof. exact geomean_odds_single. Qed.
Print Assumptions C61_every_single_probability_fails.
Example C61_sat : fst (pwv g_pair g_na WNone WNone (VList (numbers [1/3])) true) = Ok ([1#1], numbers [1/3]).
Proof. reflexivity. Qed.

(* ---------------------------------------------------------------- C62 *)
Theorem C62_trials :
  forall s n fixed, (s <= n)%Z -> (0 <= s)%Z ->
  laplace s (Some n) None None fixed = Ok (IZR (s + 1) / IZR (n + 2)) /\ 0 < IZR (s + 1) / IZR (n + 2) < 1.
Proof. exact laplace_trials. Qed.
Print Assumptions C62_trials.
Theorem C62_trials_increasing :
  forall s s' n fixed p q, (0 <= s < s')%Z -> laplace s (Some n) None None fixed = Ok p -> laplace s' (Some n) None None fixed = Ok q -> p < q.
Proof. exact laplace_trials_order. Qed.
Print Assumptions C62_trials_increasing.
Theorem C62_too_many_successes :
  forall s n tp tr fixed, (n < s)%Z ->
  laplace s (Some n) tp tr fixed = Err (ValueError "`s` cannot be greater than `n`").
Proof. exact laplace_too_many. Qed.
Print Assumptions C62_too_many_successes.
Theorem C62_times :
  forall s n t rem fixed, (0 <= s)%Z -> (forall m, n = Some m -> (s <= m)%Z) -> 0 < t ->
  (forall r, rem = Some r -> 0 < r) ->
  let r := match rem with Some x => x | None => 1 end in
  laplace s n (Some t) rem fixed = Ok (1 - / (1 + r / t) ^ Z.to_nat (laplace_power s fixed)).
Proof. exact laplace_timed. Qed.
Print Assumptions C62_times.
(** The probability is proper, rises with the time remaining and with the exponent, and falls
    with the time passed. *)
Theorem C62_times_shape :
  forall s n fixed t r p, (0 <= s)%Z -> 0 < t -> 0 < r -> laplace s n (Some t) (Some r) fixed = Ok p ->
  0 < p < 1 /\
  (forall r' q, r < r' -> laplace s n (Some t) (Some r') fixed = Ok q -> p < q) /\
  (forall t' q, t < t' -> laplace s n (Some t') (Some r) fixed = Ok q -> q < p) /\
  (forall s' q, (laplace_power s fixed < laplace_power s' fixed)%Z -> laplace s' n (Some t) (Some r) fixed = Ok q -> p < q).
Proof. exact laplace_times_order. Qed.
Print Assumptions C62_times_shape.
(** With positive times and nonnegative successes the only failures are these. *)
Theorem C62_failures :
  forall s n tp tr fixed e, laplace s n tp tr fixed = Err e ->
  (forall t, tp = Some t -> 0 < t) -> (forall r, tr = Some r -> 0 < r) -> (0 <= s)%Z ->
  (e = ValueError "`s` cannot be greater than `n`" /\ exists m, n = Some m /\ (m < s)%Z) \/
  (tp = None /\ n = None /\ e = ValueError "Must define `time_passed` or `n`") \/
  (tp = None /\ n <> None /\ tr <> None /\ e = ValueError "Must define `time_passed`").
Proof. exact laplace_failures. Qed.
Print Assumptions C62_failures.
Theorem C62_negative_successes :
  forall s n t tr fixed, (s < 0)%Z -> (forall m, n = Some m -> (s <= m)%Z) ->
  laplace s n (Some t) tr fixed = Err (ValueError "Fatal logic error").
Proof. exact laplace_negative. Qed.
Print Assumptions C62_negative_successes.
(** No time passed, or minus that time remaining, divides by zero. *)
Theorem C62_division_by_zero :
  forall s n t rem fixed, (0 <= s)%Z -> (forall m, n = Some m -> (s <= m)%Z) ->
  t = 0 \/ rem = Some (- t) ->
  laplace s n (Some t) rem fixed = Err ZeroDivisionError.
Proof. exact laplace_no_division. Qed.
Print Assumptions C62_division_by_zero.
Example C62_sat : laplace 0 (Some 1%Z) None None false = Ok (1 / 3) /\
  laplace 0 None (Some 2) (Some 2) false = Ok (1 - / (1 + 2 / 2) ^ 1) /\
  laplace 0 None None (Some 2) false = Err (ValueError "Must define `time_passed` or `n`").
Proof.
  split; [exact (proj1 (laplace_trials 0 1 false ltac:(lia) ltac:(lia)))|]. split; [|reflexivity].
  apply (laplace_timed 0 None 2 (Some 2) false); [lia|discriminate|lra|]. intros r E. inversion E. lra.
Qed.

(* ---------------------------------------------------------------- C63 *)
Theorem C63_doubling_time :
  forall g, 0 < g -> growth_rate_to_doubling_time g = Ok (ln 2 / ln (1 + g)) /\
  0 < ln 2 / ln (1 + g) /\ Rpower (1 + g) (ln 2 / ln (1 + g)) = 2.
Proof. exact doubling_value. Qed.
Print Assumptions C63_doubling_time.
Theorem C63_growth_rate :
  forall t, 0 < t -> doubling_time_to_growth_rate t = Ok (exp (ln 2 / t) - 1) /\
  0 < exp (ln 2 / t) - 1 /\ Rpower (1 + (exp (ln 2 / t) - 1)) t = 2.
Proof. exact growth_value. Qed.
Print Assumptions C63_growth_rate.
Theorem C63_inverse :
  (forall g, 0 < g -> bind (growth_rate_to_doubling_time g) doubling_time_to_growth_rate = Ok g) /\
  (forall t, 0 < t -> bind (doubling_time_to_growth_rate t) growth_rate_to_doubling_time = Ok t).
Proof. exact (conj growth_round_trip doubling_round_trip). Qed.
Print Assumptions C63_inverse.
(** Arrays element by element: the number a single value would give, and infinity, 0 or nan
    where a single value raises. *)
Theorem C63_arrays :
  (forall l, Forall2 (fun g v =>
     match growth_rate_to_doubling_time g with
     | Ok d => v = RFin d
     | Err ZeroDivisionError => g = 0 /\ v = RInf
     | Err _ => g = -1 /\ v = RFin 0 \/ g < -1 /\ v = RNan
     end) l (growth_rates_to_doubling_times l)) /\
  (forall l, Forall2 (fun t v =>
     match doubling_time_to_growth_rate t with Ok g => v = RFin g | Err _ => t = 0 /\ v = RInf end)
     l (doubling_times_to_growth_rates l)).
Proof. exact (conj growth_arrays doubling_arrays). Qed.
Print Assumptions C63_arrays.
Theorem C63_outside :
  (forall g, g <= -1 -> growth_rate_to_doubling_time g = Err (ValueError "math domain error")) /\
  growth_rate_to_doubling_time 0 = Err ZeroDivisionError /\
  (forall g, -1 < g < 0 -> exists d, growth_rate_to_doubling_time g = Ok d /\ d < 0) /\
  doubling_time_to_growth_rate 0 = Err ZeroDivisionError /\
  (forall t, t < 0 -> exists g, doubling_time_to_growth_rate t = Ok g /\ -1 < g < 0).
Proof. exact growth_outside. Qed.
Print Assumptions C63_outside.
Example C63_sat : doubling_time_to_growth_rate 1 = Ok (exp (ln 2 / 1) - 1) /\ exp (ln 2 / 1) - 1 = 1 /\
  growth_rate_to_doubling_time 0 = Err ZeroDivisionError.
Proof.
  split; [exact (proj1 (growth_value 1 ltac:(lra)))|]. split.
  - unfold Rdiv. rewrite Rinv_1, Rmult_1_r, exp_ln by lra. ring.
  - unfold growth_rate_to_doubling_time. rewrite Rplus_0_r, ln_1. rcases; try lra; auto.
Qed.

(* ---------------------------------------------------------------- C67 *)
Theorem C67_range : forall p e r, 0 < e -> extremize p e = Ok r -> 0 < r < 1.
Proof. exact extremize_range. Qed.
Print Assumptions C67_range.
Theorem C67_value :
  forall p e, 0 < p < 1 -> extremize p e = Ok (if Rlt_dec (1 / 2) p then 1 - Rpower (1 - p) e else Rpower p e).
Proof. exact extremize_value. Qed.
Print Assumptions C67_value.
Theorem C67_identity : forall p, 0 < p < 1 -> extremize p 1 = Ok p.
Proof. exact extremize_one. Qed.
Print Assumptions C67_identity.
Theorem C67_direction :
  forall p e r, 1 <= e -> extremize p e = Ok r -> (1 / 2 < p -> p <= r) /\ (p <= 1 / 2 -> r <= p).
Proof. exact extremize_direction. Qed.
Print Assumptions C67_direction.
Theorem C67_symmetric :
  forall p e, 0 < p < 1 -> p <> 1 / 2 -> extremize (1 - p) e = map_res (fun r => 1 - r) (extremize p e).
Proof. exact extremize_symmetric. Qed.
Print Assumptions C67_symmetric.
(** Increasing on each side, and across 1/2 when e >= 1. *)
Theorem C67_increasing :
  forall p q e a b, 0 < e -> p < q -> extremize p e = Ok a -> extremize q e = Ok b ->
  (q <= 1 / 2 \/ 1 / 2 < p \/ 1 <= e) -> a < b.
Proof. exact extremize_increasing. Qed.
Print Assumptions C67_increasing.
Theorem C67_accepts : forall p e, (exists r, extremize p e = Ok r) <-> 0 < p < 1.
Proof. exact extremize_rejects. Qed.
Print Assumptions C67_accepts.
(** Extremizing twice is extremizing by the product. *)
Theorem C67_twice : forall p a b r, 1 <= a -> extremize p a = Ok r -> extremize r b = extremize p (a * b).
Proof. exact extremize_twice. Qed.
Print Assumptions C67_twice.
Example C67_sat : extremize (3/4) 1 = Ok (3/4) /\ extremize 1 2 = Err (ValueError "`p` must be greater than 0 and less than 1").
Proof. split; [apply extremize_one; lra|]. unfold extremize. rcases; try lra; auto. Qed.

(* ---------------------------------------------------------------- C68 *)
Theorem C68_formula :
  forall l r, l <> [] -> np_std l <> 0 -> sharpe_ratio l r = RFin ((np_mean l - r) / np_std l).
Proof. exact sharpe_formula. Qed.
Print Assumptions C68_formula.
Theorem C68_shift : forall c l r, sharpe_ratio (map (fun x => x + c) l) (r + c) = sharpe_ratio l r.
Proof. exact sharpe_shift. Qed.
Print Assumptions C68_shift.
Theorem C68_scale : forall k l r, 0 < k -> sharpe_ratio (map (fun x => k * x) l) (k * r) = sharpe_ratio l r.
Proof. exact sharpe_scale. Qed.
Print Assumptions C68_scale.
Theorem C68_negate : forall l r, sharpe_ratio (map (fun x => - x) l) (- r) = opposite (sharpe_ratio l r).
Proof. exact sharpe_negate. Qed.
Print Assumptions C68_negate.
Example C68_sat : sharpe_ratio [1; 3] 0 = RFin 2.
Proof.
  assert (S : np_std [1; 3] = 1).
  { unfold np_std, np_mean. simpl. transitivity (sqrt 1); [f_equal; unfold Rsqr; field|apply sqrt_1]. }
  rewrite sharpe_formula; [|discriminate|rewrite S; lra]. rewrite S. unfold np_mean. simpl. f_equal. field.
Qed.
