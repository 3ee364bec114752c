(** C64-C66: the Kelly helpers. *)
From Coq Require Import Qabs Reals Qreals Lra.
From Verif Require Import Base M_Values M_Ops SpecRound M_Kelly SpecKelly P_Kelly P_KellyOpt.
Open Scope Q_scope.

(* ---------------------------------------------------------------- C64 *)
(** Exactly which calls return. *)
Theorem C64_accepts :
  forall power my m d b r c e,
  (exists k, kelly power my m d b r c e = Ok k) <->
  price m /\ price my /\ share d /\ (my < m -> e = false) /\ r <> BadDate /\ r <> InDays 0.
Proof. exact kelly_accepts. Qed.
Print Assumptions C64_accepts.
(** Which error comes out. *)
Theorem C64_rejects :
  forall power my m d b r c e,
  (~ price m -> kelly power my m d b r c e = Err (ValueError "market_price must be >0 and <1")) /\
  (price m -> ~ price my -> kelly power my m d b r c e = Err (ValueError "my_price must be >0 and <1")) /\
  (price m -> price my -> ~ share d -> kelly power my m d b r c e = Err (ValueError "deference must be >=0 and <=1")) /\
  (price m -> price my -> share d -> my < m ->
   kelly power my m d b r c true = Err (ValueError "Your odds are below the market price.")) /\
  (price m -> price my -> share d -> (my < m -> e = false) ->
   kelly power my m d b BadDate c e = Err (ValueError "time data does not match format") /\
   kelly power my m d b (InDays 0) c e = Err ZeroDivisionError).
Proof.
  intros power my m d b r c e. split; [apply kelly_market|]. split; [apply kelly_my|].
  split; [apply kelly_deference|]. split; [apply kelly_below|]. apply kelly_dates.
Qed.
Print Assumptions C64_rejects.
(** Every number reported is the rounding of its formula. *)
Theorem C64_values :
  forall power my m d b r c e k, kelly power my m d b r c e = Ok k ->
  let p := belief my m d in
  let f := Qabs (fraction p m) in
  rounds 2 my (k_my_price k) /\ rounds 2 m (k_market_price k) /\ rounds 3 d (k_deference k) /\
  rounds 2 p (k_adj_price k) /\ rounds 2 (Qabs (my - m)) (k_delta_price k) /\
  rounds 2 (Qabs (p - m)) (k_adj_delta_price k) /\ rounds 3 f (k_kelly k) /\
  rounds 2 (b * f) (k_target k) /\ rounds 2 c (k_current k) /\ rounds 2 (b * f - c) (k_delta k) /\
  rounds 2 (b * f * (1 / m - 1)) (k_max_gain k) /\ rounds 2 (b * f * (p / m - 1)) (k_modeled_gain k) /\
  rounds 3 (Qabs (p / m - 1)) (k_expected_roi k) /\ k_resolve_date k = r /\
  match r with InDays days => exists a, k_arr k = Some a /\ rounds 3 (power (expected_roi my m d + 1) days - 1) a
             | _ => k_arr k = None end.
Proof. exact kelly_values. Qed.
Print Assumptions C64_values.
(** The unrounded fraction, for a price not below the market's. *)
Theorem C64_fraction :
  forall my m d, price my -> price m -> share d -> m <= my ->
  kelly_fraction my m d == (1 - d) * fraction my m /\
  0 <= kelly_fraction my m d /\ kelly_fraction my m d < 1.
Proof. exact kelly_fraction_above. Qed.
Print Assumptions C64_fraction.
Theorem C64_full_deference :
  forall my m, price my -> price m -> kelly_fraction my m 1 == 0.
Proof.
  intros my m P M. rewrite fraction_value, fraction_linear by auto.
  setoid_replace ((1 - 1) * fraction my m) with 0 by ring. reflexivity.
Qed.
Print Assumptions C64_full_deference.
(** The named fractions of Kelly are that fraction of the full one; a "third" is
    0.3334. *)
Theorem C64_named_fractions :
  forall power my m b r c e,
  full_kelly power my m b r c e = kelly power my m 0 b r c e /\
  half_kelly power my m b r c e = kelly power my m (1#2) b r c e /\
  third_kelly power my m b r c e = kelly power my m (6666#10000) b r c e /\
  quarter_kelly power my m b r c e = kelly power my m (3#4) b r c e /\
  (price my -> price m -> m <= my ->
   kelly_fraction my m (1#2) == (1#2) * kelly_fraction my m 0 /\
   kelly_fraction my m (6666#10000) == (3334#10000) * kelly_fraction my m 0 /\
   kelly_fraction my m (3#4) == (1#4) * kelly_fraction my m 0).
Proof.
  intros. repeat match goal with |- _ /\ _ => split end; try reflexivity. intros P M L.
  assert (S : forall d, share d -> kelly_fraction my m d == (1 - d) * fraction my m)
    by (intros d D; apply (kelly_fraction_above my m d P M D L)).
  rewrite !S by (split; discriminate). repeat split; ring.
Qed.
Print Assumptions C64_named_fractions.
Example C64_sat : price (7#10) /\ price (4#10) /\ share (1#2) /\
  exists k, kelly (fun _ _ => 0) (7#10) (4#10) (1#2) 100 NoDate 0 true = Ok k /\
    k_kelly k == 25#100 /\ k_target k == 25 /\ k_max_gain k == 375#10 /\ k_modeled_gain k == 938#100.
Proof.
  split; [split; reflexivity|]. split; [split; reflexivity|]. split; [split; discriminate|].
  eexists. split; [vm_compute; reflexivity|]. repeat split; vm_compute; reflexivity.
Qed.

(* ---------------------------------------------------------------- C65 *)
(** Every other stake has strictly smaller expected log wealth. *)
Theorem C65_full_kelly_is_optimal :
  forall my m f, price my -> price m -> m <= my -> (0 <= f < 1)%R ->
  f <> Q2R (kelly_fraction my m 0) ->
  (log_growth (Q2R my) (Q2R m) f < log_growth (Q2R my) (Q2R m) (Q2R (kelly_fraction my m 0)))%R.
Proof. exact full_kelly_optimal. Qed.
Print Assumptions C65_full_kelly_is_optimal.
(** With deference, the stake is optimal for the deferred belief. *)
Theorem C65_deferred_kelly_is_optimal :
  forall my m d f, price my -> price m -> share d -> m <= my -> (0 <= f < 1)%R ->
  f <> Q2R (kelly_fraction my m d) ->
  (log_growth (Q2R (belief my m d)) (Q2R m) f <
   log_growth (Q2R (belief my m d)) (Q2R m) (Q2R (kelly_fraction my m d)))%R.
Proof. exact kelly_optimal. Qed.
Print Assumptions C65_deferred_kelly_is_optimal.
Example C65_sat : price (7#10) /\ price (4#10) /\ 4#10 <= 7#10 /\ (0 <= 1/4 < 1)%R /\
  (1/4)%R <> Q2R (kelly_fraction (7#10) (4#10) 0).
Proof.
  split; [split; reflexivity|]. split; [split; reflexivity|]. split; [discriminate|]. split; [lra|].
  assert (E : kelly_fraction (7#10) (4#10) 0 == 1#2) by (vm_compute; reflexivity).
  rewrite (Qeq_eqR _ _ E). unfold Q2R. simpl. lra.
Qed.

(* ---------------------------------------------------------------- C66 *)
(** Betting against a market at 0.9 with one's own price 0.01 stakes 8.9 times the
    bankroll, where the bet on the complement would stake less than all of it. *)
Theorem C66_symmetric_refuted :
  exists my m, price my /\ price m /\ my < m /\
  (forall power, exists k, kelly power my m 0 1 NoDate 0 false = Ok k /\ k_kelly k == 89#10 /\ k_target k == 89#10) /\
  (forall power, exists k, kelly power (1 - my) (1 - m) 0 1 NoDate 0 false = Ok k /\ k_kelly k == 989#1000).
Proof.
  exists (1#100), (9#10). split; [split; reflexivity|]. split; [split; reflexivity|]. split; [reflexivity|]. split.
  - intros power. eexists. split; [vm_compute; reflexivity|]. split; vm_compute; reflexivity.
  - intros power. eexists. split; [vm_compute; reflexivity|]. vm_compute; reflexivity.
Qed.
Print Assumptions C66_symmetric_refuted.
(** The claim holds only when the market is at 1/2. *)
Theorem C66_symmetric_only_at_half :
  forall my m d, price my -> price m -> share d -> my < m -> d < 1 ->
  (kelly_fraction my m d == kelly_fraction (1 - my) (1 - m) d <-> m == 1#2).
Proof. exact symmetric_only_at_half. Qed.
Print Assumptions C66_symmetric_only_at_half.
(** What is computed instead. *)
Theorem C66_against_the_market :
  forall my m d, price my -> price m -> share d -> my <= m ->
  kelly_fraction my m d == (1 - d) * ((m - my) / (1 - m)) /\
  kelly_fraction (1 - my) (1 - m) d == (1 - d) * ((m - my) / m).
Proof. intros. split; [now apply below_fraction|now apply complement_fraction]. Qed.
Print Assumptions C66_against_the_market.
Example C66_sat : price (1#4) /\ price (1#2) /\ share 0 /\ 1#4 < 1#2 /\ 0 < 1 /\
  kelly_fraction (1#4) (1#2) 0 == kelly_fraction (1 - (1#4)) (1 - (1#2)) 0.
Proof. repeat split; try reflexivity; discriminate. Qed.
