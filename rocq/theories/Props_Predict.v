(** C171, C172: Laplace's rules as predictions, and pooled probabilities. *)
From Coq Require Import Reals Lra Lia Qreals.
From Verif Require Import Base M_Weights M_Dists M_Formulas M_Bayesnet SpecFormulas SpecNormal SpecMoments SpecPredict P_Formulas P_Formulas2 P_Moments P_Predict P_Pooling.
Open Scope R_scope.

(* ---------------------------------------------------------------- C171 *)
(** With trials: the average of the probability of success, all probabilities having been
    equally likely before the trials. *)
Theorem C171_trials : forall s n fixed, (0 <= s <= n)%Z ->
  exists p, laplace s (Some n) None None fixed = Ok p /\
  forall m, averaged (area_within 0 1) (trials s n) (fun x => x) m <-> m = p.
Proof. exact trials_predict. Qed.
Print Assumptions C171_trials.
(** With times: the average probability of an event in the remaining time, the rate having
    had the prior of [rate_prior]. *)
Theorem C171_times : forall s n t rem fixed, (0 <= s)%Z -> (forall m, n = Some m -> (s <= m)%Z) -> 0 < t -> (forall r, rem = Some r -> 0 < r) ->
  exists p, laplace s n (Some t) rem fixed = Ok p /\
  forall m, averaged area_right (fun x => rate_prior s fixed x * events s t x) (some_event (match rem with Some x => x | None => 1 end)) m <-> m = p.
Proof. exact times_predict_iff. Qed.
Print Assumptions C171_times.
(** Waiting in two steps is waiting for their sum. *)
Theorem C171_steps : forall s n t r1 r2 fixed p p1 p2, (0 <= s)%Z -> (forall m, n = Some m -> (s <= m)%Z) -> 0 < t -> 0 < r1 -> 0 < r2 ->
  laplace s n (Some t) (Some (r1 + r2)) fixed = Ok p -> laplace s n (Some t) (Some r1) fixed = Ok p1 ->
  laplace s n (Some (t + r1)) (Some r2) fixed = Ok p2 -> 1 - p = (1 - p1) * (1 - p2).
Proof. exact times_steps. Qed.
Print Assumptions C171_steps.
(** The unit of time does not matter. *)
Theorem C171_units : forall s n t r c fixed, (0 <= s)%Z -> (forall m, n = Some m -> (s <= m)%Z) -> 0 < t -> 0 < r -> 0 < c ->
  laplace s n (Some (c * t)) (Some (c * r)) fixed = laplace s n (Some t) (Some r) fixed.
Proof. exact times_units. Qed.
Print Assumptions C171_units.
(** Success then failure is as likely as failure then success. *)
Theorem C171_order : forall s n fixed p q r, (0 <= s <= n)%Z ->
  laplace s (Some n) None None fixed = Ok p -> laplace (s + 1) (Some (n + 1)%Z) None None fixed = Ok q ->
  laplace s (Some (n + 1)%Z) None None fixed = Ok r -> p * (1 - q) = (1 - p) * r.
Proof. exact trials_order. Qed.
Print Assumptions C171_order.
Example C171_sat : laplace 1 (Some 3%Z) None None false = Ok (2 / 5) /\ averaged (area_within 0 1) (trials 1 3) (fun x => x) (2 / 5) /\
  laplace 1 None (Some 2) (Some 2) false = Ok (1 - / (1 + 2 / 2) ^ 1) /\
  averaged area_right (fun x => rate_prior 1 false x * events 1 2 x) (some_event 2) (1 - / (1 + 2 / 2) ^ 1).
Proof.
  assert (E : laplace 1 (Some 3%Z) None None false = Ok (2 / 5)) by exact (proj1 (laplace_trials 1 3 false ltac:(lia) ltac:(lia))).
  assert (T : laplace 1 None (Some 2) (Some 2) false = Ok (1 - / (1 + 2 / 2) ^ 1)).
  { rewrite laplace_timed; [reflexivity|lia|discriminate|lra|intros r R; inversion R; lra]. }
  destruct (C171_trials 1 3 false ltac:(lia)) as (p & Ep & Hp). rewrite E in Ep. inversion Ep; subst p.
  destruct (C171_times 1 None 2 (Some 2) false ltac:(lia) ltac:(discriminate) ltac:(lra)) as (q & Eq & Hq); [intros r R; inversion R; lra|].
  rewrite T in Eq. inversion Eq; subst q. split; auto. split; [now apply Hp|]. split; auto. now apply Hq.
Qed.

(* ---------------------------------------------------------------- C172 *)
(** Revising every probability by the same evidence and pooling gives what pooling and then
    revising gives, for every argument, errors included. *)
Theorem C172_pooling : forall k w rw v d, 0 < k ->
  geomean_odds w rw (map_varg (revise k) v) d = map_res (revise_arg k) (geomean_odds w rw v d).
Proof. exact pooled_revised. Qed.
Print Assumptions C172_pooling.
(** Revising is what [simple_bayes] does. *)
Theorem C172_bayes : forall lh lnh p, (0 < lh)%Q -> (0 < lnh)%Q -> (0 < p)%Q -> (p < 1)%Q ->
  exists q, simple_bayes lh lnh p = Ok q /\ revise (Q2R lh / Q2R lnh) (RFin (Q2R p)) = RFin (Q2R q).
Proof. exact bayes_revises. Qed.
Print Assumptions C172_bayes.
(** So forecasters may revise before or after they are pooled. *)
Theorem C172_forecasters : forall lh lnh ps qs w rw d, (0 < lh)%Q -> (0 < lnh)%Q ->
  Forall2 (fun p q => (0 < p)%Q /\ (p < 1)%Q /\ simple_bayes lh lnh p = Ok q) ps qs ->
  geomean_odds w rw (VList (numbers (map Q2R qs))) d =
  map_res (revise_arg (Q2R lh / Q2R lnh)) (geomean_odds w rw (VList (numbers (map Q2R ps))) d).
Proof. exact forecasters. Qed.
Print Assumptions C172_forecasters.
Example C172_sat : revise 2 (RFin (1/2)) = RFin (2 / 3) /\ Forall2 (fun p q => (0 < p)%Q /\ (p < 1)%Q /\ simple_bayes (2#1) (1#1) p = Ok q) [(1#2)%Q] [(8#12)%Q] /\
  exists p, geomean_odds WNone WNone (VList (numbers [1/2; 1/2])) true = Ok (RScalar (RFin p)).
Proof.
  split; [rewrite revise_prob by lra; f_equal; field|]. split; [constructor; [repeat split; reflexivity|constructor]|].
  destruct (P_GeomeanOdds.geomean_odds_unweighted [1/2; 1/2] true) as (p & E & _); [cbn; lia|intros r [<-|[<-|[]]]; lra|]. eauto.
Qed.
