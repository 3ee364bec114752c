(** C130-C134: probabilities, odds, Laplace's rule, events and percentages in double precision. *)
From Coq Require Import Qabs Qround.
From Verif Require Import Base M_Bayesnet M_Float M_Double M_DoubleProb SpecFloat SpecDouble SpecWeights SpecShare P_DoubleProb P_ShareRun P_PctTotal.
Open Scope Q_scope.

(** C130.  Bayes' rule in doubles gives a probability ... *)
Theorem C130_probability :
  forall lh lnh p, 0 <= lh -> 0 <= lnh -> 0 <= p -> p <= 1 -> forall r, fl_simple_bayes lh lnh p = Ok r -> 0 <= r <= 1.
Proof. exact bayes_unit. Qed.
Print Assumptions C130_probability.
(** ... fails exactly when the exact evidence is zero ... *)
Theorem C130_fails_iff :
  forall lh lnh p, 0 <= lh -> 0 <= lnh -> 0 <= p -> p <= 1 ->
  ((exists e, fl_simple_bayes lh lnh p = Err e) <-> lh * p + lnh * (1 - p) == 0) /\
  (lh * p + lnh * (1 - p) == 0 -> fl_simple_bayes lh lnh p = Err ZeroDivisionError).
Proof.
  intros lh lnh p A B C D. pose proof (bayes_defined lh lnh p A B C D) as H. split; [exact H|].
  intros Z. apply H in Z as (e & E). rewrite E. now apply bayes_error in E as ->.
Qed.
Print Assumptions C130_fails_iff.
(** ... and otherwise is within a relative 6 * 2^-53 of the exact posterior. *)
Theorem C130_close :
  forall lh lnh p, 0 <= lh -> 0 <= lnh -> 0 <= p -> p <= 1 -> forall r, fl_simple_bayes lh lnh p = Ok r ->
  exists x, simple_bayes lh lnh p = Ok x /\ Qabs (r - x) <= 6 * double_u * x.
Proof. exact bayes_close. Qed.
Print Assumptions C130_close.
Example C130_sat : exists r, fl_simple_bayes (rnd (8 # 10)) (rnd (96 # 1000)) (rnd (1 # 100)) = Ok r /\
  (776 # 10000) < r /\ r < (777 # 10000) /\ exists e, fl_simple_bayes 0 0 (1 # 2) = Err e.
Proof. eexists. split; [vm_compute; reflexivity|]. split; [reflexivity|]. split; [reflexivity|]. eexists. vm_compute. reflexivity. Qed.

(** C131.  A probability strictly between 0 and 1 has positive odds ... *)
Theorem C131_odds_positive :
  forall p, 0 < p -> p < 1 -> exists o, fl_p_to_odds p = Ok o /\ 0 < o /\ o == rnd (p / rnd (1 - p)).
Proof. exact odds_defined. Qed.
Print Assumptions C131_odds_positive.
(** ... positive odds have a probability in (0, 1] ... *)
Theorem C131_probability_partial :
  forall o, is_double o -> 0 < o ->
  exists p, fl_odds_to_p o = Ok p /\ 0 < p /\ p <= 1 /\ p == rnd (o / rnd (1 + o)).
Proof. exact prob_defined. Qed.
Print Assumptions C131_probability_partial.
(** ... and going to odds and back never fails and loses at most a relative 5 * 2^-53. *)
Theorem C131_there_and_back :
  forall p, 0 < p -> p < 1 ->
  exists o r, fl_p_to_odds p = Ok o /\ fl_odds_to_p o = Ok r /\ Qabs (r - p) <= 5 * double_u * p.
Proof. exact odds_round_trip. Qed.
Print Assumptions C131_there_and_back.
(** The other way round fails: large odds become probability 1, whose odds are refused. *)
Theorem C131_back_and_there_refuted :
  exists o, is_double o /\ 0 < o /\ fl_odds_to_p o = Ok 1 /\ exists m, fl_p_to_odds 1 = Err (ValueError m).
Proof. exact big_odds. Qed.
Print Assumptions C131_back_and_there_refuted.
Example C131_sat : fl_p_to_odds (3 # 4) = Ok 3 /\ fl_odds_to_p 3 = Ok (3 # 4) /\ is_double 3 /\
  exists o r, fl_p_to_odds (rnd (1 # 10)) = Ok o /\ fl_odds_to_p o = Ok r /\ r == rnd (1 # 10).
Proof.
  split; [vm_compute; reflexivity|]. split; [vm_compute; reflexivity|]. split; [exists 3%Z, 0%Z; split; [lia|reflexivity]|].
  eexists. eexists. split; [vm_compute; reflexivity|]. split; [vm_compute; reflexivity|]. vm_compute. reflexivity.
Qed.

(** C132.  Laplace's rule in doubles is never zero, and below one up to 2^53 trials ... *)
Theorem C132_never_certain_partial :
  forall s n, (0 <= s <= n)%Z -> 0 < fl_laplace s n /\ fl_laplace s n <= 1 /\ ((n + 2 <= 2 ^ 53)%Z -> fl_laplace s n < 1).
Proof. exact laplace_range. Qed.
Print Assumptions C132_never_certain_partial.
(** ... but it is certainty for enough trials. *)
Theorem C132_never_certain_refuted : exists s n, (0 <= s <= n)%Z /\ fl_laplace s n == 1.
Proof. exact laplace_certain. Qed.
Print Assumptions C132_never_certain_refuted.
(** It is the double nearest to (s + 1) / (n + 2). *)
Theorem C132_nearest : forall s n, nearest_double (inject_Z (s + 1) / inject_Z (n + 2)) (fl_laplace s n).
Proof. exact laplace_nearest. Qed.
Print Assumptions C132_nearest.
Example C132_sat : fl_laplace 0 0 = (1 # 2) /\ fl_laplace 1 2 = (1 # 2) /\ fl_laplace (2 ^ 53 - 2) (2 ^ 53 - 2) < 1.
Proof. repeat split; vm_compute; reflexivity. Qed.

(** C133.  Of the 2^53 draws, the event occurs for the first [ceil (p * 2^53)] ... *)
Theorem C133_draws : forall p k, fl_event_occurs p k = true <-> (k < Qceiling (p * inject_Z (2 ^ 53)))%Z.
Proof. exact event_draws. Qed.
Print Assumptions C133_draws.
(** ... so its probability is p rounded up to a multiple of 2^-53. *)
Theorem C133_probability :
  forall p, 0 <= p -> p <= 1 ->
  exists c, counted (fun k => (0 <= k < 2 ^ 53)%Z /\ fl_event_occurs p k = true) c /\
    0 <= qnat c * pow2 (-53) - p /\ qnat c * pow2 (-53) - p < pow2 (-53) /\
    ((exists k, p == inject_Z k * pow2 (-53)) -> qnat c * pow2 (-53) == p).
Proof. exact fl_event_counted. Qed.
Print Assumptions C133_probability.
Example C133_sat : (forall k, (0 <= k)%Z -> fl_event_occurs 0 k = false) /\ (forall k, (k < 2 ^ 53)%Z -> fl_event_occurs 1 k = true) /\
  fl_event_occurs (1 # 2) (2 ^ 52) = false /\ fl_event_occurs (1 # 2) (2 ^ 52 - 1) = true.
Proof.
  split; [|split; [|split; vm_compute; reflexivity]].
  - intros k K. destruct (fl_event_occurs 0 k) eqn:E; auto. apply C133_draws in E.
    change (Qceiling (0 * inject_Z (2 ^ 53))) with 0%Z in E. lia.
  - intros k K. apply C133_draws. change (Qceiling (1 * inject_Z (2 ^ 53))) with (2 ^ 53)%Z. exact K.
Qed.

(** C134.  Percentages of counts stay between 0 and 100 and within a relative 3 * 2^-53 of exact. *)
Theorem C134_percentage :
  forall v t, (0 <= v <= t)%Z -> (0 < t)%Z -> 0 <= fl_percentage v t <= 100 /\
  Qabs (fl_percentage v t - inject_Z v / inject_Z t * 100) <= 3 * double_u * (inject_Z v / inject_Z t * 100).
Proof. exact percentage_range. Qed.
Print Assumptions C134_percentage.
(** Larger counts never have smaller percentages ... *)
Theorem C134_monotone : forall v w t, (0 <= v <= w)%Z -> (0 < t)%Z -> fl_percentage v t <= fl_percentage w t.
Proof. exact percentage_mono. Qed.
Print Assumptions C134_monotone.
(** ... and the percentages of all buckets add up to 100 up to 300 * 2^-53, if not exactly. *)
Theorem C134_total :
  forall t vs, (0 < t)%Z -> (forall v, In v vs -> (0 <= v)%Z) -> fold_right Z.add 0%Z vs = t ->
  Qabs (total (map (fun v => fl_percentage v t) vs) - 100) <= 300 * double_u.
Proof. exact percentage_total. Qed.
Print Assumptions C134_total.
Example C134_sat : fl_percentage 1 4 = 25 /\ fl_percentage 3 3 = 100 /\ fl_percentage 0 7 = 0 /\
  ~ fl_percentage 7 25 == 28 /\ total (map (fun v => fl_percentage v 4) [1; 3]%Z) == 100 /\
  ~ total (map (fun v => fl_percentage v 3) [1; 1; 1]%Z) == 100.
Proof. split; [vm_compute; reflexivity|]. split; [vm_compute; reflexivity|]. split; [vm_compute; reflexivity|]. split; [vm_compute; discriminate|]. split; [vm_compute; reflexivity|vm_compute; discriminate]. Qed.
