(** C161: the gains that the Kelly helpers report. *)
From Coq Require Import Qabs.
From Verif Require Import Base M_Values M_Ops SpecRound M_Kelly SpecKelly P_KellyGain.
Open Scope Q_scope.

(* ---------------------------------------------------------------- C161 *)
(** With a price not below the market's, what is reported is what the bet would gain if
    won, what it gains on average and what a unit staked gains on average. *)
Theorem C161_backed_partial :
  forall power my m d b r c e k, kelly power my m d b r c e = Ok k -> m <= my ->
  let p := belief my m d in
  let stake := b * fraction p m in
  rounds 2 stake (k_target k) /\
  rounds 2 (profit true stake m) (k_max_gain k) /\
  rounds 2 (expected_profit p stake m) (k_modeled_gain k) /\
  rounds 3 (expected_profit p 1 m) (k_expected_roi k) /\
  (0 <= b -> 0 <= k_target k /\ 0 <= k_max_gain k /\ 0 <= k_modeled_gain k).
Proof. exact gain_when_backed. Qed.
Print Assumptions C161_backed_partial.

(** With a price below the market's, the stake would gain on the other side of the
    market; the gains reported are those of staking it on this side, which loses on
    average, and the return is reported with the opposite sign. *)
Theorem C161_against :
  forall power my m d b r c k, kelly power my m d b r c false = Ok k -> my <= m ->
  let p := belief my m d in
  let stake := b * ((m - p) / (1 - m)) in
  rounds 2 stake (k_target k) /\
  rounds 2 (profit true stake m) (k_max_gain k) /\
  rounds 2 (expected_profit p stake m) (k_modeled_gain k) /\
  rounds 3 (- expected_profit p 1 m) (k_expected_roi k) /\
  (0 <= b -> k_modeled_gain k <= 0 /\ 0 <= k_expected_roi k) /\
  (0 < b -> my < m -> d < 1 -> 0 < expected_profit (1 - p) stake (1 - m) /\ expected_profit p stake m < 0).
Proof. exact gain_when_against. Qed.
Print Assumptions C161_against.

(** So the expected value reported need not be that of the bet advised: here 60 is to be
    staked, the gain modelled is a loss of 30, and the return a gain of a half; staked
    on the other side the 60 would gain 30 on average. *)
Theorem C161_modeled_refuted :
  exists my m b, price my /\ price m /\ my < m /\ 0 < b /\
  forall power, exists k, kelly power my m 0 b NoDate 0 false = Ok k /\
    k_target k == 60 /\ k_modeled_gain k == -30 /\ k_expected_roi k == 1#2 /\
    expected_profit (1 - my) (k_target k) (1 - m) == 30.
Proof.
  exists (1#4), (1#2), 120. repeat split; try reflexivity.
  intro power. eexists. split; [vm_compute; reflexivity|]. repeat split; reflexivity.
Qed.
Print Assumptions C161_modeled_refuted.

(** The gains in the example of the documentation, 62.5 if won and 23.13 on average, are
    not what the call returns; 62.5 is what the shares would pay, stake included. *)
Theorem C161_docs_refuted :
  exists my m d b, forall power, exists k, kelly power my m d b NoDate 0 true = Ok k /\
    k_target k == 25 /\ k_expected_roi k == 375#1000 /\
    k_max_gain k == 375#10 /\ ~ k_max_gain k == 625#10 /\ k_target k / m == 625#10 /\
    k_modeled_gain k == 938#100 /\ ~ k_modeled_gain k == 2313#100.
Proof.
  exists (7#10), (4#10), (1#2), 100. intro power. eexists. split; [vm_compute; reflexivity|].
  repeat split; try reflexivity; intro C; discriminate C.
Qed.
Print Assumptions C161_docs_refuted.

Example C161_sat :
  (exists k, kelly (fun _ _ => 0) (7#10) (4#10) (1#2) 100 NoDate 0 true = Ok k) /\ 4#10 <= 7#10 /\
  (exists k, kelly (fun _ _ => 0) (1#4) (1#2) 0 120 NoDate 0 false = Ok k) /\ 1#4 < 1#2.
Proof. repeat split; try (eexists; vm_compute; reflexivity); discriminate. Qed.
