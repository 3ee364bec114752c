(** C177: better bets are larger. *)
From Coq Require Import Qabs.
From Verif Require Import Base M_Values M_Kelly SpecKelly SpecKellyOrder P_Kelly P_KellyOrder.
Open Scope Q_scope.

(* ---------------------------------------------------------------- C177 *)
(** A higher price of one's own, a lower market price, less deference, more money or less of
    it staked already: no reported number falls, rounded as they are. *)
Theorem C177_rise :
  forall power power' my m d b r c e k my' m' d' b' r' c' e' k',
  kelly power my m d b r c e = Ok k -> kelly power' my' m' d' b' r' c' e' = Ok k' -> m <= my -> better my m d my' m' d' ->
  0 <= b -> b <= b' -> c' <= c -> report_le k k'.
Proof. exact kelly_rises. Qed.
Print Assumptions C177_rise.
(** Nor does the annual rate of return, for a date in the future. *)
Theorem C177_annual :
  forall power my m d b days c e k my' m' d' b' c' e' k' a a', rising_power power -> (0 < days)%Z ->
  kelly power my m d b (InDays days) c e = Ok k -> kelly power my' m' d' b' (InDays days) c' e' = Ok k' -> m <= my ->
  better my m d my' m' d' -> k_arr k = Some a -> k_arr k' = Some a' -> a <= a'.
Proof. exact arr_rises. Qed.
Print Assumptions C177_annual.
(** Before rounding, the largest gain is the expected return on the whole bankroll, and the
    expected gain is the expected return on the stake. *)
Theorem C177_gains :
  forall my m d b, price my -> price m -> share d -> m <= my ->
  let stake := b * kelly_fraction my m d in
  stake / m - stake == b * expected_roi my m d /\ adj_price my m d * (stake / m) - stake == stake * expected_roi my m d.
Proof. exact (fun my m d b P M D L => conj (max_gain_value my m d b P M D L) (modeled_gain_value my m d b P M D L)). Qed.
Print Assumptions C177_gains.
Example C177_sat :
  better (6#10) (5#10) (1#2) (7#10) (4#10) (1#4) /\
  (exists k k', kelly (fun x _ => x) (6#10) (5#10) (1#2) 100 (InDays 365) 0 true = Ok k /\
     kelly (fun x _ => x) (7#10) (4#10) (1#4) 100 (InDays 365) 0 true = Ok k' /\
     k_kelly k == 1#10 /\ k_kelly k' == 375#1000 /\ k_max_gain k == 10 /\ k_max_gain k' == 5625#100 /\
     k_arr k = Some (k_expected_roi k)) /\
  rising_power (fun x _ => x).
Proof.
  split; [repeat split; discriminate|]. split; [|intros x y n _ _ L; exact L].
  eexists; eexists. split; [reflexivity|]. split; [reflexivity|]. repeat split; vm_compute; reflexivity.
Qed.
