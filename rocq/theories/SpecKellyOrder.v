(** Better bets. *)
From Verif Require Import Base M_Kelly SpecKelly.
Open Scope Q_scope.

(** A price of one's own, a market's and a deference; the second bet is at least as good:
    one's own price no lower, the market's no higher, deferring no more to it. *)
Definition better (my m d my' m' d' : Q) : Prop := my <= my' /\ m' <= m /\ d' <= d.
(** Reports no number of which falls. *)
Definition report_le (k k' : kelly_result) : Prop :=
  k_kelly k <= k_kelly k' /\ k_target k <= k_target k' /\ k_delta k <= k_delta k' /\
  k_max_gain k <= k_max_gain k' /\ k_modeled_gain k <= k_modeled_gain k' /\ k_expected_roi k <= k_expected_roi k'.
(** A power that rises with its base from 1 on. *)
Definition rising_power (power : Q -> Z -> Q) : Prop :=
  forall x y days, (0 < days)%Z -> 1 <= x -> x <= y -> power x days <= power y days.
