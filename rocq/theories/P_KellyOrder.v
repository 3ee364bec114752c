(** Lemmas for [Props_KellyOrder]. *)
From Coq Require Import Lqa Setoid Qabs.
From Verif Require Import Base M_Values M_Ops M_Kelly SpecKelly SpecKellyOrder P_Round P_Kelly.
Open Scope Q_scope.

Lemma div_le_cross a b c e : 0 < b -> 0 < e -> a * e <= c * b -> a / b <= c / e.
Proof.
  intros B E H. apply Qle_shift_div_l; auto. setoid_replace (a / b * e) with (a * e / b) by (field; lra).
  apply Qle_shift_div_r; auto.
Qed.
Lemma mul_le a b c e : 0 <= a -> 0 <= b -> a <= c -> b <= e -> a * b <= c * e.
Proof. intros. nra. Qed.

Section Better.
  Variables my m d my' m' d' : Q.
  Hypothesis P : price my. Hypothesis M : price m. Hypothesis D : share d. Hypothesis L : m <= my.
  Hypothesis P' : price my'. Hypothesis M' : price m'. Hypothesis D' : share d'.
  Hypothesis B : better my m d my' m' d'.
  Lemma above' : m' <= my'. Proof. destruct B as (? & ? & ?). lra. Qed.
  Lemma fraction_better : fraction my m <= fraction my' m'.
  Proof.
    destruct P, M, P', M', B as (B1 & B2 & _). unfold fraction. apply div_le_cross; try lra.
    pose proof (Qmult_le_0_compat (1 - my) (m - m') ltac:(lra) ltac:(lra)).
    pose proof (Qmult_le_0_compat (1 - m) (my' - my) ltac:(lra) ltac:(lra)). lra.
  Qed.
  Lemma kelly_better : kelly_fraction my m d <= kelly_fraction my' m' d'.
  Proof.
    destruct (kelly_fraction_above my m d P M D L) as (E & _). destruct (kelly_fraction_above my' m' d' P' M' D' above') as (E' & _).
    rewrite E, E'. destruct (fraction_unit my m P M L), D, D', B as (_ & _ & B3). pose proof fraction_better. apply mul_le; lra.
  Qed.
  Lemma roi_above : expected_roi my m d == (1 - d) * ((my - m) / m).
  Proof.
    unfold expected_roi. destruct M, D. rewrite adj_belief. rewrite Qabs_pos.
    - unfold belief. field. lra.
    - assert (1 <= belief my m d / m); [|lra]. apply Qle_shift_div_l; auto. pose proof (belief_above my m d L D). lra.
  Qed.
End Better.
Lemma margin_nonneg my m : price m -> m <= my -> 0 <= (my - m) / m.
Proof. intros [A _] L. apply Qle_shift_div_l; lra. Qed.
Lemma roi_better my m d my' m' d' : price my -> price m -> share d -> m <= my -> price my' -> price m' -> share d' ->
  better my m d my' m' d' -> 0 <= expected_roi my m d /\ expected_roi my m d <= expected_roi my' m' d'.
Proof.
  intros P M D L P' M' D' B. assert (L' : m' <= my') by (destruct B as (? & ? & ?); lra).
  rewrite (roi_above my m d M D L), (roi_above my' m' d' M' D' L'). pose proof (margin_nonneg my m M L) as N.
  assert ((my - m) / m <= (my' - m') / m').
  { destruct P, M, P', M', B as (B1 & B2 & _). apply div_le_cross; auto.
    pose proof (Qmult_le_0_compat my (m - m') ltac:(lra) ltac:(lra)).
    pose proof (Qmult_le_0_compat m (my' - my) ltac:(lra) ltac:(lra)). lra. }
  destruct D, D', B as (_ & _ & B3). split; [apply Qmult_le_0_compat; lra|apply mul_le; lra].
Qed.
(** The gains, before rounding. *)
Lemma max_gain_value my m d b : price my -> price m -> share d -> m <= my ->
  b * kelly_fraction my m d / m - b * kelly_fraction my m d == b * expected_roi my m d.
Proof.
  intros P M D L. rewrite (proj1 (kelly_fraction_above my m d P M D L)), (roi_above my m d M D L). destruct M. unfold fraction. field. lra.
Qed.
Lemma modeled_gain_value my m d b : price my -> price m -> share d -> m <= my ->
  adj_price my m d * (b * kelly_fraction my m d / m) - b * kelly_fraction my m d == b * kelly_fraction my m d * expected_roi my m d.
Proof.
  intros P M D L. rewrite (roi_above my m d M D L). destruct M. unfold adj_price. field. lra.
Qed.
Lemma kelly_rises power power' my m d b r c e k my' m' d' b' r' c' e' k' :
  kelly power my m d b r c e = Ok k -> kelly power' my' m' d' b' r' c' e' = Ok k' -> m <= my -> better my m d my' m' d' ->
  0 <= b -> b <= b' -> c' <= c -> report_le k k'.
Proof.
  intros K K' L B B0 BB C.
  destruct (proj1 (kelly_accepts power my m d b r c e) (ex_intro _ k K)) as (M & P & D & _).
  destruct (proj1 (kelly_accepts power' my' m' d' b' r' c' e') (ex_intro _ k' K')) as (M' & P' & D' & _).
  assert (L' : m' <= my') by (destruct B as (? & ? & ?); lra).
  pose proof (kelly_better my m d my' m' d' P M D L P' M' D' B) as F. destruct (kelly_fraction_above my m d P M D L) as (_ & F0 & _).
  destruct (roi_better my m d my' m' d' P M D L P' M' D' B) as [R0 R].
  assert (T : b * kelly_fraction my m d <= b' * kelly_fraction my' m' d') by (apply mul_le; auto).
  assert (T0 : 0 <= b * kelly_fraction my m d) by (apply Qmult_le_0_compat; auto).
  pose proof (max_gain_value my m d b P M D L) as G. pose proof (max_gain_value my' m' d' b' P' M' D' L') as G'.
  pose proof (modeled_gain_value my m d b P M D L) as H. pose proof (modeled_gain_value my' m' d' b' P' M' D' L') as H'.
  assert (X1 : b * expected_roi my m d <= b' * expected_roi my' m' d') by (apply mul_le; auto).
  assert (X2 : b * kelly_fraction my m d * expected_roi my m d <= b' * kelly_fraction my' m' d' * expected_roi my' m' d') by (apply mul_le; auto).
  unfold kelly in K, K'.
  repeat match type of K with (if ?x then _ else _) = _ => destruct x; [discriminate|] end.
  repeat match type of K' with (if ?x then _ else _) = _ => destruct x; [discriminate|] end.
  cbv zeta in K, K'.
  match type of K with bind ?x _ = _ => destruct x; [|discriminate] end.
  match type of K' with bind ?x _ = _ => destruct x; [|discriminate] end.
  cbn [bind] in K, K'. injection K as <-. injection K' as <-.
  unfold report_le. cbn [k_kelly k_target k_delta k_max_gain k_modeled_gain k_expected_roi].
  repeat match goal with |- _ /\ _ => split end; apply np_round_mono; auto.
  - lra.
  - rewrite G, G'. exact X1.
  - rewrite H, H'. exact X2.
Qed.
Lemma arr_rises power my m d b days c e k my' m' d' b' c' e' k' a a' : rising_power power -> (0 < days)%Z ->
  kelly power my m d b (InDays days) c e = Ok k -> kelly power my' m' d' b' (InDays days) c' e' = Ok k' -> m <= my ->
  better my m d my' m' d' -> k_arr k = Some a -> k_arr k' = Some a' -> a <= a'.
Proof.
  intros W Y K K' L B.
  destruct (proj1 (kelly_accepts power my m d b _ c e) (ex_intro _ k K)) as (M & P & D & _).
  destruct (proj1 (kelly_accepts power my' m' d' b' _ c' e') (ex_intro _ k' K')) as (M' & P' & D' & _).
  destruct (roi_better my m d my' m' d' P M D L P' M' D' B) as [R0 R].
  unfold kelly in K, K'.
  repeat match type of K with (if ?x then _ else _) = _ => destruct x; [discriminate|] end.
  repeat match type of K' with (if ?x then _ else _) = _ => destruct x; [discriminate|] end.
  cbv zeta in K, K'. destruct (days =? 0)%Z; [discriminate|].
  cbn [bind] in K, K'. injection K as <-. injection K' as <-. cbn [k_arr].
  intros E E'. injection E as <-. injection E' as <-. apply np_round_mono.
  pose proof (W (expected_roi my m d + 1) (expected_roi my' m' d' + 1) days Y ltac:(lra) ltac:(lra)). lra.
Qed.
