(** Lemmas: the gains that [kelly] reports. *)
From Coq Require Import Qabs Lqa.
From Verif Require Import Base M_Values M_Ops SpecRound M_Kelly SpecKelly P_Round P_Kelly.
Open Scope Q_scope.

Lemma expected_profit_eq p s m : ~ m == 0 -> expected_profit p s m == s * (p / m - 1).
Proof. intro N. unfold expected_profit, profit. field. exact N. Qed.

Lemma rounds_nonneg g x r : rounds g x r -> 0 <= x -> 0 <= r.
Proof.
  intros (k & E & A & _) P. rewrite E. assert (T : 0 < Qpower 10 g) by (apply Qpower_0_lt; reflexivity).
  apply Qabs_Qle_condition in A. destruct A as [_ A].
  assert (0 <= x * Qpower 10 g) by (apply Qmult_le_0_compat; lra).
  assert (K : (-1 < k)%Z) by (rewrite Zlt_Qlt; change (inject_Z (-1)) with (-1); lra).
  apply Qle_shift_div_l; auto. rewrite Qmult_0_l. change 0 with (inject_Z 0). rewrite <- Zle_Qle. lia.
Qed.

Lemma rounds_nonpos g x r : rounds g x r -> x <= 0 -> r <= 0.
Proof.
  intros (k & E & A & _) P. rewrite E. assert (T : 0 < Qpower 10 g) by (apply Qpower_0_lt; reflexivity).
  apply Qabs_Qle_condition in A. destruct A as [A _].
  assert (0 <= (- x) * Qpower 10 g) by (apply Qmult_le_0_compat; lra).
  assert (K : (k < 1)%Z) by (rewrite Zlt_Qlt; change (inject_Z 1) with 1; nra).
  apply Qle_shift_div_r; auto. rewrite Qmult_0_l. change 0 with (inject_Z 0). rewrite <- Zle_Qle. lia.
Qed.

Lemma gain_when_backed power my m d b r c e k : kelly power my m d b r c e = Ok k -> m <= my ->
  let p := belief my m d in
  let stake := b * fraction p m in
  rounds 2 stake (k_target k) /\
  rounds 2 (profit true stake m) (k_max_gain k) /\
  rounds 2 (expected_profit p stake m) (k_modeled_gain k) /\
  rounds 3 (expected_profit p 1 m) (k_expected_roi k) /\
  (0 <= b -> 0 <= k_target k /\ 0 <= k_max_gain k /\ 0 <= k_modeled_gain k).
Proof.
  intros H L p stake.
  destruct (proj1 (kelly_accepts power my m d b r c e) (ex_intro _ k H)) as (M & P & D & _).
  destruct (kelly_values power my m d b r c e k H) as (_ & _ & _ & _ & _ & _ & _ & T & _ & _ & G & X & Ro & _).
  fold p in T, G, X, Ro.
  pose proof (belief_above my m d L D) as Bm. fold p in Bm.
  pose proof (belief_price my m d P M D) as Bp. fold p in Bp.
  destruct (fraction_unit p m Bp M Bm) as [F _].
  assert (NZ : ~ m == 0) by (destruct M; lra).
  assert (St : b * Qabs (fraction p m) == stake) by (unfold stake; rewrite (Qabs_pos _ F); reflexivity).
  assert (T' : rounds 2 stake (k_target k)) by (eapply rounds_compat; [exact St|reflexivity|exact T]).
  assert (Rp : 0 <= p / m - 1).
  { assert (1 <= p / m) by (apply Qle_shift_div_l; [apply M|lra]). lra. }
  assert (Mp : 0 <= 1 / m - 1).
  { assert (1 <= 1 / m) by (apply Qle_shift_div_l; destruct M; lra). lra. }
  assert (G' : rounds 2 (profit true stake m) (k_max_gain k)).
  { eapply rounds_compat; [|reflexivity|exact G]. rewrite St. unfold profit. field. exact NZ. }
  assert (X' : rounds 2 (expected_profit p stake m) (k_modeled_gain k)).
  { eapply rounds_compat; [|reflexivity|exact X]. rewrite St. symmetry. apply expected_profit_eq, NZ. }
  repeat match goal with |- _ /\ _ => split end; auto.
  - eapply rounds_compat; [|reflexivity|exact Ro]. rewrite (Qabs_pos _ Rp), (expected_profit_eq p 1 m NZ). ring.
  - intro B0. assert (S0 : 0 <= stake) by (apply Qmult_le_0_compat; auto).
    split; [|split].
    + eapply rounds_nonneg; [exact T'|exact S0].
    + eapply rounds_nonneg; [exact G|]. rewrite St. apply Qmult_le_0_compat; auto.
    + eapply rounds_nonneg; [exact X|]. rewrite St. apply Qmult_le_0_compat; auto.
Qed.

(** Against the market the stake buys the other side, but the gains are still those of
    this side. *)
Lemma gain_when_against power my m d b r c k : kelly power my m d b r c false = Ok k -> my <= m ->
  let p := belief my m d in
  let stake := b * ((m - p) / (1 - m)) in
  rounds 2 stake (k_target k) /\
  rounds 2 (profit true stake m) (k_max_gain k) /\
  rounds 2 (expected_profit p stake m) (k_modeled_gain k) /\
  rounds 3 (- expected_profit p 1 m) (k_expected_roi k) /\
  (0 <= b -> k_modeled_gain k <= 0 /\ 0 <= k_expected_roi k) /\
  (0 < b -> my < m -> d < 1 -> 0 < expected_profit (1 - p) stake (1 - m) /\ expected_profit p stake m < 0).
Proof.
  intros H L p stake.
  destruct (proj1 (kelly_accepts power my m d b r c false) (ex_intro _ k H)) as (M & P & D & _).
  destruct (kelly_values power my m d b r c false k H) as (_ & _ & _ & _ & _ & _ & _ & T & _ & _ & G & X & Ro & _).
  fold p in T, G, X, Ro.
  assert (Bm : p <= m) by (unfold p, belief; destruct D; nra).
  pose proof (belief_price my m d P M D) as Bp. fold p in Bp.
  assert (NZ : ~ m == 0) by (destruct M; lra).
  assert (NZ1 : ~ 1 - m == 0) by (destruct M; lra).
  assert (F : Qabs (fraction p m) == (m - p) / (1 - m)).
  { unfold fraction. rewrite Qabs_neg; [field; exact NZ1|].
    apply Qle_shift_div_r; destruct M; lra. }
  assert (Fp : 0 <= (m - p) / (1 - m)) by (apply Qle_shift_div_l; destruct M; lra).
  assert (St : b * Qabs (fraction p m) == stake) by (unfold stake; rewrite F; reflexivity).
  assert (Rp : p / m - 1 <= 0).
  { assert (p / m <= 1) by (apply Qle_shift_div_r; [apply M|lra]). lra. }
  assert (X' : rounds 2 (expected_profit p stake m) (k_modeled_gain k)).
  { eapply rounds_compat; [|reflexivity|exact X]. rewrite St. symmetry. apply expected_profit_eq, NZ. }
  assert (Ro' : rounds 3 (- expected_profit p 1 m) (k_expected_roi k)).
  { eapply rounds_compat; [|reflexivity|exact Ro]. rewrite (Qabs_neg _ Rp), (expected_profit_eq p 1 m NZ). ring. }
  repeat match goal with |- _ /\ _ => split end; auto.
  - eapply rounds_compat; [exact St|reflexivity|exact T].
  - eapply rounds_compat; [|reflexivity|exact G]. rewrite St. unfold profit. field. exact NZ.
  - intro B0. assert (S0 : 0 <= stake) by (apply Qmult_le_0_compat; auto). split.
    + apply rounds_nonpos with (g := 2%Z) (x := expected_profit p stake m); auto.
      rewrite (expected_profit_eq p stake m NZ). nra.
    + eapply rounds_nonneg; [exact Ro'|]. rewrite (expected_profit_eq p 1 m NZ). lra.
  - intros B0 L' D'. assert (Lt : p < m) by (unfold p, belief; destruct D; nra).
    assert (S0 : 0 < stake).
    { unfold stake. apply Qmult_lt_0_compat; auto. apply Qlt_shift_div_l; destruct M; lra. }
    rewrite (expected_profit_eq (1 - p) stake (1 - m) NZ1), (expected_profit_eq p stake m NZ).
    assert (A : 0 < (1 - p) / (1 - m) - 1).
    { assert (1 < (1 - p) / (1 - m)) by (apply Qlt_shift_div_l; destruct M; lra). lra. }
    assert (C : p / m - 1 < 0).
    { assert (p / m < 1) by (apply Qlt_shift_div_r; destruct M; lra). lra. }
    split; nra.
Qed.
