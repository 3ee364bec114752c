(** Facts about rounding. *)
From Coq Require Import Qabs Lqa Setoid.
From Verif Require Import Base M_Values M_Ops SpecRound P_Support P_Ops2.
Open Scope Q_scope.

Lemma pow10_pos d : 0 < pow10 d.
Proof.
  unfold pow10. assert (P : forall p, 0 < Qpower_positive 10 p).
  { intros p. assert (0 <= Qpower_positive 10 p) as G by (apply Qpower_pos_positive; discriminate).
    apply Qle_lteq in G as [G|G]; auto. exfalso. symmetry in G. revert G. apply Qpower_not_0_positive. discriminate. }
  destruct d as [|p|p]; simpl; [reflexivity|apply P|apply Qinv_lt_0_compat, P].
Qed.

Lemma round_half_even_spec q : exists k, round_half_even q = k /\ Qabs (q - inject_Z k) <= 1#2 /\
  (Qabs (q - inject_Z k) == 1#2 -> Z.Even k).
Proof.
  exists (round_half_even q). split; auto. split; [apply round_half_even_near|].
  unfold round_half_even. pose proof (Qfloor_le q) as L. pose proof (Qlt_floor q) as U.
  rewrite inject_Z_plus in U. change (inject_Z 1) with 1 in U.
  destruct (Qlt_bool _ _) eqn:A.
  - apply qlt_true in A. intros E. rewrite Qabs_pos in E by lra. lra.
  - apply qlt_false in A. destruct (Qlt_bool (1#2) _) eqn:B.
    + apply qlt_true in B. intros E. rewrite inject_Z_plus in E. change (inject_Z 1) with 1 in E.
      rewrite Qabs_neg in E by lra. lra.
    + intros _. destruct (Z.even (Qfloor q)) eqn:EV; [now apply Z.even_spec|].
      apply Z.even_spec. rewrite Z.add_1_r, Z.even_succ, <- Z.negb_even, EV. reflexivity.
Qed.

Lemma inject_Z_le a b : inject_Z a <= inject_Z b <-> (a <= b)%Z.
Proof. unfold Qle. simpl. lia. Qed.
Lemma inject_Z_lt a b : inject_Z a < inject_Z b <-> (a < b)%Z.
Proof. unfold Qlt. simpl. lia. Qed.

(** Nearest integers, ties to even, are unique. *)
Lemma half_even_unique x j k :
  Qabs (x - inject_Z j) <= 1#2 -> (Qabs (x - inject_Z j) == 1#2 -> Z.Even j) ->
  Qabs (x - inject_Z k) <= 1#2 -> (Qabs (x - inject_Z k) == 1#2 -> Z.Even k) -> j = k.
Proof.
  assert (W : forall j k, (j < k)%Z ->
    Qabs (x - inject_Z j) <= 1#2 -> (Qabs (x - inject_Z j) == 1#2 -> Z.Even j) ->
    Qabs (x - inject_Z k) <= 1#2 -> (Qabs (x - inject_Z k) == 1#2 -> Z.Even k) -> False).
  { clear j k. intros j k L J Je K Ke. apply Qabs_Qle_condition in J as [J1 J2]. apply Qabs_Qle_condition in K as [K1 K2].
    assert (inject_Z (j + 1) <= inject_Z k) as L1 by (apply (proj2 (inject_Z_le _ _)); lia).
    rewrite inject_Z_plus in L1. change (inject_Z 1) with 1 in L1.
    assert (k = j + 1)%Z as ->.
    { assert (inject_Z k <= inject_Z (j + 1)) as L2 by (rewrite inject_Z_plus; change (inject_Z 1) with 1; lra).
      apply (proj1 (inject_Z_le _ _)) in L2. lia. }
    rewrite inject_Z_plus in *. change (inject_Z 1) with 1 in *.
    assert (Z.Even j) as [a Ea] by (apply Je; rewrite Qabs_pos by lra; lra).
    assert (Z.Even (j + 1)) as [b Eb] by (apply Ke; rewrite Qabs_neg by lra; lra). lia. }
  intros J Je K Ke. destruct (Z.lt_trichotomy j k) as [L|[E|L]]; auto; exfalso; eauto.
Qed.

Lemma np_round_rounds q d : rounds d q (np_round q d).
Proof.
  destruct (round_half_even_spec (q * pow10 d)) as (k & E & A & B). exists k. split.
  - unfold np_round. rewrite E. reflexivity.
  - split; auto.
Qed.
Lemma rounds_unique d q r r' : rounds d q r -> rounds d q r' -> r == r'.
Proof.
  intros (j & E & A & B) (k & E' & A' & B'). rewrite E, E'. now rewrite (half_even_unique _ _ _ A B A' B').
Qed.
Lemma rounds_compat d q q' r r' : q == q' -> r == r' -> rounds d q r -> rounds d q' r'.
Proof.
  intros Eq Er (k & E & A & B). exists k. rewrite <- Eq, <- Er. auto.
Qed.
Lemma np_round_compat q q' d : q == q' -> np_round q d == np_round q' d.
Proof.
  intros E. apply (rounds_unique d q'); [|apply np_round_rounds].
  eapply rounds_compat; [exact E|reflexivity|apply np_round_rounds].
Qed.


Lemma round_half_even_mono x y : x <= y -> (round_half_even x <= round_half_even y)%Z.
Proof.
  intros L. destruct (round_half_even_spec x) as (j & -> & J & Je), (round_half_even_spec y) as (k & -> & K & Ke).
  apply Z.nlt_ge. intros C. assert (inject_Z (k + 1) <= inject_Z j) as C' by (apply (proj2 (inject_Z_le _ _)); lia).
  rewrite inject_Z_plus in C'. change (inject_Z 1) with 1 in C'.
  pose proof (proj1 (Qabs_Qle_condition _ _) J) as [J1 J2]. pose proof (proj1 (Qabs_Qle_condition _ _) K) as [K1 K2].
  assert (x == y) as E by lra.
  rewrite E in J, Je. pose proof (half_even_unique y j k J Je K Ke). lia.
Qed.
Lemma np_round_mono p q d : p <= q -> np_round p d <= np_round q d.
Proof.
  intros L. unfold np_round. pose proof (pow10_pos d) as P. unfold Qdiv. apply Qmult_le_compat_r.
  - apply (proj2 (inject_Z_le _ _)), round_half_even_mono. apply Qmult_le_compat_r; auto. now apply Qlt_le_weak.
  - apply Qlt_le_weak, Qinv_lt_0_compat; auto.
Qed.
