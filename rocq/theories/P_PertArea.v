(** Lemmas: the density of PERT distributions. *)
From Coq Require Import Reals Lra QArith Qreals.
From Verif Require Import Base M_Sampler SpecNormal P_BetaArea.
Open Scope R_scope.

Lemma q2r_le x y : (x <= y)%Q -> Q2R x <= Q2R y. Proof. apply Qle_Rle. Qed.
Lemma q2r_lt x y : (x < y)%Q -> Q2R x < Q2R y. Proof. apply Qlt_Rlt. Qed.
Section Pert.
  Variables l m r lam : Q.
  Hypothesis LM : (l <= m)%Q.
  Hypothesis MR : (m <= r)%Q.
  Hypothesis LR : (l < r)%Q.
  Hypothesis P : (0 <= lam)%Q.
  Let l' := Q2R l. Let m' := Q2R m. Let r' := Q2R r. Let k := Q2R lam.
  Let a := Q2R (pert_alpha l m r lam). Let b := Q2R (pert_beta l m r lam).
  Lemma lr : l' < r'. Proof. now apply q2r_lt. Qed.
  Lemma lm : l' <= m'. Proof. now apply q2r_le. Qed.
  Lemma mr : m' <= r'. Proof. now apply q2r_le. Qed.
  Lemma kp : 0 <= k. Proof. rewrite <- RMicromega.Q2R_0. now apply q2r_le. Qed.
  Lemma width : ~ (r - l == 0)%Q.
  Proof. intro E. apply (Qlt_not_eq _ _ LR). symmetry. rewrite <- (Qplus_0_r l), <- E. ring. Qed.
  Lemma a_eq : a = 1 + k * ((m' - l') / (r' - l')).
  Proof.
    pose proof lr. unfold a, pert_alpha. rewrite Q2R_plus, Q2R_div, Q2R_mult, !Q2R_minus, RMicromega.Q2R_1 by apply width. fold l' m' r' k. field. lra.
  Qed.
  Lemma b_eq : b = 1 + k * ((r' - m') / (r' - l')).
  Proof.
    pose proof lr. unfold b, pert_beta. rewrite Q2R_plus, Q2R_div, Q2R_mult, !Q2R_minus, RMicromega.Q2R_1 by apply width. fold l' m' r' k. field. lra.
  Qed.
  Lemma a_ge : 1 <= a.
  Proof.
    pose proof lr. pose proof lm. pose proof kp. rewrite a_eq. assert (0 <= (m' - l') / (r' - l')) by (apply Rmult_le_pos; [lra|left; apply Rinv_0_lt_compat; lra]). nra.
  Qed.
  Lemma b_ge : 1 <= b.
  Proof.
    pose proof lr. pose proof mr. pose proof kp. rewrite b_eq. assert (0 <= (r' - m') / (r' - l')) by (apply Rmult_le_pos; [lra|left; apply Rinv_0_lt_compat; lra]). nra.
  Qed.
  Lemma ab : a + b = k + 2.
  Proof. pose proof lr. rewrite a_eq, b_eq. field. lra. Qed.
  Lemma pert_moments : let mean := (l' + k * m' + r') / (k + 2) in exists I, 0 < I /\
    area_within l' r' (stretched_beta l' r' a b) I /\ area_within l' r' (fun x => x * stretched_beta l' r' a b x) (mean * I) /\
    area_within l' r' (fun x => (x - mean) * (x - mean) * stretched_beta l' r' a b x) ((mean - l') * (r' - mean) / (k + 3) * I).
  Proof.
    pose proof lr. pose proof kp. pose proof a_ge. pose proof b_ge. cbv zeta.
    assert (E : (l' + k * m' + r') / (k + 2) = l' + a / (a + b) * (r' - l')) by (rewrite ab, a_eq; field; lra).
    rewrite E. destruct (stretched_moments l' r' a b) as (I & PI & W0 & W1 & W2); try lra. exists I. repeat split; auto.
    replace (k + 3) with (a + b + 1) by (rewrite ab; ring). exact W2.
  Qed.
  Lemma unit_of x : l' < x < r' -> 0 < (x - l') / (r' - l') < 1 /\ (r' - l') * ((x - l') / (r' - l')) = x - l'.
  Proof.
    pose proof lr. intro X. assert (E : (r' - l') * ((x - l') / (r' - l')) = x - l') by (field; lra). repeat split; auto.
    - apply Rdiv_lt_0_compat; lra.
    - apply Rmult_lt_reg_l with (r' - l'); lra.
  Qed.
  Lemma pert_rises x y : 0 < k -> l' < x -> x < y -> y < r' -> y <= m' -> stretched_beta l' r' a b x < stretched_beta l' r' a b y.
  Proof.
    pose proof lr. pose proof a_ge. pose proof b_ge. pose proof ab. intros K X XY Y M. unfold stretched_beta.
    destruct (unit_of x) as [Ux Ex]; [lra|]. destruct (unit_of y) as [Uy Ey]; [lra|].
    apply beta_rises; try lra.
    - apply Rmult_lt_reg_l with (r' - l'); lra.
    - apply Rmult_le_reg_l with (r' - l'); [lra|]. rewrite <- Rmult_assoc, Ey. replace (a + b - 2) with k by lra. rewrite a_eq.
      replace ((r' - l') * (1 + k * ((m' - l') / (r' - l')) - 1)) with (k * (m' - l')) by (field; lra). nra.
  Qed.
  Lemma pert_falls x y : 0 < k -> l' < x -> x < y -> y < r' -> m' <= x -> stretched_beta l' r' a b y < stretched_beta l' r' a b x.
  Proof.
    pose proof lr. pose proof a_ge. pose proof b_ge. pose proof ab. intros K X XY Y M. unfold stretched_beta.
    destruct (unit_of x) as [Ux Ex]; [lra|]. destruct (unit_of y) as [Uy Ey]; [lra|].
    apply beta_falls; try lra.
    - apply Rmult_lt_reg_l with (r' - l'); lra.
    - apply Rmult_le_reg_l with (r' - l'); [lra|]. rewrite <- Rmult_assoc, Ex. replace (a + b - 2) with k by lra. rewrite a_eq.
      replace ((r' - l') * (1 + k * ((m' - l') / (r' - l')) - 1)) with (k * (m' - l')) by (field; lra). nra.
  Qed.
  Lemma pert_flat x : k = 0 -> stretched_beta l' r' a b x = 1.
  Proof.
    intro K. unfold stretched_beta, beta_shape, Rpower. rewrite a_eq, b_eq, K, !Rmult_0_l, Rplus_0_r. replace (1 - 1) with 0 by ring. rewrite !Rmult_0_l, exp_0. ring.
  Qed.
End Pert.
