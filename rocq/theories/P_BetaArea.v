(** Lemmas: areas, means and variances of beta densities. *)
From Coq Require Import Reals Lra Lia.
From Verif Require Import SpecNormal P_Gauss.
Open Scope R_scope.

(* ---------------------------------------------------------------- bounded rising functions *)
Lemma tends_rising f B : (forall x y, x <= y -> f x <= f y) -> (forall x, f x <= B) -> exists l, tends f l /\ forall x, f x <= l.
Proof.
  intros M U. destruct (completeness (fun y => exists x, y = f x)) as [l [Up Lo]].
  - exists B. intros y (x & ->). apply U.
  - exists (f 0). now exists 0.
  - assert (Up' : forall x, f x <= l) by (intro x; apply Up; now exists x). exists l. split; auto. intros eps P.
    assert (E : exists x, l - eps < f x).
    { apply Classical_Prop.NNPP. intro N. assert (l <= l - eps); [|lra]. apply Lo. intros y (x & ->).
      destruct (Rle_lt_dec (f x) (l - eps)) as [|L]; auto. exfalso. apply N. now exists x. }
    destruct E as [x0 E]. exists x0. intros x L. specialize (M x0 x L). specialize (Up' x). apply Rabs_def1; lra.
Qed.

(** Exponentials vanish. *)
Lemma exp_vanishes k : 0 < k -> tends (fun t => exp (- k * t)) 0.
Proof.
  intro K. apply (tends_squeeze (fun x => / k * / x)).
  - apply (tends_val _ (/ k * 0)); [apply tends_scal, inv_tends|ring].
  - intros x X. rewrite Rminus_0_r, Rabs_pos_eq by (left; apply exp_pos).
    assert (E : exp (- k * x) * exp (k * x) = 1) by (rewrite <- exp_plus; replace (- k * x + k * x) with 0 by ring; apply exp_0).
    pose proof (exp_ineq1_le (k * x)) as I. pose proof (exp_pos (- k * x)). assert (0 < k * x) by now apply Rmult_lt_0_compat.
    apply Rmult_le_reg_l with (k * x); auto. replace (k * x * (/ k * / x)) with 1 by (field; lra). nra.
Qed.
(** A positive function below an exponential on either side has an area. *)
Section Positive.
  Variable g : R -> R.
  Hypothesis C : continuity g.
  Hypothesis P : forall t, 0 < g t.
  Variables a b c d : R.
  Hypothesis A : 0 < a.
  Hypothesis B : 0 < b.
  Hypothesis U : forall t, g t <= c * exp (- b * t).
  Hypothesis V : forall t, g t <= d * exp (a * t).
  Lemma pos_vanishes : tends g 0 /\ tends (fun t => g (- t)) 0.
  Proof.
    split; eapply tends_squeeze.
    - eapply tends_val; [apply (tends_scal c), (exp_vanishes b B)|ring].
    - intros x _. cbv beta. rewrite Rminus_0_r, Rabs_pos_eq by (left; apply P). apply U.
    - eapply tends_val; [apply (tends_scal d), (exp_vanishes a A)|ring].
    - intros x _. cbv beta. rewrite Rminus_0_r, Rabs_pos_eq by (left; apply P). replace (- a * x) with (a * - x) by ring. apply V.
  Qed.
  Let K := anti g C.
  Lemma K_slope t : dl K t (g t). Proof. apply anti_slope. Qed.
  Lemma K_rises x y : x <= y -> K x <= K y.
  Proof. intro L. apply (not_falling _ g); auto; [apply K_slope|]. intros. left. apply P. Qed.
  Lemma K_above x : K x <= K 0 + c / b.
  Proof.
    assert (IB : 0 < / b) by now apply Rinv_0_lt_compat. assert (Pc : 0 < c). { pose proof (U 0) as H. rewrite Rmult_0_r, exp_0 in H. pose proof (P 0). lra. }
    assert (0 < c / b) by now apply Rdiv_lt_0_compat.
    destruct (Rle_lt_dec x 0) as [L|L]; [pose proof (K_rises x 0 L); lra|].
    assert (N : - (c / b) * exp (- b * 0) - K 0 <= - (c / b) * exp (- b * x) - K x).
    { apply (not_falling (fun t => - (c / b) * exp (- b * t) - K t) (fun t => c * exp (- b * t) - g t)); [| |lra].
      - intro t. eapply dl_val; [apply dl_minus; [apply dl_scal, dl_exp, dl_scal, dl_id|apply K_slope]|]. cbv beta. field. lra.
      - intros t _. pose proof (U t). lra. }
    rewrite Rmult_0_r, exp_0 in N. pose proof (exp_pos (- b * x)). nra.
  Qed.
  Lemma K_below x : K 0 - d / a <= K x.
  Proof.
    assert (IA : 0 < / a) by now apply Rinv_0_lt_compat. assert (Pd : 0 < d). { pose proof (V 0) as H. rewrite Rmult_0_r, exp_0 in H. pose proof (P 0). lra. }
    assert (0 < d / a) by now apply Rdiv_lt_0_compat.
    destruct (Rle_lt_dec 0 x) as [L|L]; [pose proof (K_rises 0 x L); lra|].
    assert (N : d / a * exp (a * x) - K x <= d / a * exp (a * 0) - K 0).
    { apply (not_falling (fun t => d / a * exp (a * t) - K t) (fun t => d * exp (a * t) - g t)); [| |lra].
      - intro t. eapply dl_val; [apply dl_minus; [apply dl_scal, dl_exp, dl_scal, dl_id|apply K_slope]|]. cbv beta. field. lra.
      - intros t _. pose proof (V t). lra. }
    rewrite Rmult_0_r, exp_0 in N. pose proof (exp_pos (a * x)). nra.
  Qed.
  Lemma pos_whole : exists I, 0 < I /\ whole_area g I.
  Proof.
    destruct (tends_rising K (K 0 + c / b)) as (p & T & T'); [apply K_rises|apply K_above|].
    destruct (tends_rising (fun t => - K (- t)) (- (K 0 - d / a))) as (q & Q & Q').
    - intros x y L. pose proof (K_rises (- y) (- x)). lra.
    - intro x. pose proof (K_below (- x)). lra.
    - exists (p + q). split.
      + pose proof (rising _ _ 0 1 K_slope P Rlt_0_1). specialize (T' 1). specialize (Q' 0). rewrite Ropp_0 in Q'. lra.
      + apply (whole_of K _ p (- q)); [apply K_slope|auto| |ring].
        apply (tends_ext (fun x => -1 * - K (- x))); [intro; ring|]. apply (tends_val _ (-1 * q)); [now apply tends_scal|ring].
  Qed.
End Positive.

(* ---------------------------------------------------------------- the beta density on the logit scale *)
Definition soft (t : R) : R := ln (1 + exp t).
Definition share (t : R) : R := exp t / (1 + exp t).
Definition lb (a b t : R) : R := exp (a * t - (a + b) * soft t).
Lemma one_exp t : 1 < 1 + exp t. Proof. pose proof (exp_pos t). lra. Qed.
Lemma soft_slope t : dl soft t (share t).
Proof.
  unfold soft, share. pose proof (one_exp t). eapply dl_val.
  - apply (dl_comp ln (fun t => 1 + exp t)).
    + apply (dl_plus (fun _ => 1) exp); [apply dl_const|apply derivable_pt_lim_exp].
    + apply derivable_pt_lim_ln. lra.
  - field. lra.
Qed.
Lemma lb_slope a b t : dl (lb a b) t ((a - (a + b) * share t) * lb a b t).
Proof.
  unfold lb. eapply dl_val.
  - apply dl_exp. apply dl_minus; apply dl_scal; [apply dl_id|apply soft_slope].
  - dring.
Qed.
Lemma lb_pos a b t : 0 < lb a b t. Proof. apply exp_pos. Qed.
Lemma soft_pos t : 0 <= soft t.
Proof. unfold soft. rewrite <- ln_1. left. apply ln_increasing; [lra|apply one_exp]. Qed.
Lemma soft_ge t : t <= soft t.
Proof. unfold soft. rewrite <- (ln_exp t) at 1. left. apply ln_increasing; [apply exp_pos|]. lra. Qed.
Lemma exp_le x y : x <= y -> exp x <= exp y.
Proof. intros [L| ->]; [left; now apply exp_increasing|lra]. Qed.
Lemma lb_right a b t : 0 < a -> 0 < b -> lb a b t <= exp (- b * t).
Proof. intros A B. unfold lb. apply exp_le. pose proof (soft_ge t). nra. Qed.
Lemma lb_left a b t : 0 < a -> 0 < b -> lb a b t <= exp (a * t).
Proof. intros A B. unfold lb. apply exp_le. pose proof (soft_pos t). nra. Qed.
Lemma lb_continuous a b : continuity (lb a b).
Proof. exact (dl_continuous _ _ (lb_slope a b)). Qed.
Lemma lb_vanishes a b : 0 < a -> 0 < b -> tends (lb a b) 0 /\ tends (fun t => lb a b (- t)) 0.
Proof.
  intros A B. apply (pos_vanishes _ (lb_pos a b) a b 1 1 A B); intro t; rewrite Rmult_1_l; [now apply lb_right|now apply lb_left].
Qed.
Lemma lb_whole a b : 0 < a -> 0 < b -> exists I, 0 < I /\ whole_area (lb a b) I.
Proof.
  intros A B. apply (pos_whole _ (lb_continuous a b) (lb_pos a b) a b 1 1 A B); intro t; rewrite Rmult_1_l; [now apply lb_right|now apply lb_left].
Qed.
Lemma lb_mean a b I : 0 < a -> 0 < b -> whole_area (lb a b) I -> whole_area (fun t => share t * lb a b t) (a / (a + b) * I).
Proof.
  intros A B W. destruct (lb_vanishes a b A B) as [V1 V2].
  pose proof (whole_of (lb a b) _ 0 0 0 (lb_slope a b) V1 V2 (Rminus_eq_0 0)) as Z.
  pose proof (whole_plus _ _ _ _ (whole_scal (a / (a + b)) _ _ W) (whole_scal (- / (a + b)) _ _ Z)) as S.
  eapply whole_val; [eapply whole_ext; [|exact S]|ring]. intro t. cbv beta. field. lra.
Qed.
Lemma share_lb a b t : share t * lb a b t = lb (a + 1) b t.
Proof.
  unfold share, lb, soft. pose proof (one_exp t) as E. rewrite <- (exp_ln (1 + exp t)) at 1 by lra.
  unfold Rdiv. rewrite <- exp_Ropp, <- !exp_plus. f_equal. ring.
Qed.

(* ---------------------------------------------------------------- back to the unit interval *)
Lemma within_ext l r f g I : (forall x, l < x < r -> f x = g x) -> area_within l r f I -> area_within l r g I.
Proof. intros E (F & D & L). exists F. split; auto. intros x X. rewrite <- E by auto. now apply D. Qed.
Lemma within_val l r f I J : area_within l r f I -> I = J -> area_within l r f J.
Proof. now intros W <-. Qed.
Lemma within_scal c l r f I : area_within l r f I -> area_within l r (fun x => c * f x) (c * I).
Proof.
  intros (F & D & L). exists (fun x => c * F x). split; [intros; apply dl_scal; auto|]. intros eps P. pose proof (Rabs_pos c) as C.
  destruct (L (eps / (Rabs c + 1))) as (d & Pd & B); [apply Rdiv_lt_0_compat; lra|]. exists d. split; auto. intros a b La Lb. specialize (B a b La Lb).
  replace (c * F b - c * F a - c * I) with (c * (F b - F a - I)) by ring. rewrite Rabs_mult. pose proof (Rabs_pos (F b - F a - I)).
  apply Rmult_lt_compat_r with (r := Rabs c + 1) in B; [|lra]. unfold Rdiv in B. rewrite Rmult_assoc, Rinv_l in B by lra. nra.
Qed.
Lemma within_plus l r f g I J : area_within l r f I -> area_within l r g J -> area_within l r (fun x => f x + g x) (I + J).
Proof.
  intros (F & D & L) (K & E & M). exists (fun x => F x + K x). split; [intros; apply dl_plus; auto|]. intros eps P.
  destruct (L (eps / 2)) as (d & Pd & B); [lra|]. destruct (M (eps / 2)) as (d' & Pd' & C); [lra|]. exists (Rmin d d'). split; [now apply Rmin_pos|]. intros a b La Lb.
  pose proof (Rmin_l d d'). pose proof (Rmin_r d d').
  replace (F b + K b - (F a + K a) - (I + J)) with ((F b - F a - I) + (K b - K a - J)) by ring.
  eapply Rle_lt_trans; [apply Rabs_triang|]. specialize (B a b ltac:(lra) ltac:(lra)). specialize (C a b ltac:(lra) ltac:(lra)). lra.
Qed.
Lemma ln_div x y : 0 < x -> 0 < y -> ln (x / y) = ln x - ln y.
Proof. intros X Y. unfold Rdiv. rewrite ln_mult, ln_Rinv; auto. now apply Rinv_0_lt_compat. Qed.
Definition logit (x : R) : R := ln x - ln (1 - x).
Lemma dl_ln f x a : 0 < f x -> dl f x a -> dl (fun y => ln (f y)) x (a / f x).
Proof. intros P D. eapply dl_val; [apply (dl_comp ln f); [exact D|now apply derivable_pt_lim_ln]|field; lra]. Qed.
Lemma logit_slope x : 0 < x < 1 -> dl logit x (/ (x * (1 - x))).
Proof.
  intros X. eapply dl_val.
  - apply dl_minus; [apply derivable_pt_lim_ln; lra|]. apply (dl_ln (fun y => 1 - y)); [lra|]. apply dl_minus; [apply dl_const|apply dl_id].
  - cbv beta. field. lra.
Qed.
Lemma logit_high T x : 1 - / (1 + exp T) < x -> x < 1 -> T <= logit x.
Proof.
  intros L X. pose proof (one_exp T) as E. pose proof (exp_pos T). assert (V : 0 < / (1 + exp T)) by (apply Rinv_0_lt_compat; lra).
  assert (V1 : / (1 + exp T) < 1) by (rewrite <- Rinv_1; apply Rinv_lt_contravar; lra).
  unfold logit. rewrite <- ln_div by lra. rewrite <- (ln_exp T) at 1. left. apply ln_increasing; auto.
  apply Rmult_lt_reg_r with (1 - x); [lra|]. unfold Rdiv. rewrite Rmult_assoc, Rinv_l, Rmult_1_r by lra.
  assert (Y : 1 - x < / (1 + exp T)) by lra. apply Rmult_lt_compat_r with (r := 1 + exp T) in Y; [|lra]. rewrite Rinv_l in Y by lra. nra.
Qed.
Lemma logit_sym x : logit (1 - x) = - logit x.
Proof. unfold logit. replace (1 - (1 - x)) with x by ring. ring. Qed.
Lemma logit_low T x : 0 < x -> x < / (1 + exp T) -> logit x <= - T.
Proof. intros X L. pose proof (logit_high T (1 - x) ltac:(lra) ltac:(lra)) as B. rewrite logit_sym in B. lra. Qed.
Lemma from_logit g I : whole_area g I -> area_within 0 1 (fun x => g (logit x) / (x * (1 - x))) I.
Proof.
  intros (F & D & L). exists (fun x => F (logit x)). split.
  - intros x X. eapply dl_val; [apply (dl_comp F logit); [now apply logit_slope|apply D]|field; lra].
  - intros eps P. destruct (L eps P) as [T B]. exists (/ (1 + exp T)). pose proof (one_exp T). split; [apply Rinv_0_lt_compat; lra|].
    intros a b La Lb. apply B; [apply logit_low; lra|apply logit_high; lra].
Qed.
Lemma share_logit x : 0 < x < 1 -> share (logit x) = x.
Proof.
  intro X. unfold share, logit. replace (ln x - ln (1 - x)) with (ln x + - ln (1 - x)) by ring.
  rewrite exp_plus, exp_Ropp, !exp_ln by lra. field. lra.
Qed.
Lemma soft_logit x : 0 < x < 1 -> soft (logit x) = - ln (1 - x).
Proof.
  intro X. unfold soft, logit. replace (ln x - ln (1 - x)) with (ln x + - ln (1 - x)) by ring.
  rewrite exp_plus, exp_Ropp, !exp_ln by lra. replace (1 + x * / (1 - x)) with (/ (1 - x)) by (field; lra). now rewrite ln_Rinv by lra.
Qed.
Lemma lb_logit a b x : 0 < x < 1 -> lb a b (logit x) / (x * (1 - x)) = beta_shape a b x.
Proof.
  intro X. unfold lb, beta_shape, Rpower. rewrite soft_logit by auto. unfold logit.
  replace (a * (ln x - ln (1 - x)) - (a + b) * - ln (1 - x)) with ((a - 1) * ln x + ln x + ((b - 1) * ln (1 - x) + ln (1 - x))) by ring.
  rewrite !exp_plus, !exp_ln by lra. field. lra.
Qed.
Lemma beta_area a b : 0 < a -> 0 < b -> exists I, 0 < I /\
  area_within 0 1 (beta_shape a b) I /\ area_within 0 1 (fun x => x * beta_shape a b x) (a / (a + b) * I) /\
  area_within 0 1 (fun x => x * x * beta_shape a b x) ((a + 1) / (a + 1 + b) * (a / (a + b)) * I).
Proof.
  intros A B. destruct (lb_whole a b A B) as (I & P & W). exists I. split; auto.
  pose proof (lb_mean a b I A B W) as M1.
  assert (M2 : whole_area (fun t => share t * (share t * lb a b t)) ((a + 1) / (a + 1 + b) * (a / (a + b) * I))).
  { eapply whole_ext; [|apply (lb_mean (a + 1) b); [lra|auto|]].
    - intro t. cbv beta. now rewrite (share_lb a b t).
    - eapply whole_ext; [|exact M1]. intro t. apply share_lb. }
  repeat split.
  - eapply within_ext; [|apply (from_logit _ _ W)]. intros x X. now apply lb_logit.
  - eapply within_ext; [|apply (from_logit _ _ M1)]. intros x X. cbv beta. rewrite share_logit, <- lb_logit by auto. unfold Rdiv. ring.
  - eapply within_val; [eapply within_ext; [|apply (from_logit _ _ M2)]|ring]. intros x X. cbv beta. rewrite share_logit, <- lb_logit by auto. unfold Rdiv. ring.
Qed.

(* ---------------------------------------------------------------- stretched *)
Lemma within_stretch l r f I : l < r -> area_within 0 1 f I -> area_within l r (fun x => f ((x - l) / (r - l))) ((r - l) * I).
Proof.
  intros LR (F & D & L). set (w := r - l). assert (W : 0 < w) by (unfold w; lra).
  assert (Q : forall x, l < x < r -> 0 < (x - l) / w < 1).
  { intros x X. split; [apply Rdiv_lt_0_compat; lra|]. apply Rmult_lt_reg_r with w; auto. unfold Rdiv. rewrite Rmult_assoc, Rinv_l by lra. unfold w. lra. }
  exists (fun x => w * F ((x - l) / w)). split.
  - intros x X. eapply dl_val.
    + apply dl_scal. apply (dl_comp F (fun x => (x - l) / w)); [|apply D, Q, X].
      apply (dl_ext (fun x => / w * (x - l))); [intro; field; lra|]. apply dl_scal. apply dl_minus; [apply dl_id|apply dl_const].
    + field. lra.
  - intros eps P. destruct (L (eps / w)) as (d & Pd & B); [now apply Rdiv_lt_0_compat|]. exists (Rmin w (w * d)).
    assert (Pwd : 0 < w * d) by now apply Rmult_lt_0_compat.
    split; [now apply Rmin_pos|]. intros a b La Lb. pose proof (Rmin_l w (w * d)). pose proof (Rmin_r w (w * d)).
    assert (Wa : w * ((a - l) / w) = a - l) by (field; lra). assert (Wb : w * ((b - l) / w) = b - l) by (field; lra).
    assert (Ea : 0 < (a - l) / w < 0 + d). { split; [apply Q; unfold w in *; lra|]. apply Rmult_lt_reg_l with w; lra. }
    assert (Eb : 1 - d < (b - l) / w < 1). { split; [|apply Q; unfold w in *; lra]. apply Rmult_lt_reg_l with w; auto. rewrite Wb. unfold w in *. lra. }
    specialize (B _ _ Ea Eb). replace (w * F ((b - l) / w) - w * F ((a - l) / w) - w * I) with (w * (F ((b - l) / w) - F ((a - l) / w) - I)) by ring.
    rewrite Rabs_mult, (Rabs_pos_eq w) by lra. apply Rmult_lt_compat_l with (r := w) in B; auto. replace (w * (eps / w)) with eps in B by (field; lra). exact B.
Qed.
Lemma stretched_moments l r a b : l < r -> 0 < a -> 0 < b -> let m := l + a / (a + b) * (r - l) in exists I, 0 < I /\
  area_within l r (stretched_beta l r a b) I /\ area_within l r (fun x => x * stretched_beta l r a b x) (m * I) /\
  area_within l r (fun x => (x - m) * (x - m) * stretched_beta l r a b x) ((m - l) * (r - m) / (a + b + 1) * I).
Proof.
  intros LR A B m. destruct (beta_area a b A B) as (J & P & W0 & W1 & W2).
  apply (within_stretch l r _ _ LR) in W0. apply (within_stretch l r _ _ LR) in W1. apply (within_stretch l r _ _ LR) in W2.
  exists ((r - l) * J). split; [apply Rmult_lt_0_compat; lra|]. split; [exact W0|]. split.
  - eapply within_val; [eapply within_ext; [|apply (within_plus _ _ _ _ _ _ (within_scal l _ _ _ _ W0) (within_scal (r - l) _ _ _ _ W1))]|].
    + intros x X. unfold stretched_beta. field. lra.
    + unfold m. field. lra.
  - eapply within_val; [eapply within_ext; [|apply (within_plus _ _ _ _ _ _ (within_scal ((m - l) * (m - l)) _ _ _ _ W0)
      (within_plus _ _ _ _ _ _ (within_scal (-2 * (m - l) * (r - l)) _ _ _ _ W1) (within_scal ((r - l) * (r - l)) _ _ _ _ W2)))]|].
    + intros x X. unfold stretched_beta. cbv beta. field. lra.
    + unfold m. field. lra.
Qed.

(* ---------------------------------------------------------------- the peak *)
Lemma ln_below x : 0 < x -> x <> 1 -> ln x < x - 1.
Proof.
  intros P N. assert (Z : ln x <> 0) by (intro E; apply N; rewrite <- (exp_ln x P), E; apply exp_0).
  pose proof (exp_ineq1 (ln x) Z) as I. rewrite exp_ln in I by auto. lra.
Qed.
Lemma ln_chord x y : 0 < x -> 0 < y -> x <> y -> ln x - ln y < (x - y) / y.
Proof.
  intros X Y N. rewrite <- ln_div by auto. replace ((x - y) / y) with (x / y - 1) by (field; lra). apply ln_below; [now apply Rdiv_lt_0_compat|].
  intro E. apply N. apply Rmult_eq_compat_r with (r := y) in E. unfold Rdiv in E. rewrite Rmult_assoc, Rinv_l in E by lra. lra.
Qed.
(** [p ln x + q ln (1 - x)] rises up to p / (p + q) and falls from there. *)
Lemma beta_rises a b x y : 1 <= a -> 1 <= b -> 2 < a + b -> 0 < x -> x < y -> y < 1 -> y * (a + b - 2) <= a - 1 -> beta_shape a b x < beta_shape a b y.
Proof.
  intros A B AB X XY Y L. unfold beta_shape, Rpower. rewrite <- !exp_plus. apply exp_increasing.
  pose proof (ln_chord x y X ltac:(lra) ltac:(lra)) as C1. pose proof (ln_chord (1 - x) (1 - y) ltac:(lra) ltac:(lra) ltac:(lra)) as C2.
  assert (I1 : (x - y) / y * y = x - y) by (field; lra). assert (I2 : (1 - x - (1 - y)) / (1 - y) * (1 - y) = y - x) by (field; lra).
  set (u := (x - y) / y) in *. set (v := (1 - x - (1 - y)) / (1 - y)) in *.
  assert (S : (a - 1) * u + (b - 1) * v <= 0).
  { apply Rmult_le_reg_r with (y * (1 - y)); [apply Rmult_lt_0_compat; lra|]. rewrite Rmult_0_l.
    replace (((a - 1) * u + (b - 1) * v) * (y * (1 - y))) with ((a - 1) * (u * y) * (1 - y) + (b - 1) * (v * (1 - y)) * y) by ring. rewrite I1, I2.
    replace ((a - 1) * (x - y) * (1 - y) + (b - 1) * (y - x) * y) with ((y - x) * (y * (a + b - 2) - (a - 1))) by ring.
    assert (0 <= (y - x) * (a - 1 - y * (a + b - 2))) by (apply Rmult_le_pos; lra). lra. }
  destruct (Req_dec a 1) as [->|Na].
  - assert (0 < (b - 1) * (v - (ln (1 - x) - ln (1 - y)))) by (apply Rmult_lt_0_compat; lra). lra.
  - assert (0 < (a - 1) * (u - (ln x - ln y))) by (apply Rmult_lt_0_compat; lra).
    assert (0 <= (b - 1) * (v - (ln (1 - x) - ln (1 - y)))) by (apply Rmult_le_pos; lra). lra.
Qed.
Lemma beta_swap a b x : beta_shape a b (1 - x) = beta_shape b a x.
Proof. unfold beta_shape. replace (1 - (1 - x)) with x by ring. ring. Qed.
Lemma beta_falls a b x y : 1 <= a -> 1 <= b -> 2 < a + b -> 0 < x -> x < y -> y < 1 -> a - 1 <= x * (a + b - 2) -> beta_shape a b y < beta_shape a b x.
Proof.
  intros A B AB X XY Y L. rewrite <- (beta_swap b a x), <- (beta_swap b a y). apply beta_rises; try lra.
Qed.
