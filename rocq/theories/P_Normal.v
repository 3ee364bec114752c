(** Lemmas: the normal density, its moments and quantiles. *)
From Coq Require Import Reals Lra.
From Verif Require Import Base M_Dists SpecDists SpecNormal P_Gauss P_Dists.
Open Scope R_scope.

Lemma sqrt2_sqr : sqrt 2 * sqrt 2 = 2. Proof. apply sqrt_sqrt. lra. Qed.
Lemma sqrt2_pos : 0 < sqrt 2. Proof. apply sqrt_lt_R0. lra. Qed.
Lemma root_pos : 0 < root. Proof. pose proof root_ge_1. lra. Qed.

Section Bell.
  Variables m s : R. Hypothesis S : 0 < s.
  Let k := / (s * sqrt 2).
  Lemma k_pos : 0 < k. Proof. apply Rinv_0_lt_compat, Rmult_lt_0_compat; [auto|apply sqrt2_pos]. Qed.
  Lemma bell_gauss x : bell m s x = k / root * gauss (k * x + - (k * m)).
  Proof.
    unfold bell, gauss, k. pose proof sqrt2_pos. pose proof root_pos. rewrite sqrt_mult by (pose proof PI_RGT_0; lra). fold root.
    replace (- ((/ (s * sqrt 2) * x + - (/ (s * sqrt 2) * m)) * (/ (s * sqrt 2) * x + - (/ (s * sqrt 2) * m)))) with (- ((x - m) * (x - m)) / (s * s * (sqrt 2 * sqrt 2))) by (field; lra).
    rewrite sqrt2_sqr. replace (s * s * 2) with (2 * (s * s)) by ring. field. lra.
  Qed.
  Lemma bell_pos x : 0 < bell m s x.
  Proof. rewrite bell_gauss. apply Rmult_lt_0_compat; [apply Rdiv_lt_0_compat; [apply k_pos|apply root_pos]|apply exp_pos]. Qed.
  Lemma bell_slope x : dl (bell m s) x (- ((x - m) / (s * s)) * bell m s x).
  Proof.
    unfold bell. apply (dl_ext (fun x => / (s * sqrt (2 * PI)) * exp (- / (2 * (s * s)) * ((x - m) * (x - m))))).
    - intro y. unfold Rdiv. rewrite Rmult_comm. f_equal. f_equal. ring.
    - assert (0 < sqrt (2 * PI)) by (apply sqrt_lt_R0; pose proof PI_RGT_0; lra).
      eapply dl_val; [apply dl_scal, (dl_exp (fun x => - / (2 * (s * s)) * ((x - m) * (x - m)))), dl_scal, dl_mult; apply dl_minus; (apply dl_id || apply dl_const)|].
      cbv beta. replace (- ((x - m) * (x - m)) / (2 * (s * s))) with (- / (2 * (s * s)) * ((x - m) * (x - m))) by (field; lra). field. lra.
  Qed.
  Definition cdf (x : R) : R := 1 / 2 + / root * G (k * x + - (k * m)).
  Lemma cdf_slope x : dl cdf x (bell m s x).
  Proof.
    unfold cdf. eapply dl_val.
    - apply dl_plus; [apply dl_const|]. apply dl_scal, (dl_comp G (fun x => k * x + - (k * m))); [|apply G_slope].
      apply dl_plus; [apply dl_scal, dl_id|apply dl_const].
    - cbv beta. rewrite bell_gauss. unfold Rdiv. ring.
  Qed.
  Lemma cdf_right : tends cdf 1.
  Proof.
    unfold cdf. apply tends_val with (1 / 2 + / root * (root / 2)); [|field; pose proof root_pos; lra].
    apply tends_plus; [apply tends_const|]. apply tends_scal. apply (tends_line G _ k); [apply k_pos|apply G_tends].
  Qed.
  Lemma flip x : k * - x + - (k * m) = - (k * x + k * m). Proof. ring. Qed.
  Lemma cdf_left : tends (fun x => cdf (- x)) 0.
  Proof.
    unfold cdf. apply (tends_ext (fun x => 1 / 2 + - / root * G (k * x + k * m))).
    - intro x. rewrite flip, G_odd. ring.
    - apply tends_val with (1 / 2 + - / root * (root / 2)); [|field; pose proof root_pos; lra].
      apply tends_plus; [apply tends_const|]. apply tends_scal. apply (tends_line G _ k); [apply k_pos|apply G_tends].
  Qed.
  Lemma bell_whole : whole_area (bell m s) 1.
  Proof. apply (whole_of cdf _ 1 0); [apply cdf_slope|apply cdf_right|apply cdf_left|ring]. Qed.
  Lemma bell_right : tends (bell m s) 0.
  Proof.
    apply (tends_ext (fun x => k / root * gauss (k * x + - (k * m)))); [intro; now rewrite bell_gauss|].
    apply tends_val with (k / root * 0); [|ring]. apply tends_scal, (tends_line gauss); [apply k_pos|apply gauss_tends].
  Qed.
  Lemma gauss_even x : gauss (- x) = gauss x. Proof. unfold gauss. f_equal. ring. Qed.
  Lemma bell_left : tends (fun x => bell m s (- x)) 0.
  Proof.
    apply (tends_ext (fun x => k / root * gauss (k * x + k * m))); [intro; now rewrite bell_gauss, flip, gauss_even|].
    apply tends_val with (k / root * 0); [|ring]. apply tends_scal, (tends_line gauss); [apply k_pos|apply gauss_tends].
  Qed.
  Lemma xbell_right : tends (fun x => (x - m) * bell m s x) 0.
  Proof.
    apply (tends_ext (fun x => / root * ((k * x + - (k * m)) * gauss (k * x + - (k * m))))).
    - intro x. rewrite bell_gauss. unfold Rdiv. ring.
    - apply tends_val with (/ root * 0); [|ring]. apply tends_scal, (tends_line (fun y => y * gauss y)); [apply k_pos|apply xgauss_tends].
  Qed.
  Lemma xbell_left : tends (fun x => (- x - m) * bell m s (- x)) 0.
  Proof.
    apply (tends_ext (fun x => - / root * ((k * x + k * m) * gauss (k * x + k * m)))).
    - intro x. rewrite bell_gauss, flip, gauss_even. unfold Rdiv. ring.
    - apply tends_val with (- / root * 0); [|ring]. apply tends_scal, (tends_line (fun y => y * gauss y)); [apply k_pos|apply xgauss_tends].
  Qed.
  Lemma bell_mean : whole_area (fun x => x * bell m s x) m.
  Proof.
    apply (whole_of (fun x => m * cdf x + - (s * s) * bell m s x) _ m 0); [| | |ring].
    - intro x. eapply dl_val; [apply dl_plus; apply dl_scal; [apply cdf_slope|apply bell_slope]|]. field. lra.
    - apply tends_val with (m * 1 + - (s * s) * 0); [|ring]. apply tends_plus; apply tends_scal; [apply cdf_right|apply bell_right].
    - apply tends_val with (m * 0 + - (s * s) * 0); [|ring]. apply tends_plus; [apply (tends_scal _ (fun x => cdf (- x))), cdf_left|].
      apply (tends_scal _ (fun x => bell m s (- x))), bell_left.
  Qed.
  Lemma bell_variance : whole_area (fun x => (x - m) * (x - m) * bell m s x) (s * s).
  Proof.
    apply (whole_of (fun x => s * s * cdf x + - (s * s) * ((x - m) * bell m s x)) _ (s * s) 0); [| | |ring].
    - intro x. eapply dl_val; [apply dl_plus; apply dl_scal; [apply cdf_slope|apply dl_mult; [apply dl_minus; [apply dl_id|apply dl_const]|apply bell_slope]]|].
      cbv beta. field. lra.
    - apply tends_val with (s * s * 1 + - (s * s) * 0); [|ring]. apply tends_plus; apply tends_scal; [apply cdf_right|apply xbell_right].
    - apply tends_val with (s * s * 0 + - (s * s) * 0); [|ring]. apply tends_plus; [apply (tends_scal _ (fun x => cdf (- x))), cdf_left|].
      apply (tends_scal _ (fun x => (- x - m) * bell m s (- x))), xbell_left.
  Qed.
  (** Multiplying the density by an exponential moves it. *)
  Lemma bell_exp c x : exp (c * x) * bell m s x = exp (c * m + c * c * (s * s) / 2) * bell (m + c * (s * s)) s x.
  Proof.
    unfold bell, Rdiv. rewrite <- !Rmult_assoc, <- !exp_plus. f_equal. f_equal. field. lra.
  Qed.
End Bell.
Lemma exp_moment m s c : 0 < s -> whole_area (fun x => exp (c * x) * bell m s x) (exp (c * m + c * c * (s * s) / 2)).
Proof.
  intro S. apply (whole_ext (fun x => exp (c * m + c * c * (s * s) / 2) * bell (m + c * (s * s)) s x)); [intro; now rewrite bell_exp|].
  eapply whole_val; [apply whole_scal, bell_whole; exact S|ring].
Qed.
Lemma exp_variance m s c M : 0 < s -> c * c = 1 -> M = exp (c * m + c * c * (s * s) / 2) ->
  whole_area (fun x => (exp (c * x) - M) * (exp (c * x) - M) * bell m s x) ((exp (s * s) - 1) * (M * M)).
Proof.
  intros S C E. apply (whole_ext (fun x => exp (2 * c * x) * bell m s x + (-2 * M * (exp (c * x) * bell m s x) + M * M * bell m s x))).
  - intro x. replace (2 * c * x) with (c * x + c * x) by ring. rewrite exp_plus. ring.
  - replace ((exp (s * s) - 1) * (M * M)) with (exp (2 * c * m + 2 * c * (2 * c) * (s * s) / 2) + (-2 * M * M + M * M * 1)).
    + apply whole_plus; [now apply exp_moment|]. apply whole_plus; [apply whole_scal; eapply whole_val; [now apply exp_moment|now symmetry]|now apply whole_scal, bell_whole].
    + replace (exp (2 * c * m + 2 * c * (2 * c) * (s * s) / 2)) with (exp (s * s) * (M * M)); [ring|].
      rewrite E, <- !exp_plus. f_equal. replace (2 * c * (2 * c)) with (4 * (c * c)) by ring. rewrite C. field.
Qed.

(* ---------------------------------------------------------------- quantiles *)
Lemma left_limit F : tends (fun x => F (- x)) 0 <-> forall eps, 0 < eps -> exists A, forall x, x <= - A -> Rabs (F x) < eps.
Proof.
  split; intros T eps P; destruct (T eps P) as [A0 B]; exists A0; intros x L.
  - specialize (B (- x) ltac:(lra)). now rewrite Ropp_involutive, Rminus_0_r in B.
  - rewrite Rminus_0_r. apply B. lra.
Qed.
Lemma area_left_of F f b I : (forall x, dl F x (f x)) -> tends (fun x => F (- x)) 0 -> F b = I -> area_left f b I.
Proof. intros D L E. exists F. split; auto. split; auto. now apply left_limit. Qed.
Lemma area_left_is F f b I : (forall x, dl F x (f x)) -> tends (fun x => F (- x)) 0 -> area_left f b I -> F b = I.
Proof.
  intros D L (K & E & M & <-). apply left_limit in M.
  assert (T1 : tends (fun x => K (- x) + (F b - K b)) (0 + (F b - K b))) by (apply (tends_plus (fun x => K (- x))); [exact M|apply tends_const]).
  assert (T2 : tends (fun x => K (- x) + (F b - K b)) 0).
  { apply (tends_ext (fun x => F (- x))); auto. intro x. pose proof (same_slope F K f D E (- x) b). lra. }
  pose proof (tends_unique _ _ _ T1 T2). lra.
Qed.
Lemma area_of F f a b : (forall x, dl F x (f x)) -> area f a b (F b - F a).
Proof. intro D. now exists F. Qed.

Definition Phi : R -> R := cdf 0 1.
Lemma one_pos : 0 < 1. Proof. lra. Qed.
Lemma Phi_slope x : dl Phi x (bell 0 1 x). Proof. apply cdf_slope, one_pos. Qed.
Lemma Phi_left : tends (fun x => Phi (- x)) 0. Proof. apply cdf_left, one_pos. Qed.
Lemma Phi_increasing x y : x < y -> Phi x < Phi y.
Proof. apply (rising Phi (bell 0 1)); [apply Phi_slope|intro; apply bell_pos, one_pos]. Qed.
Lemma Phi_symmetric x : Phi (- x) = 1 - Phi x.
Proof. unfold Phi, cdf. rewrite !Rmult_0_r, Ropp_0, !Rplus_0_r, <- Ropp_mult_distr_r, G_odd. field. pose proof root_pos; lra. Qed.
Lemma Phi_tail x : 0 < x -> 1 - Phi x <= 4 / x.
Proof.
  intro X. unfold Phi, cdf. rewrite Rmult_0_r, Ropp_0, Rplus_0_r. set (k := / (1 * sqrt 2)).
  assert (K : 1 / 2 <= k).
  { unfold k. rewrite Rmult_1_l. replace (1 / 2) with (/ 2) by field. apply Rinv_le_contravar; [apply sqrt2_pos|].
    pose proof sqrt2_sqr. pose proof sqrt2_pos. nra. }
  assert (Y : 0 < k * x) by nra. pose proof (G_tail (k * x) ltac:(lra)) as T. destruct (gauss_small (k * x) Y) as [B _].
  assert (V : / (k * x) <= 2 / x).
  { replace (2 / x) with (/ (1 / 2 * x)) by (field; lra). apply Rinv_le_contravar; nra. }
  pose proof root_ge_1 as R1. pose proof (Rle_abs (- (G (k * x) - root / 2))) as A1. rewrite Rabs_Ropp in A1.
  assert (E : / root * G (k * x) = 1 / 2 - / root * (root / 2 - G (k * x))) by (field; lra). rewrite E.
  assert (I : / root <= 1) by (rewrite <- Rinv_1; apply Rinv_le_contravar; lra). assert (0 < / root) by (apply Rinv_0_lt_compat; lra).
  assert (Z : root / 2 - G (k * x) <= 4 / x) by (unfold Rdiv in *; lra).
  assert (0 < 4 / x) by (apply Rdiv_lt_0_compat; lra).
  destruct (Rle_lt_dec 0 (root / 2 - G (k * x))); nra.
Qed.
Lemma Phi_onto p : 0 < p -> p < 1 -> {x | Phi x = p}.
Proof.
  intros P0 P1.
  assert (C : continuity (fun x => Phi x - p)).
  { apply (dl_continuous _ (fun x => bell 0 1 x - 0)). intro x. apply dl_minus; [apply Phi_slope|apply dl_const]. }
  set (a := 4 / p + 1). set (b := 4 / (1 - p) + 1).
  assert (Pa : 0 < 4 / p) by (apply Rdiv_lt_0_compat; lra). assert (Pb : 0 < 4 / (1 - p)) by (apply Rdiv_lt_0_compat; lra).
  assert (T : forall q, 0 < q -> 4 / (4 / q + 1) < q).
  { intros q Q. assert (0 < 4 / q) by (apply Rdiv_lt_0_compat; lra). apply Rmult_lt_reg_r with (4 / q + 1); [lra|].
    unfold Rdiv at 1. rewrite Rmult_assoc, Rinv_l by lra. replace (q * (4 / q + 1)) with (4 + q) by (field; lra). lra. }
  destruct (IVT (fun x => Phi x - p) (- a) b C) as (z & _ & E).
  - unfold a, b. lra.
  - rewrite Phi_symmetric. pose proof (Phi_tail a ltac:(unfold a; lra)). pose proof (T p P0). unfold a in *. lra.
  - pose proof (Phi_tail b ltac:(unfold b; lra)). pose proof (T (1 - p) ltac:(lra)). unfold b in *. lra.
  - exists z. lra.
Qed.
Definition quantile (p : R) : R :=
  match Rlt_dec 0 p with
  | left h0 => match Rlt_dec p 1 with left h1 => proj1_sig (Phi_onto p h0 h1) | right _ => 0 end
  | right _ => 0
  end.
Lemma quantile_true : true_quantile quantile.
Proof.
  intros p P0 P1. apply (area_left_of Phi); [apply Phi_slope|apply Phi_left|]. unfold quantile.
  destruct (Rlt_dec 0 p); [|lra]. destruct (Rlt_dec p 1); [|lra]. now destruct (Phi_onto p _ _).
Qed.
Lemma true_normal ppf : true_quantile ppf -> normal_quantile Phi ppf.
Proof.
  intro T. split; [apply Phi_increasing|apply Phi_symmetric|]. intros p P0 P1.
  apply (area_left_is Phi (bell 0 1)); [apply Phi_slope|apply Phi_left|now apply T].
Qed.
Lemma scaled_cdf m s x : 0 < s -> normal_cdf Phi m s x = cdf m s x.
Proof.
  intro S. unfold normal_cdf, Phi, cdf. f_equal. f_equal. f_equal. pose proof sqrt2_pos. field. lra.
Qed.
Lemma scaled_area_left m s x p : 0 < s -> normal_cdf Phi m s x = p -> area_left (bell m s) x p.
Proof. intros S E. rewrite scaled_cdf in E by auto. apply (area_left_of (cdf m s)); [now apply cdf_slope|now apply cdf_left|auto]. Qed.
Lemma scaled_area m s x y p q : 0 < s -> normal_cdf Phi m s x = p -> normal_cdf Phi m s y = q -> area (bell m s) x y (q - p).
Proof. intros S <- <-. rewrite !scaled_cdf by auto. now apply area_of, cdf_slope. Qed.
