(** Lemmas: what the constructors and [update] mean for densities. *)
From Coq Require Import Reals Lra.
From Verif Require Import Base M_Dists SpecDists SpecNormal P_Gauss P_Normal P_Dists P_Update.
Open Scope R_scope.

Lemma norm_area ppf c x y lc rc : true_quantile ppf -> 0 < c -> c < 100 -> x < y ->
  exists m s, norm ppf (Some x) (Some y) None None c lc rc = Ok (mkNormal (Some m) (Some s) lc rc) /\ 0 < s /\
    area_left (bell m s) x (1 / 2 - c / 200) /\ area (bell m s) x y (c / 100).
Proof.
  intros T C0 C1 L. destruct (norm_interval Phi ppf c x y lc rc (true_normal _ T) C0 C1 L) as (m & s & E & _ & S & A0 & A1).
  exists m, s. split; [exact E|]. split; [exact S|]. split; [now apply scaled_area_left|].
  replace (c / 100) with (1 / 2 + c / 200 - (1 / 2 - c / 200)) by field. now apply scaled_area.
Qed.
Lemma lognorm_area ppf c x y lc rc : true_quantile ppf -> 0 < c -> c < 100 -> 0 < x -> x < y ->
  exists d m s, lognorm ppf (Some x) (Some y) None None None None c lc rc = Ok d /\ l_mean d = Some m /\ l_sd d = Some s /\ 0 < s /\
    area_left (bell m s) (ln x) (1 / 2 - c / 200) /\ area (bell m s) (ln x) (ln y) (c / 100).
Proof.
  intros T C0 C1 X L. destruct (lognorm_interval Phi ppf c x y lc rc (true_normal _ T) C0 C1 X L) as (m & s & E & _ & S & A0 & A1).
  eexists _, m, s. split; [exact E|]. split; [reflexivity|]. split; [reflexivity|]. split; [exact S|]. split; [now apply scaled_area_left|].
  replace (c / 100) with (1 / 2 + c / 200 - (1 / 2 - c / 200)) by field. now apply scaled_area.
Qed.
(** The reciprocal lies between [x] and [y] if the underlying normal does between -ln y and -ln x. *)
Lemma invlognorm_area ppf c x y lc rc : true_quantile ppf -> 0 < c -> c < 100 -> 0 < x -> x < y ->
  exists d m s, invlognorm ppf (Some x) (Some y) None None None None c lc rc = Ok d /\ l_mean d = Some m /\ l_sd d = Some s /\ 0 < s /\
    area_left (bell m s) (- ln y) (1 / 2 - c / 200) /\ area (bell m s) (- ln y) (- ln x) (c / 100).
Proof.
  intros T C0 C1 X L. destruct (invlognorm_interval Phi ppf c x y lc rc (true_normal _ T) C0 C1 X L) as (m & s & l2 & l3 & E & S & A0 & A1).
  unfold inv_lognormal_cdf, lognormal_cdf in A0, A1. rewrite ln_Rinv in A0, A1 by lra.
  eexists _, m, s. split; [exact E|]. split; [reflexivity|]. split; [reflexivity|]. split; [exact S|].
  assert (B0 : normal_cdf Phi m s (- ln y) = 1 / 2 - c / 200) by (unfold normal_cdf; lra).
  assert (B1 : normal_cdf Phi m s (- ln x) = 1 / 2 + c / 200) by (unfold normal_cdf; lra).
  split; [now apply scaled_area_left|]. replace (c / 100) with (1 / 2 + c / 200 - (1 / 2 - c / 200)) by field. now apply scaled_area.
Qed.
(** Moments of the exponential and of its reciprocal. *)
Lemma exp_mean_var m s : 0 < s ->
  whole_area (fun x => exp x * bell m s x) (lognormal_mean m s) /\
  whole_area (fun x => (exp x - lognormal_mean m s) * (exp x - lognormal_mean m s) * bell m s x) (lognormal_var m s).
Proof.
  intro S. unfold lognormal_var. assert (E : lognormal_mean m s = exp (1 * m + 1 * 1 * (s * s) / 2)) by (unfold lognormal_mean; f_equal; field).
  split.
  - rewrite E. apply (whole_ext (fun x => exp (1 * x) * bell m s x)); [intro; now rewrite Rmult_1_l|now apply exp_moment].
  - apply (whole_ext (fun x => (exp (1 * x) - lognormal_mean m s) * (exp (1 * x) - lognormal_mean m s) * bell m s x)); [intro; now rewrite Rmult_1_l|].
    apply exp_variance; [auto|ring|auto].
Qed.
Lemma inv_mean_var m s : 0 < s ->
  whole_area (fun x => / exp x * bell m s x) (inv_lognormal_mean m s) /\
  whole_area (fun x => (/ exp x - inv_lognormal_mean m s) * (/ exp x - inv_lognormal_mean m s) * bell m s x) (inv_lognormal_var m s).
Proof.
  intro S. unfold inv_lognormal_var, lognormal_var. fold (inv_lognormal_mean m s).
  assert (E : inv_lognormal_mean m s = exp (-1 * m + -1 * -1 * (s * s) / 2)) by (unfold inv_lognormal_mean, lognormal_mean; f_equal; field).
  assert (V : forall x, exp (-1 * x) = / exp x) by (intro x; rewrite <- exp_Ropp; f_equal; ring).
  split.
  - rewrite E. apply (whole_ext (fun x => exp (-1 * x) * bell m s x)); [intro; now rewrite V|now apply exp_moment].
  - apply (whole_ext (fun x => (exp (-1 * x) - inv_lognormal_mean m s) * (exp (-1 * x) - inv_lognormal_mean m s) * bell m s x)); [intro; now rewrite V|].
    apply exp_variance; [auto|ring|auto].
Qed.
Lemma lognorm_true_moments ppf x y nm ns lm ls c lc rc d m s M S : lognorm ppf x y nm ns lm ls c lc rc = Ok d ->
  (forall q, ls = Some q -> 0 <= q) -> (forall p, lm = Some p -> 0 < p) ->
  l_mean d = Some m -> l_sd d = Some s -> l_lmean d = Some M -> l_lsd d = Some S -> 0 < s ->
  whole_area (fun x => exp x * bell m s x) M /\ whole_area (fun x => (exp x - M) * (exp x - M) * bell m s x) (S * S).
Proof.
  intros E A0 A1 B0 B1 B2 B3 P. destruct (lognorm_consistent _ _ _ _ _ _ _ _ _ _ _ _ _ _ _ E A0 A1 B0 B1 B2 B3) as [-> ->]. now apply exp_mean_var.
Qed.
Lemma invlognorm_reported ppf : exists d m s M, invlognorm ppf None None (Some 0) (Some 1) None None 90 None None = Ok d /\
  l_mean d = Some m /\ l_sd d = Some s /\ l_lmean d = Some M /\ 0 < s /\ ~ whole_area (fun x => / exp x * bell m s x) M.
Proof.
  destruct (invlognorm_reported_wrong ppf) as (d & M & E & A0 & A1 & A2 & N). exists d, 0, 1, M. repeat split; auto; [lra|].
  intro W. apply N. eapply whole_unique; [exact W|]. apply inv_mean_var. lra.
Qed.

(** Products of densities. *)
Lemma bell_product m s pm ps em es w : 0 < s -> 0 < ps -> 0 < es ->
  precision s = precision ps + w * precision es -> m * precision s = pm * precision ps + w * (em * precision es) ->
  proportional (fun _ => True) (fun x => bell pm ps x * Rpower (bell em es x) w) (bell m s).
Proof.
  intros S PS ES P1 P2.
  assert (R0 : 0 < sqrt (2 * PI)) by (apply sqrt_lt_R0; pose proof PI_RGT_0; lra).
  set (C := precision s * (m * m) - precision ps * (pm * pm) - w * precision es * (em * em)).
  assert (B : forall a t x, 0 < t -> bell a t x = exp (- (precision t * ((x - a) * (x - a))) / 2 - ln (t * sqrt (2 * PI)))).
  { intros a t x T. unfold bell, precision. unfold Rminus at 3. rewrite exp_plus, exp_Ropp, exp_ln by now apply Rmult_lt_0_compat. unfold Rdiv. f_equal.
    f_equal. field. lra. }
  exists (exp (- (C / 2) - ln (s * sqrt (2 * PI)) + ln (ps * sqrt (2 * PI)) + w * ln (es * sqrt (2 * PI)))). split; [apply exp_pos|]. intros x _.
  rewrite !B by auto. unfold Rpower. rewrite ln_exp, <- !exp_plus. f_equal. unfold C.
  assert (Q : precision s * ((x - m) * (x - m)) = precision s * (x * x) - 2 * (m * precision s) * x + precision s * (m * m)) by ring.
  rewrite Q, P2. rewrite P1 at 1. field.
Qed.
Lemma normal_update_density ppf p e pm ps em es w d : normal_of p pm ps -> normal_of e em es -> 0 < ps -> 0 < es -> 0 <= w ->
  update ppf p e w = Ok d -> exists m s, normal_of d m s /\ 0 < s /\
  proportional (fun _ => True) (fun x => bell pm ps x * Rpower (bell em es x) w) (bell m s).
Proof.
  intros A0 A1 P0 P1 W E. destruct (normal_update_spec ppf p e pm ps em es w A0 A1 P0 P1 W) as (m & s & E' & S & Q1 & Q2).
  rewrite E' in E. injection E as <-. exists m, s. repeat split; auto. now apply bell_product.
Qed.
Lemma lognormal_update_density ppf p e pm ps em es w d : lognormal_of p pm ps -> lognormal_of e em es -> 0 < ps -> 0 < es -> 0 <= w ->
  update ppf p e w = Ok d -> exists m s, lognormal_of d m s /\ 0 < s /\
  proportional (fun _ => True) (fun x => bell pm ps x * Rpower (bell em es x) w) (bell m s).
Proof.
  intros A0 A1 P0 P1 W E. destruct (lognormal_update_spec ppf p e pm ps em es w A0 A1 P0 P1 W) as (m & s & E1 & E2).
  destruct (normal_update_density ppf (DNorm (mkNormal (Some pm) (Some ps) None None)) (DNorm (mkNormal (Some em) (Some es) None None))
    pm ps em es w _ (conj eq_refl eq_refl) (conj eq_refl eq_refl) P0 P1 W E1) as (m' & s' & [M1 M2] & S & Q).
  cbn in M1, M2. injection M1 as <-. injection M2 as <-. rewrite E2 in E. injection E as <-. exists m, s. repeat split; auto.
Qed.
Lemma beta_update_density a b a' b' : proportional (fun x => 0 < x < 1) (fun x => beta_shape a b x * counts a' b' x) (beta_shape (a + a') (b + b')).
Proof.
  exists 1. split; [lra|]. intros x _. unfold beta_shape, counts. replace (a + a' - 1) with (a - 1 + a') by ring. replace (b + b' - 1) with (b - 1 + b') by ring.
  rewrite !Rpower_plus. ring.
Qed.
(** With evidence gamma(1, 1) a prior gamma(1, 1) becomes gamma(2, 1). *)
Lemma gamma_update_density ppf : exists k th k' th' K Th,
  update ppf (DGamma k th None None) (DGamma k' th' None None) 1 = Ok (DGamma K Th None None) /\
  ~ proportional (fun x => 0 < x) (fun x => gamma_shape k th x * gamma_shape k' th' x) (gamma_shape K Th) /\
  ~ proportional (fun x => 0 < x) (fun x => gamma_shape k th x * (Rpower x k' * exp (- x / th'))) (gamma_shape K Th).
Proof.
  destruct (gamma_update_spec ppf 1 1 None None 1 1 None None 1 ltac:(lra) ltac:(lra) ltac:(lra) ltac:(lra) ltac:(lra)) as (K & Th & E & EK & T & R).
  assert (K = 2) by lra. assert (Th = 1).
  { assert (I : / Th = 1) by (rewrite Rinv_1 in R; nra). rewrite <- (Rinv_inv Th), I. apply Rinv_1. }
  subst K Th. exists 1, 1, 1, 1, 2, 1. split; [rewrite E; now rewrite H|].
  assert (A0 : forall x, gamma_shape 1 1 x = / exp x).
  { intro x. unfold gamma_shape, Rpower, Rdiv. rewrite Rminus_eq_0, Rmult_0_l, exp_0, Rinv_1, Rmult_1_r, Rmult_1_l. apply exp_Ropp. }
  assert (A1 : forall x, 0 < x -> gamma_shape 2 1 x = x * / exp x).
  { intros x P. unfold gamma_shape, Rdiv. replace (2 - 1) with 1 by ring. rewrite Rpower_1, Rinv_1, Rmult_1_r by auto. now rewrite exp_Ropp. }
  pose proof (exp_ineq1_le 1) as I. assert (E2 : exp 2 = exp 1 * exp 1) by (rewrite <- exp_plus; f_equal; ring).
  split; intros (C & _ & Q); pose proof (Q 1 ltac:(lra)) as Q1; pose proof (Q 2 ltac:(lra)) as Q2; cbv beta in Q1, Q2;
    rewrite ?A0, ?A1 in Q1, Q2 by lra; set (e := exp 1) in *; rewrite E2 in Q2.
  - assert (F1 : C = e). { apply Rmult_eq_reg_l with (/ e * / e); [|apply Rgt_not_eq; assert (0 < / e) by (apply Rinv_0_lt_compat; lra); nra]. rewrite Rmult_comm, <- Q1. field. lra. }
    assert (F2 : C = 2 * (e * e)).
    { apply Rmult_eq_reg_l with (/ (e * e) * / (e * e)); [|apply Rgt_not_eq; assert (0 < / (e * e)) by (apply Rinv_0_lt_compat; nra); nra]. rewrite Rmult_comm, <- Q2. field. lra. }
    nra.
  - unfold Rdiv in Q1, Q2. rewrite Rinv_1, Rmult_1_r, Rpower_1, exp_Ropp in Q1, Q2 by lra. fold e in Q1. rewrite E2 in Q2.
    assert (F1 : C = e). { apply Rmult_eq_reg_l with (/ e * (1 * / e)); [|apply Rgt_not_eq; assert (0 < / e) by (apply Rinv_0_lt_compat; lra); nra]. rewrite Rmult_comm, <- Q1. field. lra. }
    assert (F2 : C = e * e).
    { apply Rmult_eq_reg_l with (/ (e * e) * (2 * / (e * e))); [|apply Rgt_not_eq; assert (0 < / (e * e)) by (apply Rinv_0_lt_compat; nra); nra]. rewrite Rmult_comm, <- Q2. field. lra. }
    nra.
Qed.
Lemma quantile_unique f g p : true_quantile f -> true_quantile g -> 0 < p -> p < 1 -> f p = g p.
Proof.
  intros F K P0 P1. pose proof (nq_inverse _ _ (true_normal f F) p P0 P1) as A0. pose proof (nq_inverse _ _ (true_normal g K) p P0 P1) as A1.
  destruct (Rtotal_order (f p) (g p)) as [L|[E|L]]; auto; apply Phi_increasing in L; lra.
Qed.
