(** Laplace's rules as predictions. *)
From Coq Require Import Reals Lra Lia.
From Verif Require Import Base M_Dists M_Formulas SpecFormulas SpecNormal SpecMoments SpecPredict P_Formulas2 P_Moments.
Open Scope R_scope.

Lemma averaged_unique (ar : (R -> R) -> R -> Prop) f q m m' : (forall g I J, ar g I -> ar g J -> I = J) ->
  averaged ar f q m -> averaged ar f q m' -> m = m'.
Proof.
  intros U (I & P & A & B) (J & Q & C & D). pose proof (U _ _ _ A C) as E. subst J. pose proof (U _ _ _ B D) as E. nra.
Qed.
Lemma powerRZ_shift x s : 0 < x -> powerRZ x s = Rpower x (IZR s).
Proof. intro P. now apply powerRZ_Rpower. Qed.

(* -------------------------------------------------------------------- trials *)
Lemma within_ext l r f g I : (forall x, l < x < r -> f x = g x) -> area_within l r f I -> area_within l r g I.
Proof. intros E (F & D & L). exists F. split; auto. intros x X. rewrite <- E by auto. auto. Qed.
Lemma trials_shape s n x : 0 < x < 1 -> trials s n x = beta_shape (IZR s + 1) (IZR (n - s) + 1) x.
Proof.
  intro X. unfold trials, beta_shape. rewrite !powerRZ_shift by lra. f_equal; f_equal; ring.
Qed.
Lemma trials_mean s n : (0 <= s <= n)%Z -> averaged (area_within 0 1) (trials s n) (fun x => x) (IZR (s + 1) / IZR (n + 2)).
Proof.
  intro S. set (a := IZR s + 1). set (b := IZR (n - s) + 1).
  assert (A : 0 < a) by (unfold a; pose proof (IZR_le 0 s ltac:(lia)); lra).
  assert (B : 0 < b) by (unfold b; pose proof (IZR_le 0 (n - s) ltac:(lia)); lra).
  assert (M : moments_of (DBeta a b) (a / (a + b)) (a * b / ((a + b) * (a + b) * (a + b + 1)))) by (apply moments_beta; auto).
  destruct M as (_ & _ & I & P & W & V & _). exists I. split; auto. split.
  - eapply within_ext; [|exact W]. intros x X. symmetry. now apply trials_shape.
  - assert (E : IZR (s + 1) / IZR (n + 2) = a / (a + b)).
    { unfold a, b. rewrite !plus_IZR, minus_IZR. f_equal. ring. }
    rewrite E. eapply within_ext; [|exact V]. intros x X. cbv beta. now rewrite trials_shape.
Qed.

(* --------------------------------------------------------------------- times *)
Lemma gamma_stretch k th th' I : 0 < k -> 0 < th -> 0 < th' -> area_right (gamma_shape k th) I ->
  area_right (gamma_shape k th') (Rpower (th' / th) k * I).
Proof.
  intros K T T' (F & D & L). set (c := th / th'). assert (C : 0 < c) by (apply Rdiv_lt_0_compat; auto).
  assert (Ck : Rpower (th' / th) k = Rpower c (- k)).
  { unfold Rpower. f_equal. replace (th' / th) with (/ c) by (unfold c; field; split; lra). rewrite ln_Rinv by auto. ring. }
  rewrite Ck. set (w := Rpower c (- k)). assert (W : 0 < w) by apply exp_pos.
  exists (fun x => w * F (c * x)). split.
  - intros x X. assert (CX : 0 < c * x) by now apply Rmult_lt_0_compat.
    replace (gamma_shape k th' x) with (w * (gamma_shape k th (c * x) * c)).
    + apply derivable_pt_lim_scal. apply (derivable_pt_lim_comp (fun y => c * y) F).
      * pose proof (derivable_pt_lim_scal id c x 1 (derivable_pt_lim_id x)) as H. rewrite Rmult_1_r in H. exact H.
      * now apply D.
    + unfold gamma_shape, w. replace (- (c * x) / th) with (- x / th') by (unfold c; field; split; lra).
      unfold Rpower. rewrite (ln_mult c x) by auto.
      replace ((k - 1) * (ln c + ln x)) with ((k - 1) * ln x + ((k - 1) * ln c)) by ring. rewrite exp_plus.
      replace (exp (- k * ln c) * (exp ((k - 1) * ln x) * exp ((k - 1) * ln c) * exp (- x / th') * c))
        with (exp ((k - 1) * ln x) * exp (- x / th') * (exp (- k * ln c) * exp ((k - 1) * ln c) * c)) by ring.
      assert (Z : exp (- k * ln c) * exp ((k - 1) * ln c) * c = 1).
      { rewrite <- exp_plus. replace (- k * ln c + (k - 1) * ln c) with (- ln c) by ring. rewrite exp_Ropp, exp_ln by auto. field. lra. }
      rewrite Z. ring.
  - intros eps E. destruct (L (eps / w)) as (d & A & Dp & H). { now apply Rdiv_lt_0_compat. }
    exists (d / c), (A / c). split; [now apply Rdiv_lt_0_compat|]. intros a b Ha Hb.
    assert (Ca : 0 < c * a < d).
    { split; [apply Rmult_lt_0_compat; lra|]. replace d with (c * (d / c)) by (field; lra). apply Rmult_lt_compat_l; lra. }
    assert (Cb : A <= c * b) by (replace A with (c * (A / c)) by (field; lra); apply Rmult_le_compat_l; lra).
    specialize (H _ _ Ca Cb). replace (w * F (c * b) - w * F (c * a) - w * I) with (w * (F (c * b) - F (c * a) - I)) by ring.
    rewrite Rabs_mult, (Rabs_pos_eq w) by lra. replace eps with (w * (eps / w)) by (field; lra). apply Rmult_lt_compat_l; auto.
Qed.
Lemma right_minus f g I J : area_right f I -> area_right g J -> area_right (fun x => f x - g x) (I - J).
Proof.
  intros (F & D & L) (G & D' & L'). exists (fun x => F x - G x). split.
  - intros x X. apply (derivable_pt_lim_minus F G); auto.
  - intros eps E. destruct (L (eps / 2) ltac:(lra)) as (d & A & Dp & H). destruct (L' (eps / 2) ltac:(lra)) as (d' & A' & Dp' & H').
    exists (Rmin d d'), (Rmax A A'). split; [now apply Rmin_glb_lt|]. intros a b Ha Hb.
    pose proof (Rmin_l d d'). pose proof (Rmin_r d d'). pose proof (Rmax_l A A'). pose proof (Rmax_r A A').
    specialize (H a b ltac:(lra) ltac:(lra)). specialize (H' a b ltac:(lra) ltac:(lra)).
    apply Rabs_def2 in H, H'. apply Rabs_def1; lra.
Qed.
Lemma gamma_whole k th : 0 < k -> 0 < th -> exists I, 0 < I /\ area_right (gamma_shape k th) I.
Proof. intros K T. destruct (gamma_moments k th K T) as (I & P & A & _). eauto. Qed.
(** The average probability of an event, for a rate with a gamma distribution. *)
Lemma gamma_event k t r : 0 < k -> 0 < t -> 0 < r ->
  averaged area_right (gamma_shape k (/ t)) (some_event r) (1 - Rpower (/ (1 + r / t)) k).
Proof.
  intros K T Rp. pose proof (Rinv_0_lt_compat t T) as T'. assert (S : 0 < / (t + r)) by (apply Rinv_0_lt_compat; lra).
  destruct (gamma_whole k (/ t) K T') as (I & P & A). exists I. split; auto. split; auto.
  pose proof (gamma_stretch k (/ t) (/ (t + r)) I K T' S A) as B.
  replace ((1 - Rpower (/ (1 + r / t)) k) * I) with (I - Rpower (/ (t + r) / / t) k * I).
  2: { replace (/ (t + r) / / t) with (/ (1 + r / t)) by (field; split; lra). ring. }
  eapply right_ext; [|exact (right_minus _ _ _ _ A B)]. intros x X. cbv beta. unfold some_event, gamma_shape.
  replace (- x / / (t + r)) with (- x / / t + - (x * r)) by (field; lra). rewrite exp_plus. ring.
Qed.
Lemma rate_shape s fixed t x : (0 <= s)%Z -> 0 < x -> 0 < t ->
  rate_prior s fixed x * events s t x = gamma_shape (IZR (laplace_power s fixed)) (/ t) x.
Proof.
  intros S X T. unfold rate_prior, events, gamma_shape, laplace_power. rewrite powerRZ_shift by auto.
  replace (- x / / t) with (- (x * t)) by (field; lra).
  assert (M : Rpower x (IZR s - 1) = / x * Rpower x (IZR s)).
  { unfold Rminus. rewrite Rpower_plus, Rpower_Ropp, Rpower_1 by auto. ring. }
  destruct (Z.eqb_spec s 0) as [->|N]; cbn [orb].
  - replace (1 - 1) with 0 by ring. ring.
  - destruct fixed.
    + rewrite plus_IZR. replace (IZR s + 1 - 1) with (IZR s) by ring. ring.
    + rewrite M. ring.
Qed.
Lemma power_form s fixed b : (0 <= s)%Z -> 0 < b -> / b ^ Z.to_nat (laplace_power s fixed) = Rpower (/ b) (IZR (laplace_power s fixed)).
Proof.
  intros S B. assert (L : (1 <= laplace_power s fixed)%Z).
  { unfold laplace_power. destruct (Z.eqb_spec s 0); [lia|]. destruct fixed; lia. }
  rewrite <- pow_inv. rewrite <- Rpower_pow by now apply Rinv_0_lt_compat.
  rewrite INR_IZR_INZ, Z2Nat.id by lia. reflexivity.
Qed.
Lemma times_predict s n t rem fixed : (0 <= s)%Z -> (forall m, n = Some m -> (s <= m)%Z) -> 0 < t ->
  (forall r, rem = Some r -> 0 < r) ->
  exists p, laplace s n (Some t) rem fixed = Ok p /\
    averaged area_right (fun x => rate_prior s fixed x * events s t x) (some_event (match rem with Some x => x | None => 1 end)) p.
Proof.
  intros S N T Rp. rewrite (laplace_timed s n t rem fixed S N T Rp). set (r := match rem with Some x => x | None => 1 end).
  assert (P : 0 < r) by (unfold r; destruct rem; [now apply Rp|lra]).
  assert (B : 0 < 1 + r / t) by (pose proof (Rdiv_lt_0_compat r t P T); lra).
  eexists. split; [reflexivity|]. rewrite power_form by auto.
  assert (K : 0 < IZR (laplace_power s fixed)).
  { apply IZR_lt. unfold laplace_power. destruct (Z.eqb_spec s 0); [lia|]. destruct fixed; lia. }
  destruct (gamma_event _ t r K T P) as (I & PI & A & E). exists I. split; auto. split.
  - eapply right_ext; [|exact A]. intros x X. symmetry. now apply rate_shape.
  - eapply right_ext; [|exact E]. intros x X. cbv beta. now rewrite rate_shape.
Qed.
(** Waiting in two steps; a change of the unit of time. *)
Lemma times_steps s n t r1 r2 fixed p p1 p2 : (0 <= s)%Z -> (forall m, n = Some m -> (s <= m)%Z) -> 0 < t -> 0 < r1 -> 0 < r2 ->
  laplace s n (Some t) (Some (r1 + r2)) fixed = Ok p -> laplace s n (Some t) (Some r1) fixed = Ok p1 ->
  laplace s n (Some (t + r1)) (Some r2) fixed = Ok p2 -> 1 - p = (1 - p1) * (1 - p2).
Proof.
  intros S N T R1 R2. rewrite !laplace_timed by (auto; try lra; intros r E; inversion E; lra). intros E E1 E2. inversion E; inversion E1; inversion E2.
  set (k := Z.to_nat (laplace_power s fixed)).
  replace (1 - (1 - / (1 + (r1 + r2) / t) ^ k)) with (/ (1 + (r1 + r2) / t) ^ k) by ring.
  replace (1 - (1 - / (1 + r1 / t) ^ k)) with (/ (1 + r1 / t) ^ k) by ring.
  replace (1 - (1 - / (1 + r2 / (t + r1)) ^ k)) with (/ (1 + r2 / (t + r1)) ^ k) by ring.
  assert (B1 : 1 + r1 / t <> 0) by (pose proof (Rdiv_lt_0_compat r1 t R1 T); lra).
  assert (B2 : 1 + r2 / (t + r1) <> 0) by (pose proof (Rdiv_lt_0_compat r2 (t + r1) R2 ltac:(lra)); lra).
  rewrite <- Rinv_mult by (apply pow_nonzero; auto) || idtac. rewrite <- Rpow_mult_distr. f_equal. f_equal. field. split; lra.
Qed.
Lemma times_units s n t r c fixed : (0 <= s)%Z -> (forall m, n = Some m -> (s <= m)%Z) -> 0 < t -> 0 < r -> 0 < c ->
  laplace s n (Some (c * t)) (Some (c * r)) fixed = laplace s n (Some t) (Some r) fixed.
Proof.
  intros S N T R0 C. assert (0 < c * t /\ 0 < c * r) as [? ?] by (split; now apply Rmult_lt_0_compat).
  rewrite !laplace_timed by (auto; intros x E; inversion E; lra). replace (c * r / (c * t)) with (r / t) by (field; split; lra). reflexivity.
Qed.
(** Two trials: success then failure is as likely as failure then success. *)
Lemma trials_order s n fixed p q r : (0 <= s <= n)%Z ->
  laplace s (Some n) None None fixed = Ok p -> laplace (s + 1) (Some (n + 1)%Z) None None fixed = Ok q ->
  laplace s (Some (n + 1)%Z) None None fixed = Ok r -> p * (1 - q) = (1 - p) * r.
Proof.
  intros S. rewrite !(fun s n f A B => proj1 (laplace_trials s n f A B)) by lia. intros E1 E2 E3. inversion E1; inversion E2; inversion E3.
  rewrite !plus_IZR. assert (0 <= IZR n) by (apply IZR_le; lia). field. lra.
Qed.
Lemma trials_predict s n fixed : (0 <= s <= n)%Z -> exists p, laplace s (Some n) None None fixed = Ok p /\
  forall m, averaged (area_within 0 1) (trials s n) (fun x => x) m <-> m = p.
Proof.
  intro S. exists (IZR (s + 1) / IZR (n + 2)). split; [apply laplace_trials; lia|]. intro m. split; [|intros ->; now apply trials_mean].
  intro A. eapply averaged_unique; [|exact A|now apply trials_mean]. intros g I J. apply within_unique. lra.
Qed.
Lemma times_predict_iff s n t rem fixed : (0 <= s)%Z -> (forall m, n = Some m -> (s <= m)%Z) -> 0 < t -> (forall r, rem = Some r -> 0 < r) ->
  exists p, laplace s n (Some t) rem fixed = Ok p /\
  forall m, averaged area_right (fun x => rate_prior s fixed x * events s t x) (some_event (match rem with Some x => x | None => 1 end)) m <-> m = p.
Proof.
  intros S N T Rp. destruct (times_predict s n t rem fixed S N T Rp) as (p & E & A). exists p. split; auto. intro m. split; [|now intros ->].
  intro B. eapply averaged_unique; [apply right_unique|exact B|exact A].
Qed.
