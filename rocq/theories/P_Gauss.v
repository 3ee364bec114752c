(** Lemmas: antiderivatives, and the area under the normal density. *)
From Coq Require Import Reals Lra.
From Verif Require Import SpecNormal.
Open Scope R_scope.

(* ---------------------------------------------------------------- derivatives *)
Notation dl := derivable_pt_lim.
Ltac dring := cbv beta; ring.
Lemma dl_ext f g x l : (forall y, f y = g y) -> dl f x l -> dl g x l.
Proof. intros E D eps P. destruct (D eps P) as [d H]. exists d. intros h H0 H1. rewrite <- !E. now apply H. Qed.
Lemma dl_val f x l l' : dl f x l -> l = l' -> dl f x l'.
Proof. now intros D <-. Qed.
Lemma dl_const c x : dl (fun _ => c) x 0.
Proof. exact (derivable_pt_lim_const c x). Qed.
Lemma dl_id x : dl (fun y => y) x 1.
Proof. exact (derivable_pt_lim_id x). Qed.
Lemma dl_plus f g x a b : dl f x a -> dl g x b -> dl (fun y => f y + g y) x (a + b).
Proof. exact (derivable_pt_lim_plus f g x a b). Qed.
Lemma dl_minus f g x a b : dl f x a -> dl g x b -> dl (fun y => f y - g y) x (a - b).
Proof. exact (derivable_pt_lim_minus f g x a b). Qed.
Lemma dl_mult f g x a b : dl f x a -> dl g x b -> dl (fun y => f y * g y) x (a * g x + f x * b).
Proof. exact (derivable_pt_lim_mult f g x a b). Qed.
Lemma dl_scal c f x a : dl f x a -> dl (fun y => c * f y) x (c * a).
Proof. exact (derivable_pt_lim_scal f c x a). Qed.
Lemma dl_exp f x a : dl f x a -> dl (fun y => exp (f y)) x (exp (f x) * a).
Proof. intro D. exact (derivable_pt_lim_comp f exp x _ _ D (derivable_pt_lim_exp (f x))). Qed.
Lemma dl_comp g f x a b : dl f x a -> dl g (f x) b -> dl (fun y => g (f y)) x (b * a).
Proof. intros D E. exact (derivable_pt_lim_comp f g x _ _ D E). Qed.
(** Only the function nearby counts. *)
Lemma dl_local f g x l d : 0 < d -> (forall y, Rabs (y - x) < d -> f y = g y) -> dl f x l -> dl g x l.
Proof.
  intros P E D eps Q. destruct (D eps Q) as [d' H]. assert (M : 0 < Rmin d d') by (apply Rmin_pos; [auto|apply cond_pos]).
  exists (mkposreal _ M). intros h H0 H1. cbn in H1. rewrite <- !E; [apply H; auto| |].
  - eapply Rlt_le_trans; [exact H1|apply Rmin_r].
  - rewrite Rminus_eq_0, Rabs_R0. exact P.
  - replace (x + h - x) with h by ring. eapply Rlt_le_trans; [exact H1|apply Rmin_l].
Qed.
Lemma dl_continuous f f' : (forall x, dl f x (f' x)) -> continuity f.
Proof. intros D x. apply derivable_continuous_pt. exists (f' x). apply D. Qed.

(** Mean values. *)
Lemma mvt_bound f f' a b C : (forall c, Rmin a b <= c <= Rmax a b -> dl f c (f' c)) ->
  (forall c, Rmin a b <= c <= Rmax a b -> Rabs (f' c) <= C) -> Rabs (f b - f a) <= C * Rabs (b - a).
Proof.
  intros D B. destruct (Rtotal_order a b) as [L|[->|L]].
  - rewrite Rmin_left, Rmax_right in * by lra. destruct (MVT_cor2 f f' a b L D) as (c & -> & Hc).
    rewrite Rabs_mult. apply Rmult_le_compat_r; [apply Rabs_pos|apply B; lra].
  - rewrite !Rminus_eq_0, Rabs_R0. lra.
  - rewrite Rmin_right, Rmax_left in * by lra. destruct (MVT_cor2 f f' b a L D) as (c & E & Hc).
    rewrite <- Rabs_Ropp, Ropp_minus_distr, E, Rabs_mult, (Rabs_minus_sym a b). apply Rmult_le_compat_r; [apply Rabs_pos|apply B; lra].
Qed.
Lemma same_slope f g h : (forall x, dl f x (h x)) -> (forall x, dl g x (h x)) -> forall a b, f b - f a = g b - g a.
Proof.
  intros F H a b. pose proof (mvt_bound (fun x => f x - g x) (fun _ => 0) a b 0) as B.
  assert (E : Rabs (f b - g b - (f a - g a)) <= 0).
  { replace 0 with (0 * Rabs (b - a)) by ring. apply B; intros.
    - eapply dl_val; [apply dl_minus; [apply F|apply H]|ring].
    - rewrite Rabs_R0. lra. }
  pose proof (Rabs_pos (f b - g b - (f a - g a))). destruct (Req_dec (f b - g b - (f a - g a)) 0) as [|N]; [lra|].
  apply Rabs_pos_lt in N. lra.
Qed.
(** Functions with a positive slope rise. *)
Lemma rising f f' a b : (forall x, dl f x (f' x)) -> (forall x, 0 < f' x) -> a < b -> f a < f b.
Proof. intros D P L. destruct (MVT_cor2 f f' a b L) as (c & E & _); [auto|]. specialize (P c). nra. Qed.
Lemma not_falling f f' a b : (forall x, dl f x (f' x)) -> (forall x, a <= x <= b -> 0 <= f' x) -> a <= b -> f a <= f b.
Proof.
  intros D P L. destruct (Rle_lt_or_eq_dec _ _ L) as [L'| -> ]; [|lra].
  destruct (MVT_cor2 f f' a b L') as (c & E & Hc); [auto|]. specialize (P c ltac:(lra)). nra.
Qed.

(** Continuous functions have antiderivatives. *)
Section Anti.
  Variable f : R -> R. Hypothesis C : continuity f.
  Lemma anti_on n : 0 <= n -> {g | forall x, - n <= x <= n -> dl g x (f x)}.
  Proof.
    intro N. assert (h : - n <= n) by lra. exists (primitive h (FTC_P1 h (fun x _ => C x))). intros x H. now apply RiemannInt_P28.
  Qed.
  Lemma absn x : 0 <= Rabs x + 1. Proof. pose proof (Rabs_pos x). lra. Qed.
  Definition anti_upto n (N : 0 <= n) (x : R) : R := let g := proj1_sig (anti_on n N) in g x - g 0.
  Definition anti (x : R) : R := anti_upto (Rabs x + 1) (absn x) x.
  Lemma anti_agree n m N M x : Rabs x <= n -> Rabs x <= m -> anti_upto n N x = anti_upto m M x.
  Proof.
    intros Hn Hm. unfold anti_upto. destruct (anti_on n N) as [g G]. destruct (anti_on m M) as [k K]. cbn [proj1_sig].
    pose proof (mvt_bound (fun x => g x - k x) (fun _ => 0) 0 x 0) as B.
    assert (R1 : forall c, Rmin 0 x <= c <= Rmax 0 x -> - Rabs x <= c <= Rabs x).
    { intros c H. unfold Rmin, Rmax, Rabs in *. destruct (Rle_dec 0 x), (Rcase_abs x); lra. }
    assert (E : Rabs (g x - k x - (g 0 - k 0)) <= 0).
    { replace 0 with (0 * Rabs (x - 0)) at 3 by ring. apply B; intros c H; apply R1 in H.
      - eapply dl_val; [apply dl_minus; [apply G; lra|apply K; lra]|ring].
      - rewrite Rabs_R0. lra. }
    pose proof (Rabs_pos (g x - k x - (g 0 - k 0))). destruct (Req_dec (g x - k x - (g 0 - k 0)) 0) as [|Z]; [lra|].
    apply Rabs_pos_lt in Z. lra.
  Qed.
  Lemma anti_slope x : dl anti x (f x).
  Proof.
    assert (M : 0 <= Rabs x + 2) by (pose proof (Rabs_pos x); lra).
    apply (dl_local (anti_upto _ M) anti x _ 1); [lra| |].
    - intros y Y. unfold anti. apply anti_agree; [|lra]. pose proof (Rabs_triang (y - x) x) as T. replace (y - x + x) with y in T by ring. lra.
    - unfold anti_upto. destruct (anti_on _ M) as [g G]. cbn [proj1_sig].
      eapply dl_val; [apply dl_minus; [apply G|apply dl_const]|ring]. unfold Rabs. destruct (Rcase_abs x); lra.
  Qed.
  Lemma anti_0 : anti 0 = 0.
  Proof. unfold anti, anti_upto. ring. Qed.
End Anti.

(* ---------------------------------------------------------------- the Gaussian integral *)
Definition gauss (t : R) : R := exp (- (t * t)).
Lemma gauss_slope x : dl gauss x (- 2 * x * gauss x).
Proof.
  unfold gauss. eapply dl_val.
  - apply (dl_exp (fun y => - (y * y))). apply (dl_ext (fun y => -1 * (y * y))); [intro; ring|]. apply dl_scal, dl_mult; apply dl_id.
  - dring.
Qed.
Definition G : R -> R := anti gauss (dl_continuous _ _ gauss_slope).
Lemma G_slope x : dl G x (gauss x). Proof. apply anti_slope. Qed.
Lemma G_0 : G 0 = 0. Proof. apply anti_0. Qed.

Lemma q_pos t : 1 <= 1 + t * t. Proof. pose proof (Rle_0_sqr t) as H. unfold Rsqr in H. lra. Qed.
Definition slice (x t : R) : R := exp (- (x * x) * (1 + t * t)) / (1 + t * t).
Lemma q_slope t : dl (fun t => 1 + t * t) t (2 * t).
Proof. eapply dl_val; [apply dl_plus; [apply dl_const|apply dl_mult; apply dl_id]|dring]. Qed.
Lemma slice_continuous x : continuity (slice x).
Proof.
  intro t. apply (continuity_pt_div (fun t => exp (- (x * x) * (1 + t * t))) (fun t => 1 + t * t)).
  - apply derivable_continuous_pt. eexists. apply (dl_exp (fun t => - (x * x) * (1 + t * t))), dl_scal, q_slope.
  - apply derivable_continuous_pt. eexists. apply q_slope.
  - pose proof (q_pos t). lra.
Qed.
Definition A (x : R) : R -> R := anti (slice x) (slice_continuous x).
Lemma A_slope x t : dl (A x) t (slice x t). Proof. apply anti_slope. Qed.
Lemma A_0 x : A x 0 = 0. Proof. apply anti_0. Qed.

(** The slices change smoothly with [x]. *)
Section Slice.
  Variable q : R. Hypothesis Q : 1 <= q.
  Let phi y := exp (- (y * y) * q) / q.
  Let phi1 y := -2 * y * exp (- (y * y) * q).
  Let phi2 y := (4 * (y * y * q) - 2) * exp (- (y * y) * q).
  Lemma ex_slope y : dl (fun y => exp (- (y * y) * q)) y (-2 * y * q * exp (- (y * y) * q)).
  Proof.
    eapply dl_val.
    - apply (dl_exp (fun y => - (y * y) * q)). apply (dl_ext (fun y => (- q) * (y * y))); [intro; ring|]. apply dl_scal, dl_mult; apply dl_id.
    - dring.
  Qed.
  Lemma phi_slope y : dl phi y (phi1 y).
  Proof.
    unfold phi, phi1. apply (dl_ext (fun y => / q * exp (- (y * y) * q))); [intro; unfold Rdiv; ring|].
    eapply dl_val; [apply dl_scal, ex_slope|]. field. lra.
  Qed.
  Lemma phi1_slope y : dl phi1 y (phi2 y).
  Proof.
    unfold phi1, phi2. eapply dl_val; [apply (dl_mult (fun y => -2 * y)); [apply dl_scal, dl_id|apply ex_slope]|]. dring.
  Qed.
  Lemma phi2_bound y : Rabs (phi2 y) <= 6.
  Proof.
    unfold phi2. set (u := y * y * q). replace (- (y * y) * q) with (- u) by (unfold u; ring).
    assert (U : 0 <= u) by (unfold u; apply Rmult_le_pos; [apply Rle_0_sqr|lra]).
    assert (E : exp (- u) * exp u = 1) by (rewrite <- exp_plus, Rplus_opp_l; apply exp_0).
    pose proof (exp_ineq1_le u) as I. pose proof (exp_pos (- u)) as P.
    assert (E1 : exp (- u) <= 1) by nra. assert (E2 : u * exp (- u) <= 1) by nra. assert (0 <= u * exp (- u)) by nra.
    apply Rabs_le. split; nra.
  Qed.
  Lemma phi_taylor x h : Rabs (phi (x + h) - phi x - h * phi1 x) <= 6 * (h * h).
  Proof.
    pose proof (mvt_bound (fun y => phi y - (y - x) * phi1 x) (fun y => phi1 y - phi1 x) x (x + h) (6 * Rabs h)) as B. cbv beta in B.
    replace (phi (x + h) - phi x - h * phi1 x) with (phi (x + h) - (x + h - x) * phi1 x - (phi x - (x - x) * phi1 x)) by ring.
    replace (6 * (h * h)) with (6 * Rabs h * Rabs (x + h - x)).
    2:{ replace (x + h - x) with h by ring. rewrite Rmult_assoc, <- Rabs_mult, Rabs_pos_eq; [auto|apply Rle_0_sqr]. }
    apply B; intros c H.
    - apply dl_minus; [apply phi_slope|]. apply (dl_ext (fun y => phi1 x * (y - x))); [intro; ring|].
      eapply dl_val; [apply dl_scal, dl_minus; [apply dl_id|apply dl_const]|dring].
    - eapply Rle_trans; [apply (mvt_bound phi1 phi2 x c 6)|].
      + intros; apply phi1_slope.
      + intros; apply phi2_bound.
      + apply Rmult_le_compat_l; [lra|]. unfold Rmin, Rmax, Rabs in *. destruct (Rle_dec x (x + h)), (Rcase_abs (c - x)), (Rcase_abs h); lra.
  Qed.
End Slice.
Definition H (x : R) : R := A x 1.
Lemma H_slope x : dl H x (- 2 * gauss x * G x).
Proof.
  assert (T : forall h, Rabs (H (x + h) - H x - h * (- 2 * gauss x * G x)) <= 6 * (h * h)).
  { intro h. set (B := fun t => - 2 * gauss x * G (x * t)).
    pose proof (mvt_bound (fun t => A (x + h) t - A x t - h * B t) (fun t => slice (x + h) t - slice x t - h * (-2 * x * exp (- (x * x) * (1 + t * t)))) 0 1 (6 * (h * h))) as M.
    cbv beta in M. unfold B in M. rewrite Rmult_0_r, Rmult_1_r, G_0, !A_0 in M. unfold H.
    replace (A (x + h) 1 - A x 1 - h * (-2 * gauss x * G x)) with (A (x + h) 1 - A x 1 - h * (-2 * gauss x * G x) - (0 - 0 - h * (-2 * gauss x * 0))) by ring.
    eapply Rle_trans; [apply M; intros c K|].
    - apply dl_minus; [apply dl_minus; apply A_slope|]. apply dl_scal.
      eapply dl_val; [apply dl_scal, (dl_comp G (fun t => x * t)); [apply dl_scal, dl_id|apply G_slope]|].
      unfold gauss. replace (- (x * x) * (1 + c * c)) with (- (x * x) + - (x * c * (x * c))) by ring. rewrite exp_plus. dring.
    - apply (phi_taylor (1 + c * c) (q_pos c)).
    - rewrite Rminus_0_r, Rabs_R1. lra. }
  intros eps E. assert (D : 0 < eps / 6) by lra. exists (mkposreal _ D). intros h N L. cbn in L.
  replace ((H (x + h) - H x) / h - -2 * gauss x * G x) with ((H (x + h) - H x - h * (-2 * gauss x * G x)) / h) by (field; auto).
  unfold Rdiv. rewrite Rabs_mult, Rabs_inv. pose proof (Rabs_pos_lt h N) as P.
  apply Rle_lt_trans with (6 * (h * h) * / Rabs h).
  - apply Rmult_le_compat_r; [left; now apply Rinv_0_lt_compat|apply T].
  - replace (h * h) with (Rabs h * Rabs h) by (rewrite <- Rabs_mult; apply Rabs_pos_eq, Rle_0_sqr).
    replace (6 * (Rabs h * Rabs h) * / Rabs h) with (6 * Rabs h) by (field; lra). lra.
Qed.
Lemma slice_0 t : slice 0 t = / (1 + t ^ 2).
Proof.
  unfold slice. replace (- (0 * 0) * (1 + t * t)) with 0 by ring. rewrite exp_0. replace (t ^ 2) with (t * t) by ring. unfold Rdiv. ring.
Qed.
Lemma H_0 : H 0 = PI / 4.
Proof.
  unfold H. pose proof (same_slope (A 0) atan (slice 0) (A_slope 0)) as E.
  replace (A 0 1) with (A 0 1 - A 0 0) by (rewrite A_0; ring). rewrite E.
  - rewrite atan_0, atan_1. ring.
  - intro t. rewrite slice_0. apply derivable_pt_lim_atan.
Qed.
Lemma G_H x : G x * G x + H x = PI / 4.
Proof.
  assert (E : G x * G x + H x - (G 0 * G 0 + H 0) = 0 - 0); [|rewrite G_0, H_0 in E; lra].
  apply (same_slope (fun x => G x * G x + H x) (fun _ => 0) (fun _ => 0)); [|intro; apply dl_const]. intro y. eapply dl_val; [apply dl_plus; [apply dl_mult; apply G_slope|apply H_slope]|]. dring.
Qed.
Lemma H_range x : 0 <= H x <= gauss x.
Proof.
  assert (S : forall t, 0 <= slice x t <= gauss x).
  { intro t. unfold slice, gauss. pose proof (q_pos t) as Q. pose proof (exp_pos (- (x * x) * (1 + t * t))) as P. split.
    - left. apply Rdiv_lt_0_compat; lra.
    - apply Rle_trans with (exp (- (x * x) * (1 + t * t))).
      + unfold Rdiv. rewrite <- (Rmult_1_r (exp (- (x * x) * (1 + t * t)))) at 2. apply Rmult_le_compat_l; [lra|].
        rewrite <- Rinv_1. apply Rinv_le_contravar; lra.
      + assert (E : - (x * x) * (1 + t * t) <= - (x * x)) by (pose proof (Rle_0_sqr x) as X; unfold Rsqr in X; nra).
        destruct E as [E|E]; [left; now apply exp_increasing|rewrite E; apply Rle_refl]. }
  unfold H. split.
  - rewrite <- (A_0 x). apply (not_falling (A x) (slice x)); [apply A_slope|intros; apply S|lra].
  - pose proof (mvt_bound (A x) (slice x) 0 1 (gauss x)) as B. rewrite A_0, !Rminus_0_r, Rabs_R1, Rmult_1_r in B.
    eapply Rle_trans; [apply Rle_abs|]. apply B; intros.
    + apply A_slope.
    + destruct (S c). rewrite Rabs_pos_eq; auto.
Qed.
Lemma G_pos x : 0 <= x -> 0 <= G x.
Proof. intro L. rewrite <- G_0. apply (not_falling G gauss); [apply G_slope|intros; left; apply exp_pos|auto]. Qed.
Lemma G_odd x : G (- x) = - G x.
Proof.
  assert (E : - G (- x) - - G (- 0) = G x - G 0); [|rewrite Ropp_0, G_0 in E; lra].
  apply (same_slope (fun y => - G (- y)) G gauss); [|apply G_slope].
  intro y. apply (dl_ext (fun y => -1 * G (-1 * y))); [intro z; replace (-1 * z) with (- z) by ring; ring|].
  eapply dl_val; [apply dl_scal, (dl_comp G (fun y => -1 * y)); [apply dl_scal, dl_id|apply G_slope]|]. unfold gauss.
  replace (- (-1 * y * (-1 * y))) with (- (y * y)) by ring. ring.
Qed.
Lemma PI_ge_1 : 1 <= PI. Proof. pose proof PI2_3_2. lra. Qed.
Definition root : R := sqrt PI.
Lemma root_sqr : root * root = PI. Proof. apply sqrt_sqrt. pose proof PI_ge_1. lra. Qed.
Lemma root_ge_1 : 1 <= root. Proof. unfold root. rewrite <- sqrt_1. apply sqrt_le_1_alt, PI_ge_1. Qed.
(** The tail of the Gaussian integral. *)
Lemma G_tail x : 0 <= x -> Rabs (G x - root / 2) <= 2 * gauss x.
Proof.
  intro X. pose proof (G_pos x X) as P. pose proof (G_H x) as E. pose proof (H_range x) as R. pose proof root_sqr as S. pose proof root_ge_1 as L.
  assert (F : (root / 2 - G x) * (root / 2 + G x) = H x) by nra.
  assert (0 <= root / 2 - G x) by (destruct (Rle_lt_dec 0 (root / 2 - G x)); auto; nra).
  rewrite Rabs_minus_sym, Rabs_pos_eq by auto. nra.
Qed.

(* ---------------------------------------------------------------- limits *)
Definition tends (f : R -> R) (l : R) : Prop := forall eps, 0 < eps -> exists A, forall x, A <= x -> Rabs (f x - l) < eps.
Lemma tends_ext f g l : (forall x, f x = g x) -> tends f l -> tends g l.
Proof. intros E T eps P. destruct (T eps P) as [A0 B]. exists A0. intros. rewrite <- E. now apply B. Qed.
Lemma tends_val f l l' : tends f l -> l = l' -> tends f l'.
Proof. now intros T <-. Qed.
Lemma tends_const c : tends (fun _ => c) c.
Proof. intros eps P. exists 0. intros. rewrite Rminus_eq_0, Rabs_R0. exact P. Qed.
Lemma tends_plus f g a b : tends f a -> tends g b -> tends (fun x => f x + g x) (a + b).
Proof.
  intros F K eps P. destruct (F (eps / 2)) as [A0 B]; [lra|]. destruct (K (eps / 2)) as [A1 C]; [lra|]. exists (Rmax A0 A1). intros x L.
  specialize (B x (Rle_trans _ _ _ (Rmax_l _ _) L)). specialize (C x (Rle_trans _ _ _ (Rmax_r _ _) L)).
  replace (f x + g x - (a + b)) with ((f x - a) + (g x - b)) by ring. eapply Rle_lt_trans; [apply Rabs_triang|]. lra.
Qed.
Lemma tends_scal c f a : tends f a -> tends (fun x => c * f x) (c * a).
Proof.
  intros F eps P. pose proof (Rabs_pos c) as C. destruct (F (eps / (Rabs c + 1))) as [A0 B]; [apply Rdiv_lt_0_compat; lra|]. exists A0. intros x L.
  specialize (B x L). rewrite <- Rmult_minus_distr_l, Rabs_mult. pose proof (Rabs_pos (f x - a)).
  apply Rmult_lt_compat_r with (r := Rabs c + 1) in B; [|lra]. unfold Rdiv in B. rewrite Rmult_assoc, Rinv_l in B by lra. nra.
Qed.
(** Along a rising line. *)
Lemma tends_line f a k m : 0 < k -> tends f a -> tends (fun x => f (k * x + m)) a.
Proof.
  intros K F eps P. destruct (F eps P) as [A0 B]. exists ((A0 - m) / k). intros x L. apply B.
  apply Rmult_le_compat_l with (r := k) in L; [|lra]. replace (k * ((A0 - m) / k)) with (A0 - m) in L by (field; lra). lra.
Qed.
Lemma tends_unique f a b : tends f a -> tends f b -> a = b.
Proof.
  intros F K. destruct (Req_dec a b) as [|N]; auto. exfalso. pose proof (Rabs_pos_lt (a - b) ltac:(lra)) as P.
  destruct (F (Rabs (a - b) / 2)) as [A0 B]; [lra|]. destruct (K (Rabs (a - b) / 2)) as [A1 C]; [lra|].
  specialize (B (Rmax A0 A1) (Rmax_l _ _)). specialize (C (Rmax A0 A1) (Rmax_r _ _)). set (y := f (Rmax A0 A1)) in *.
  pose proof (Rabs_triang (a - y) (y - b)) as T. replace (a - y + (y - b)) with (a - b) in T by ring. rewrite (Rabs_minus_sym a y) in T. lra.
Qed.
Lemma gauss_small x : 0 < x -> gauss x <= / x /\ x * gauss x <= / x.
Proof.
  intro P. unfold gauss. set (u := x * x). assert (U : u = x * x) by reflexivity.
  assert (E : exp (- u) * exp u = 1) by (rewrite <- exp_plus, Rplus_opp_l; apply exp_0).
  pose proof (exp_ineq1_le u) as I. pose proof (exp_pos (- u)) as Q.
  assert (B : exp (- u) * (1 + u) <= 1) by nra. assert (V : x * / x = 1) by (apply Rinv_r; lra).
  assert (0 < / x) by now apply Rinv_0_lt_compat.
  assert (B1 : x * exp (- u) <= 1) by nra. assert (B2 : x * (x * exp (- u)) <= 1) by nra. split.
  - apply Rmult_le_reg_l with x; auto. lra.
  - apply Rmult_le_reg_l with x; auto. lra.
Qed.
Lemma inv_tends : tends Rinv 0.
Proof.
  intros eps P. exists (/ eps + 1). intros x L. pose proof (Rinv_0_lt_compat _ P). rewrite Rminus_0_r, Rabs_pos_eq by (left; apply Rinv_0_lt_compat; lra).
  apply Rmult_lt_reg_l with x; [lra|]. rewrite Rinv_r by lra. assert (eps * / eps = 1) by (apply Rinv_r; lra). nra.
Qed.
Lemma tends_squeeze f l : tends (fun x => f x) 0 -> (forall g, (forall x, 0 < x -> Rabs (g x - l) <= f x) -> tends g l).
Proof.
  intros F g B eps P. destruct (F eps P) as [A0 C]. exists (Rmax A0 1). intros x L.
  specialize (C x (Rle_trans _ _ _ (Rmax_l _ _) L)). assert (X : 0 < x) by (pose proof (Rle_trans _ _ _ (Rmax_r _ _) L); lra). specialize (B x X).
  rewrite Rminus_0_r in C. pose proof (Rle_abs (f x)). lra.
Qed.
Lemma gauss_tends : tends gauss 0.
Proof.
  apply (tends_squeeze Rinv 0 inv_tends). intros x X. destruct (gauss_small x X). rewrite Rminus_0_r, Rabs_pos_eq; auto. left; apply exp_pos.
Qed.
Lemma xgauss_tends : tends (fun x => x * gauss x) 0.
Proof.
  apply (tends_squeeze Rinv 0 inv_tends). intros x X. destruct (gauss_small x X). rewrite Rminus_0_r, Rabs_pos_eq; auto.
  apply Rmult_le_pos; [lra|]. left; apply exp_pos.
Qed.
Lemma G_tends : tends G (root / 2).
Proof.
  apply (tends_squeeze (fun x => 2 * gauss x)).
  - rewrite <- (Rmult_0_r 2). apply tends_scal, gauss_tends.
  - intros x X. apply G_tail. lra.
Qed.

(* ---------------------------------------------------------------- whole areas *)
Lemma whole_of F f p q I : (forall x, dl F x (f x)) -> tends F p -> tends (fun x => F (- x)) q -> p - q = I -> whole_area f I.
Proof.
  intros D P Q E. exists F. split; auto. intros eps L. destruct (P (eps / 2)) as [A0 B]; [lra|]. destruct (Q (eps / 2)) as [A1 C]; [lra|].
  exists (Rmax A0 A1). intros a b La Lb.
  specialize (B b (Rle_trans _ _ _ (Rmax_l _ _) Lb)). assert (L1 : A1 <= - a) by (pose proof (Rmax_r A0 A1); lra). specialize (C (- a) L1).
  rewrite Ropp_involutive in C. replace (F b - F a - I) with ((F b - p) + - (F a - q)) by (rewrite <- E; ring).
  eapply Rle_lt_trans; [apply Rabs_triang|]. rewrite Rabs_Ropp. lra.
Qed.
Lemma whole_ext f g I : (forall x, f x = g x) -> whole_area f I -> whole_area g I.
Proof. intros E (F & D & L). exists F. split; auto. intro x. rewrite <- E. apply D. Qed.
Lemma whole_val f I J : whole_area f I -> I = J -> whole_area f J.
Proof. now intros W <-. Qed.
Lemma whole_scal c f I : whole_area f I -> whole_area (fun x => c * f x) (c * I).
Proof.
  intros (F & D & L). exists (fun x => c * F x). split; [intro; now apply dl_scal|]. intros eps P. pose proof (Rabs_pos c) as C.
  destruct (L (eps / (Rabs c + 1))) as [A0 B]; [apply Rdiv_lt_0_compat; lra|]. exists A0. intros a b La Lb. specialize (B a b La Lb).
  replace (c * F b - c * F a - c * I) with (c * (F b - F a - I)) by ring. rewrite Rabs_mult. pose proof (Rabs_pos (F b - F a - I)).
  apply Rmult_lt_compat_r with (r := Rabs c + 1) in B; [|lra]. unfold Rdiv in B. rewrite Rmult_assoc, Rinv_l in B by lra. nra.
Qed.
Lemma whole_plus f g I J : whole_area f I -> whole_area g J -> whole_area (fun x => f x + g x) (I + J).
Proof.
  intros (F & D & L) (K & E & M). exists (fun x => F x + K x). split; [intro; now apply dl_plus|]. intros eps P.
  destruct (L (eps / 2)) as [A0 B]; [lra|]. destruct (M (eps / 2)) as [A1 C]; [lra|]. exists (Rmax A0 A1). intros a b La Lb.
  specialize (B a b). specialize (C a b). pose proof (Rmax_l A0 A1). pose proof (Rmax_r A0 A1).
  replace (F b + K b - (F a + K a) - (I + J)) with ((F b - F a - I) + (K b - K a - J)) by ring.
  eapply Rle_lt_trans; [apply Rabs_triang|]. specialize (B ltac:(lra) ltac:(lra)). specialize (C ltac:(lra) ltac:(lra)). lra.
Qed.
Lemma whole_unique f I J : whole_area f I -> whole_area f J -> I = J.
Proof.
  intros (F & D & L) (K & E & M). destruct (Req_dec I J) as [|N]; auto. exfalso. pose proof (Rabs_pos_lt (I - J) ltac:(lra)) as P.
  destruct (L (Rabs (I - J) / 2)) as [A0 B]; [lra|]. destruct (M (Rabs (I - J) / 2)) as [A1 C]; [lra|].
  set (X := Rmax A0 A1). pose proof (Rmax_l A0 A1). pose proof (Rmax_r A0 A1). fold X in H0, H1.
  specialize (B (- X) X ltac:(lra) ltac:(lra)). specialize (C (- X) X ltac:(lra) ltac:(lra)).
  rewrite (same_slope K F f E D (- X) X) in C. set (y := F X - F (- X)) in *.
  pose proof (Rabs_triang (I - y) (y - J)) as T. replace (I - y + (y - J)) with (I - J) in T by ring. rewrite (Rabs_minus_sym I y) in T. lra.
Qed.
