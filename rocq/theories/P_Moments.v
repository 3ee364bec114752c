(** Lemmas: mean and variance from densities, and what [update] does to them. *)
From Coq Require Import Reals Lra.
From Verif Require Import Base M_Dists SpecDists SpecNormal SpecMoments P_Gauss P_Normal P_NormalUse P_BetaArea P_Dists P_Update.
Open Scope R_scope.

(* ---------------------------------------------------------------- gamma densities on the log scale *)
Definition lg (k th t : R) : R := exp (k * t - exp t / th).
Lemma lg_pos k th t : 0 < lg k th t. Proof. apply exp_pos. Qed.
Lemma lg_slope k th t : dl (lg k th) t ((k - exp t / th) * lg k th t).
Proof.
  unfold lg. eapply dl_val.
  - apply dl_exp. apply dl_minus; [apply dl_scal, dl_id|].
    apply (dl_ext (fun t => / th * exp t)); [intro; unfold Rdiv; ring|]. apply dl_scal, derivable_pt_lim_exp.
  - unfold Rdiv. dring.
Qed.
Lemma lg_left k th t : 0 < k -> 0 < th -> lg k th t <= 1 * exp (k * t).
Proof. intros K T. rewrite Rmult_1_l. unfold lg. apply exp_le. assert (0 < exp t / th) by (apply Rdiv_lt_0_compat; [apply exp_pos|auto]). lra. Qed.
Lemma lg_right k th t : 0 < k -> 0 < th -> lg k th t <= exp ((k + 1) * (ln ((k + 1) * th) - 1)) * exp (- 1 * t).
Proof.
  intros K T. unfold lg. rewrite <- exp_plus. apply exp_le. assert (Q : 0 < (k + 1) * th) by (apply Rmult_lt_0_compat; lra).
  set (u := ln ((k + 1) * th)). assert (E : exp u = (k + 1) * th) by now apply exp_ln.
  assert (I : (k + 1) * (1 + (t - u)) <= exp t / th).
  { replace t with (u + (t - u)) at 2 by ring. rewrite exp_plus, E. replace ((k + 1) * th * exp (t - u) / th) with ((k + 1) * exp (t - u)) by (field; lra).
    apply Rmult_le_compat_l; [lra|apply exp_ineq1_le]. }
  lra.
Qed.
Lemma lg_continuous k th : continuity (lg k th).
Proof. exact (dl_continuous _ _ (lg_slope k th)). Qed.
Lemma lg_whole k th : 0 < k -> 0 < th -> exists I, 0 < I /\ whole_area (lg k th) I.
Proof.
  intros K T. apply (pos_whole _ (lg_continuous k th) (lg_pos k th) k 1 _ 1 K Rlt_0_1 (fun t => lg_right k th t K T) (fun t => lg_left k th t K T)).
Qed.
Lemma lg_mean k th I : 0 < k -> 0 < th -> whole_area (lg k th) I -> whole_area (fun t => exp t * lg k th t) (k * th * I).
Proof.
  intros K T W. destruct (pos_vanishes _ (lg_pos k th) k 1 _ 1 K Rlt_0_1 (fun t => lg_right k th t K T) (fun t => lg_left k th t K T)) as [V1 V2].
  pose proof (whole_of (lg k th) _ 0 0 0 (lg_slope k th) V1 V2 (Rminus_eq_0 0)) as Z.
  pose proof (whole_plus _ _ _ _ (whole_scal (k * th) _ _ W) (whole_scal (- th) _ _ Z)) as S.
  eapply whole_val; [eapply whole_ext; [|exact S]|ring]. intro t. cbv beta. field. lra.
Qed.
Lemma exp_lg k th t : exp t * lg k th t = lg (k + 1) th t.
Proof. unfold lg. rewrite <- exp_plus. f_equal. ring. Qed.
Lemma from_log g I : whole_area g I -> area_right (fun x => g (ln x) / x) I.
Proof.
  intros (F & D & L). exists (fun x => F (ln x)). split.
  - intros x X. eapply dl_val; [apply (dl_comp F ln); [now apply derivable_pt_lim_ln|apply D]|field; lra].
  - intros eps P. destruct (L eps P) as [T B]. exists (exp (- T)), (exp T). split; [apply exp_pos|].
    intros a b La Lb. apply B.
    + left. rewrite <- (ln_exp (- T)). apply ln_increasing; lra.
    + rewrite <- (ln_exp T). pose proof (exp_pos T). destruct Lb as [Lb| <- ]; [left; now apply ln_increasing|lra].
Qed.
Lemma lg_log k th x : 0 < x -> lg k th (ln x) / x = gamma_shape k th x.
Proof.
  intro X. unfold lg, gamma_shape, Rpower. rewrite exp_ln by auto. replace (k * ln x - x / th) with ((k - 1) * ln x + ln x + - x / th) by (unfold Rdiv; ring).
  rewrite !exp_plus, exp_ln by auto. field. lra.
Qed.
Lemma right_ext f g I : (forall x, 0 < x -> f x = g x) -> area_right f I -> area_right g I.
Proof. intros E (F & D & L). exists F. split; auto. intros x X. rewrite <- E by auto. now apply D. Qed.
Lemma gamma_moments k th : 0 < k -> 0 < th -> mean_var area_right (gamma_shape k th) (fun x => x) (k * th) (k * (th * th)).
Proof.
  intros K T. destruct (lg_whole k th K T) as (I & P & W). exists I. split; auto.
  pose proof (lg_mean k th I K T W) as M1.
  assert (M2 : whole_area (fun t => exp t * (exp t * lg k th t)) ((k + 1) * th * (k * th * I))).
  { eapply whole_ext; [|apply (lg_mean (k + 1) th); [lra|auto|]].
    - intro t. cbv beta. now rewrite (exp_lg k th t).
    - eapply whole_ext; [|exact M1]. intro t. apply exp_lg. }
  repeat split.
  - eapply right_ext; [|apply (from_log _ _ W)]. intros x X. now apply lg_log.
  - eapply right_ext; [|apply (from_log _ _ M1)]. intros x X. cbv beta. rewrite exp_ln, <- lg_log by auto. unfold Rdiv. ring.
  - pose proof (whole_plus _ _ _ _ M2 (whole_plus _ _ _ _ (whole_scal (-2 * (k * th)) _ _ M1) (whole_scal (k * th * (k * th)) _ _ W))) as V.
    apply (whole_val _ _ (k * (th * th) * I)) in V; [|ring].
    eapply right_ext; [|apply (from_log _ _ V)]. intros x X. cbv beta. rewrite exp_ln, <- lg_log by auto. unfold Rdiv. ring.
Qed.

(* ---------------------------------------------------------------- areas are unique *)
Lemma slope_on (S : R -> Prop) F K f : (forall x y z, S x -> S y -> x <= z <= y -> S z) ->
  (forall x, S x -> dl F x (f x)) -> (forall x, S x -> dl K x (f x)) -> forall a b, S a -> S b -> a <= b -> F b - F a = K b - K a.
Proof.
  intros C D E a b A B L. pose proof (mvt_bound (fun x => F x - K x) (fun _ => 0) a b 0) as M.
  assert (M0 : Rabs (F b - K b - (F a - K a)) <= 0).
  { replace 0 with (0 * Rabs (b - a)) by ring. rewrite Rmin_left, Rmax_right in M by auto. apply M; intros c H.
    - assert (S c) by (apply (C a b c); auto). eapply dl_val; [apply dl_minus; [now apply D|now apply E]|ring].
    - rewrite Rabs_R0. lra. }
  pose proof (Rabs_pos (F b - K b - (F a - K a))). destruct (Req_dec (F b - K b - (F a - K a)) 0) as [|N]; [lra|].
  apply Rabs_pos_lt in N. lra.
Qed.
Lemma close_eq I J : (forall eps, 0 < eps -> exists u, Rabs (u - I) < eps /\ Rabs (u - J) < eps) -> I = J.
Proof.
  intro H. destruct (Req_dec I J) as [|N]; auto. exfalso. pose proof (Rabs_pos_lt (I - J) ltac:(lra)) as P.
  destruct (H (Rabs (I - J) / 2)) as (u & A & B); [lra|]. pose proof (Rabs_triang (I - u) (u - J)) as T.
  replace (I - u + (u - J)) with (I - J) in T by ring. rewrite (Rabs_minus_sym I u) in T. lra.
Qed.
Lemma within_unique l r f I J : l < r -> area_within l r f I -> area_within l r f J -> I = J.
Proof.
  intros LR (F & D & L) (K & E & M). apply close_eq. intros eps P. destruct (L eps P) as (d & Pd & A). destruct (M eps P) as (d' & Pd' & B).
  set (w := Rmin (Rmin d d') (r - l)). pose proof (Rmin_l (Rmin d d') (r - l)). pose proof (Rmin_r (Rmin d d') (r - l)).
  pose proof (Rmin_l d d'). pose proof (Rmin_r d d'). assert (W : 0 < w) by (unfold w; repeat apply Rmin_pos; lra). fold w in H, H0.
  exists (F (r - w / 3) - F (l + w / 3)). split; [apply A; lra|].
  rewrite (slope_on (fun x => l < x < r) F K f); auto; [apply B; lra|intros; lra|lra|lra|lra].
Qed.
Lemma right_unique f I J : area_right f I -> area_right f J -> I = J.
Proof.
  intros (F & D & L) (K & E & M). apply close_eq. intros eps P. destruct (L eps P) as (d & A & Pd & B). destruct (M eps P) as (d' & A' & Pd' & B').
  set (w := Rmin d d'). assert (W : 0 < w) by (unfold w; now apply Rmin_pos). pose proof (Rmin_l d d'). pose proof (Rmin_r d d'). fold w in H, H0.
  set (z := Rmax (Rmax A A') w). pose proof (Rmax_l (Rmax A A') w). pose proof (Rmax_r (Rmax A A') w). pose proof (Rmax_l A A'). pose proof (Rmax_r A A'). fold z in H1, H2.
  exists (F z - F (w / 2)). split; [apply B; lra|].
  rewrite (slope_on (fun x => 0 < x) F K f); auto; [apply B'; lra|intros; lra|lra|lra|lra].
Qed.
Lemma mean_var_unique (ar : (R -> R) -> R -> Prop) f q m v m' v' : (forall g I J, ar g I -> ar g J -> I = J) ->
  mean_var ar f q m v -> mean_var ar f q m' v' -> m = m' /\ v = v'.
Proof.
  intros U (I & P & A & B & C) (J & P' & A' & B' & C'). assert (I = J) by exact (U _ _ _ A A'). subst J.
  assert (M : m = m'). { apply Rmult_eq_reg_r with I; [|lra]. exact (U _ _ _ B B'). } subst m'. split; auto.
  apply Rmult_eq_reg_r with I; [|lra]. exact (U _ _ _ C C').
Qed.

(* ---------------------------------------------------------------- the moments *)
Lemma moments_normal mu s m v : moments_of (DNorm (mkNormal (Some mu) (Some s) None None)) m v <-> 0 < s /\ m = mu /\ v = s * s.
Proof.
  cbn [moments_of]. assert (H : 0 < s -> mean_var whole_area (bell mu s) (fun x => x) mu (s * s)).
  { intro S. exists 1. rewrite !Rmult_1_r. split; [lra|]. split; [now apply bell_whole|]. split; [now apply bell_mean|now apply bell_variance]. }
  split.
  - intros [S M]. split; auto. exact (mean_var_unique _ _ _ _ _ _ _ whole_unique M (H S)).
  - intros (S & -> & ->). auto.
Qed.
Lemma moments_lognormal mu s x y m v : moments_of (DLognorm (mkLognormal (Some mu) (Some s) x y None None)) m v <->
  0 < s /\ m = lognormal_mean mu s /\ v = lognormal_var mu s.
Proof.
  cbn [moments_of]. assert (H : 0 < s -> mean_var whole_area (bell mu s) exp (lognormal_mean mu s) (lognormal_var mu s)).
  { intro S. exists 1. rewrite !Rmult_1_r. split; [lra|]. split; [now apply bell_whole|]. now apply exp_mean_var. }
  split.
  - intros [S M]. split; auto. exact (mean_var_unique _ _ _ _ _ _ _ whole_unique M (H S)).
  - intros (S & -> & ->). auto.
Qed.
Lemma moments_beta a b m v : moments_of (DBeta a b) m v <-> 0 < a /\ 0 < b /\ m = a / (a + b) /\ v = a * b / ((a + b) * (a + b) * (a + b + 1)).
Proof.
  cbn [moments_of]. assert (H : 0 < a -> 0 < b -> mean_var (area_within 0 1) (beta_shape a b) (fun x => x) (a / (a + b)) (a * b / ((a + b) * (a + b) * (a + b + 1)))).
  { intros A B. destruct (beta_area a b A B) as (I & P & W0 & W1 & W2). exists I. repeat split; auto.
    eapply within_val; [eapply within_ext; [|apply (within_plus _ _ _ _ _ _ W2 (within_plus _ _ _ _ _ _ (within_scal (-2 * (a / (a + b))) _ _ _ _ W1)
      (within_scal (a / (a + b) * (a / (a + b))) _ _ _ _ W0)))]|].
    - intros x X. cbv beta. ring.
    - field. lra. }
  split.
  - intros (A & B & M). repeat split; auto; eapply (mean_var_unique _ _ _ _ _ _ _ (fun g I J => within_unique 0 1 g I J Rlt_0_1) M (H A B)).
  - intros (A & B & -> & ->). auto.
Qed.
Lemma moments_gamma k th m v : moments_of (DGamma k th None None) m v <-> 0 < k /\ 0 < th /\ m = k * th /\ v = k * (th * th).
Proof.
  cbn [moments_of]. split.
  - intros (K & T & M). repeat split; auto; eapply (mean_var_unique _ _ _ _ _ _ _ right_unique M (gamma_moments k th K T)).
  - intros (K & T & -> & ->). repeat split; auto. now apply gamma_moments.
Qed.

(* ---------------------------------------------------------------- updating *)
Notation N mu s := (DNorm (mkNormal (Some mu) (Some s) None None)).
Lemma normal_shape p m v : moments_of p m v -> (exists mu s, p = DNorm (mkNormal (Some mu) (Some s) None None)) \/
  (exists mu s x y, p = DLognorm (mkLognormal (Some mu) (Some s) x y None None)) \/ (exists a b, p = DBeta a b) \/ (exists k th, p = DGamma k th None None).
Proof.
  destruct p as [[[mu|] [s|] [?|] [?|]]|[[mu|] [s|] ? ? [?|] [?|]]|a b|k th [?|] [?|]|]; cbn; try contradiction; intros _.
  - left. eauto.
  - right; left. eauto.
  - do 2 right; left. eauto.
  - do 3 right. eauto.
Qed.
Lemma update_between ppf p e w d m v m' v' : normals_or_betas p e -> 0 <= w -> moments_of p m v -> moments_of e m' v' -> update ppf p e w = Ok d ->
  exists M V, moments_of d M V /\ Rmin m m' <= M <= Rmax m m'.
Proof.
  intros K W A B U.
  destruct (normal_shape _ _ _ A) as [(mu & s & -> )|[(? & ? & ? & ? & -> )|[(a & b & -> )|(? & ? & -> )]]]; try contradiction;
  destruct (normal_shape _ _ _ B) as [(mu' & s' & -> )|[(? & ? & ? & ? & -> )|[(a' & b' & -> )|(? & ? & -> )]]]; try contradiction.
  - apply moments_normal in A as (S & -> & -> ). apply moments_normal in B as (S' & -> & -> ).
    destruct (normal_update_spec ppf (N mu s) (N mu' s') mu s mu' s' w (conj eq_refl eq_refl) (conj eq_refl eq_refl) S S' W) as (M & Z & E & PZ & Q1 & Q2).
    rewrite E in U. injection U as <-. exists M, (Z * Z). split; [apply moments_normal; auto|]. exact (update_mean_between M Z mu s mu' s' w S S' W PZ Q1 Q2).
  - apply moments_beta in A as (P & Q & -> & _). apply moments_beta in B as (P' & Q' & -> & _). injection U as <-.
    eexists _, _. split; [apply moments_beta; repeat split; lra|]. exact (beta_mean_between a b a' b' P Q P' Q').
Qed.
(** Normal posteriors are at most as wide as the prior, whatever the evidence. *)
Lemma normal_narrows ppf p e w d m v m' v' : 0 <= w -> moments_of (DNorm p) m v -> moments_of (DNorm e) m' v' -> update ppf (DNorm p) (DNorm e) w = Ok d ->
  exists M V, moments_of d M V /\ V <= v.
Proof.
  intros W A B U. destruct (normal_shape _ _ _ A) as [(mu & s & E1)|[(? & ? & ? & ? & ?)|[(? & ? & ?)|(? & ? & ?)]]]; try discriminate. injection E1 as ->.
  destruct (normal_shape _ _ _ B) as [(mu' & s' & E2)|[(? & ? & ? & ? & ?)|[(? & ? & ?)|(? & ? & ?)]]]; try discriminate. injection E2 as ->.
  apply moments_normal in A as (S & -> & -> ). apply moments_normal in B as (S' & -> & -> ).
  destruct (normal_update_spec ppf (N mu s) (N mu' s') mu s mu' s' w (conj eq_refl eq_refl) (conj eq_refl eq_refl) S S' W) as (M & Z & E & PZ & Q1 & Q2).
  rewrite E in U. injection U as <-. exists M, (Z * Z). split; [apply moments_normal; auto|]. pose proof (update_sd_le Z s s' w S S' W PZ Q1). nra.
Qed.
(** Lognormal posteriors of equal prior and evidence have a lower mean. *)
Lemma same_precision s z w : 0 < s -> 0 < z -> precision z = precision s + w * precision s -> z * z * (1 + w) = s * s.
Proof.
  unfold precision. intros S Z E. assert (P : 0 < s * s) by nra. assert (Q : 0 < z * z) by nra.
  assert (I : / (s * s) * (s * s) = 1) by (apply Rinv_l; lra). assert (J : / (z * z) * (z * z) = 1) by (apply Rinv_l; lra).
  rewrite E in J. set (u := / (s * s)) in *. assert (J' : u * ((1 + w) * (z * z)) = 1) by lra.
  apply Rmult_eq_reg_l with u; [lra|]. intro U. rewrite U in I. lra.
Qed.
Lemma lognormal_shrinks ppf mu s x y w : 0 < s -> 0 < w -> let p := DLognorm (mkLognormal (Some mu) (Some s) x y None None) in
  exists d m v M V, update ppf p p w = Ok d /\ moments_of p m v /\ moments_of d M V /\ M < m /\ V < v.
Proof.
  intros S W p. assert (W' : 0 <= w) by lra.
  destruct (lognormal_update_spec ppf p p mu s mu s w (conj eq_refl eq_refl) (conj eq_refl eq_refl) S S W') as (M & Z & E0 & E).
  destruct (normal_update_spec ppf (N mu s) (N mu s) mu s mu s w (conj eq_refl eq_refl) (conj eq_refl eq_refl) S S W') as (M' & Z' & E1 & PZ & Q1 & Q2).
  rewrite E0 in E1. injection E1 as <- <-. assert (EM : M = mu).
  { rewrite Q1 in Q2. assert (0 < precision s) by now apply precision_pos. assert (0 < precision s + w * precision s) by nra.
    apply Rmult_eq_reg_r with (precision s + w * precision s); [rewrite Q2; ring|lra]. }
  subst M. pose proof (same_precision s Z w S PZ Q1) as H. assert (L : Z * Z < s * s) by (assert (0 < Z * Z) by (now apply Rmult_lt_0_compat); nra).
  eexists _, _, _, _, _. split; [exact E|]. split; [apply moments_lognormal; auto|]. split; [apply moments_lognormal; auto|].
  assert (LM : lognormal_mean mu Z < lognormal_mean mu s) by (unfold lognormal_mean; apply exp_increasing; lra).
  split; auto. unfold lognormal_var. pose proof (exp_increasing _ _ L). pose proof (exp_pos (mu + Z * Z / 2)) as P1. fold (lognormal_mean mu Z) in P1.
  assert (1 < exp (Z * Z)) by (rewrite <- exp_0; apply exp_increasing; nra). cbv zeta. apply Rmult_le_0_lt_compat; nra.
Qed.
(** Gamma posteriors of equal prior and evidence have a mean and a variance that grow with
    the weight. *)
Lemma gamma_grows ppf k th w : 0 < k -> 0 < th -> 0 <= w -> let p := DGamma k th None None in
  exists d m v, update ppf p p w = Ok d /\ moments_of p m v /\ moments_of d ((1 + w) * m) ((1 + w) * v) /\ 0 < m /\ 0 < v.
Proof.
  intros K T W p. destruct (gamma_update_spec ppf k th None None k th None None w K T K T W) as (K' & Th & E & EK & P & R). subst K'.
  assert (ET : Th = th).
  { assert (0 < k + w * k) by nra. apply (gamma_unique (k + w * k)); auto. rewrite R. ring. }
  subst Th. exists (DGamma (k + w * k) th None None), (k * th), (k * (th * th)). split; auto. split; [apply moments_gamma; auto|].
  split; [apply moments_gamma; repeat split; auto; nra|]. split; repeat apply Rmult_lt_0_compat; auto.
Qed.
Lemma beta_same ppf a b w m v : moments_of (DBeta a b) m v -> exists d V, update ppf (DBeta a b) (DBeta a b) w = Ok d /\ moments_of d m V /\ V < v.
Proof.
  intros M. apply moments_beta in M as (A & B & -> & -> ). exists (DBeta (a + a) (b + b)).
  eexists. split; [reflexivity|]. split; [apply moments_beta; repeat split; try lra; field; lra|].
  replace ((a + a) * (b + b) / ((a + a + (b + b)) * (a + a + (b + b)) * (a + a + (b + b) + 1))) with (a * b / ((a + b) * (a + b) * (a + b + a + b + 1))) by (field; lra).
  assert (0 < a * b) by now apply Rmult_lt_0_compat. assert (0 < (a + b) * (a + b)) by (apply Rmult_lt_0_compat; lra).
  unfold Rdiv. apply Rmult_lt_compat_l; auto. apply Rinv_lt_contravar; [|nra]. apply Rmult_lt_0_compat; nra.
Qed.
Lemma beta_widens ppf : exists p e d m v m' v' M V, update ppf p e 1 = Ok d /\ moments_of p m v /\ moments_of e m' v' /\ moments_of d M V /\ v < V /\ v' < V.
Proof.
  exists (DBeta 10 1), (DBeta 1 10), (DBeta (10 + 1) (1 + 10)). eexists _, _, _, _, _, _. split; [reflexivity|].
  do 3 (split; [apply moments_beta; repeat split; lra|]). split; lra.
Qed.
