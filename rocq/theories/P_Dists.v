(** Lemmas about distribution parameters. *)
From Coq Require Import Reals Lra.
From Verif Require Import Base M_Dists SpecDists.
Open Scope R_scope.

Lemma sqr_pos s : 0 < s -> 0 < Rsqr s.
Proof. intros. apply Rlt_0_sqr. lra. Qed.

(** * Credible intervals *)
Section Interval.
  Variables Phi ppf : R -> R.
  Hypothesis NQ : normal_quantile Phi ppf.

  Lemma phi_half : Phi 0 = 1 / 2.
  Proof. pose proof (nq_symmetric _ _ NQ 0) as H. rewrite Ropp_0 in H. lra. Qed.

  Lemma quantile_pos p : 1 / 2 < p -> p < 1 -> 0 < ppf p.
  Proof.
    intros H1 H2. destruct (Rlt_dec 0 (ppf p)) as [|N]; auto. exfalso.
    pose proof (nq_inverse _ _ NQ p ltac:(lra) H2) as E. pose proof phi_half as Hf.
    destruct (Req_EM_T (ppf p) 0) as [Z|Z]; [rewrite Z in E; lra|].
    pose proof (nq_increasing _ _ NQ (ppf p) 0 ltac:(lra)). lra.
  Qed.

  Lemma cdf_value_eq c : cdf_value c = 1 / 2 + c / 200.
  Proof. unfold cdf_value. lra. Qed.

  Lemma interval c x y : 0 < c -> c < 100 -> x < y ->
    let m := (x + y) / 2 in
    let s := (y - m) / ppf (cdf_value c) in
    0 < s /\ Phi ((x - m) / s) = 1 / 2 - c / 200 /\ Phi ((y - m) / s) = 1 / 2 + c / 200.
  Proof.
    intros C1 C2 L m s. assert (Z : 0 < ppf (cdf_value c)) by (apply quantile_pos; rewrite cdf_value_eq; lra).
    assert (S : 0 < s) by (unfold s, m; apply Rdiv_lt_0_compat; lra). split; auto.
    assert (Ey : (y - m) / s = ppf (cdf_value c)) by (unfold s, m; field; split; lra).
    assert (Ex : (x - m) / s = - ppf (cdf_value c)) by (unfold s, m; field; split; lra).
    assert (P : Phi (ppf (cdf_value c)) = cdf_value c) by (apply (nq_inverse _ _ NQ); rewrite cdf_value_eq; lra).
    rewrite Ey, Ex, (nq_symmetric _ _ NQ), P, cdf_value_eq. split; lra.
  Qed.
End Interval.

Ltac cases :=
  repeat match goal with
  | |- context [if Rlt_dec ?a ?b then _ else _] => destruct (Rlt_dec a b)
  | |- context [if Rle_dec ?a ?b then _ else _] => destruct (Rle_dec a b)
  | |- context [if Req_EM_T ?a ?b then _ else _] => destruct (Req_EM_T a b)
  end.

(** * norm *)
Lemma norm_interval Phi ppf c x y lc rc : normal_quantile Phi ppf -> 0 < c -> c < 100 -> x < y ->
  exists m s, norm ppf (Some x) (Some y) None None c lc rc = Ok (mkNormal (Some m) (Some s) lc rc) /\
    m = (x + y) / 2 /\ 0 < s /\
    normal_cdf Phi m s x = 1 / 2 - c / 200 /\ normal_cdf Phi m s y = 1 / 2 + c / 200.
Proof.
  intros NQ C1 C2 L. unfold norm. simpl. cases; [lra|]. simpl. do 2 eexists. split; [reflexivity|]. split; [reflexivity|].
  exact (interval Phi ppf NQ c x y C1 C2 L).
Qed.

Lemma norm_degenerate ppf c x lc rc : 
  norm ppf (Some x) (Some x) None None c lc rc = Ok (mkNormal (Some x) (Some 0) lc rc).
Proof.
  unfold norm. simpl. cases; [lra|]. simpl. do 2 f_equal; f_equal; [lra|].
  replace (x - (x + x) / 2) with 0 by lra. unfold Rdiv. now rewrite Rmult_0_l.
Qed.

Lemma norm_mean_sd ppf c m s lc rc : norm ppf None None (Some m) (Some s) c lc rc = Ok (mkNormal (Some m) (Some s) lc rc).
Proof. reflexivity. Qed.
Lemma norm_sd_only ppf c s lc rc : norm ppf None None None (Some s) c lc rc = Ok (mkNormal (Some 0) (Some s) lc rc).
Proof. reflexivity. Qed.

Lemma norm_accepts ppf x y mean sd c lc rc :
  (exists d, norm ppf x y mean sd c lc rc = Ok d) <->
  (exists a b, x = Some a /\ y = Some b /\ a <= b /\ sd = None) \/ (x = None /\ y = None /\ sd <> None).
Proof.
  unfold norm. destruct x as [a|], y as [b|], mean as [m|], sd as [s|]; simpl; cases; simpl; split;
    intros H; try (destruct H as [? H]; discriminate);
    try (left; do 2 eexists; repeat split; lra); try (right; repeat split; congruence);
    try (eexists; reflexivity); exfalso;
    destruct H as [(? & ? & E1 & E2 & ? & E3)|(E1 & E2 & E3)]; try congruence;
    injection E1; injection E2; intros; subst; lra.
Qed.

Lemma norm_rejects ppf x y mean sd c lc rc e : norm ppf x y mean sd c lc rc = Err e -> exists s, e = ValueError s.
Proof.
  unfold norm. destruct x as [a|], y as [b|], mean as [m|], sd as [s|]; simpl; cases; simpl; intros H;
    inversion H; eexists; reflexivity.
Qed.

Lemma norm_full ppf x y mean sd c lc rc d : norm ppf x y mean sd c lc rc = Ok d ->
  mean = None \/ x = None -> exists m s, n_mean d = Some m /\ n_sd d = Some s.
Proof.
  unfold norm. destruct x as [a|], y as [b|], mean as [m|], sd as [s|]; simpl; cases; simpl; intros H [M|M];
    try discriminate; inversion H; do 2 eexists; split; reflexivity.
Qed.

Lemma norm_incomplete ppf : exists d, norm ppf (Some 1) (Some 2) (Some 5) None 90 None None = Ok d /\ n_sd d = None.
Proof. unfold norm. simpl. cases; [lra|]. simpl. eexists. split; reflexivity. Qed.

(** * lognorm *)
Lemma exp_sqr m : Rsqr (exp m) = exp (2 * m).
Proof. unfold Rsqr. rewrite <- exp_plus. f_equal. lra. Qed.
Lemma sqrt_exp m : sqrt (exp m) = exp (m / 2).
Proof.
  apply sqrt_lem_1; [left; apply exp_pos|left; apply exp_pos|]. rewrite <- exp_plus. f_equal. lra.
Qed.
Lemma exp_ge_1 s : 0 <= s -> 1 <= exp s.
Proof. intros [H|<-]; [left; rewrite <- exp_0; now apply exp_increasing|rewrite exp_0; lra]. Qed.
Lemma var_nonneg m s : 0 <= (exp (Rsqr s) - 1) * exp (2 * m + Rsqr s).
Proof. apply Rmult_le_pos; [pose proof (exp_ge_1 _ (Rle_0_sqr s)); lra|left; apply exp_pos]. Qed.

Lemma to_moments_spec m s : fst (to_moments m s) = lognormal_mean m s /\
  snd (to_moments m s) * snd (to_moments m s) = lognormal_var m s /\ 0 <= snd (to_moments m s).
Proof.
  unfold to_moments, lognormal_mean, lognormal_var. simpl. split; [unfold Rsqr; reflexivity|].
  split; [|apply sqrt_pos]. rewrite sqrt_sqrt by apply var_nonneg. unfold lognormal_mean, Rsqr. f_equal.
  rewrite <- exp_plus. f_equal. lra.
Qed.

Lemma moments_round_trip m s : 
  from_moments (fst (to_moments m s)) (snd (to_moments m s)) = Ok (m, Rabs s).
Proof.
  unfold from_moments, to_moments. cbn [fst snd].
  pose proof (exp_pos (m + Rsqr s / 2)) as P.
  destruct (Req_EM_T (exp (m + Rsqr s / 2)) 0) as [E|_]; [lra|].
  rewrite Rsqr_sqrt by apply var_nonneg. rewrite exp_sqr.
  replace (2 * (m + Rsqr s / 2)) with (2 * m + Rsqr s) by lra.
  replace ((exp (Rsqr s) - 1) * exp (2 * m + Rsqr s) + exp (2 * m + Rsqr s)) with (exp (2 * (m + Rsqr s)))
    by (replace (2 * (m + Rsqr s)) with (Rsqr s + (2 * m + Rsqr s)) by lra; rewrite exp_plus; ring).
  rewrite sqrt_exp. replace (2 * (m + Rsqr s) / 2) with (m + Rsqr s) by lra.
  replace (exp (2 * m + Rsqr s) / exp (m + Rsqr s)) with (exp m)
    by (unfold Rdiv; rewrite <- exp_Ropp, <- exp_plus; f_equal; lra).
  replace (1 + (exp (Rsqr s) - 1) * exp (2 * m + Rsqr s) / exp (2 * m + Rsqr s)) with (exp (Rsqr s))
    by (field; pose proof (exp_pos (2 * m + Rsqr s)); lra).
  rewrite !ln_exp, sqrt_Rsqr_abs. reflexivity.
Qed.

Lemma moments_round_trip2 M S : 0 < M -> 0 <= S ->
  exists m s, from_moments M S = Ok (m, s) /\ to_moments m s = (M, S) /\ 0 <= s.
Proof.
  intros HM HS. unfold from_moments. destruct (Req_EM_T M 0); [lra|]. do 2 eexists. split; [reflexivity|].
  split; [|apply sqrt_pos].
  assert (M2 : 0 < Rsqr M) by (apply sqr_pos; auto). pose proof (Rle_0_sqr S) as S2.
  assert (K : 0 < 1 + Rsqr S / Rsqr M).
  { assert (0 <= Rsqr S / Rsqr M) by (apply Rmult_le_pos; [auto|left; now apply Rinv_0_lt_compat]). lra. }
  assert (L : 0 <= ln (1 + Rsqr S / Rsqr M)).
  { assert (Q : 0 <= Rsqr S / Rsqr M) by (apply Rmult_le_pos; [auto|left; now apply Rinv_0_lt_compat]).
    destruct Q as [Q|Q]; [left; rewrite <- ln_1; apply ln_increasing; lra|rewrite <- Q, Rplus_0_r, ln_1; lra]. }
  unfold to_moments. rewrite (Rsqr_sqrt _ L). rewrite (exp_ln _ K).
  assert (D : 0 < sqrt (Rsqr S + Rsqr M)) by (apply sqrt_lt_R0; lra).
  assert (E : 0 < Rsqr M / sqrt (Rsqr S + Rsqr M)) by (apply Rdiv_lt_0_compat; auto).
  assert (Kr : 1 + Rsqr S / Rsqr M = (Rsqr S + Rsqr M) / Rsqr M) by (field; lra).
  assert (sq : Rsqr (sqrt (Rsqr S + Rsqr M)) = Rsqr S + Rsqr M) by (apply Rsqr_sqrt; lra).
  f_equal.
  - rewrite exp_plus, (exp_ln _ E).
    replace (exp (ln (1 + Rsqr S / Rsqr M) / 2)) with (sqrt (Rsqr S + Rsqr M) / M).
    + unfold Rsqr at 1. field. split; lra.
    + rewrite <- (sqrt_exp (ln _)), (exp_ln _ K), Kr, sqrt_div by lra. rewrite (sqrt_Rsqr M) by lra. reflexivity.
  - rewrite exp_plus, (exp_ln _ K).
    replace (exp (2 * ln (Rsqr M / sqrt (Rsqr S + Rsqr M)))) with (Rsqr (Rsqr M / sqrt (Rsqr S + Rsqr M)))
      by (rewrite <- exp_sqr, (exp_ln _ E); reflexivity).
    rewrite Rsqr_div'. rewrite sq.
    replace ((1 + Rsqr S / Rsqr M - 1) * (Rsqr (Rsqr M) / (Rsqr S + Rsqr M) * (1 + Rsqr S / Rsqr M))) with (Rsqr S).
    + apply sqrt_Rsqr. assumption.
    + clear - M2 S2. change (Rsqr (Rsqr M)) with (Rsqr M * Rsqr M). generalize dependent (Rsqr M). generalize dependent (Rsqr S).
      intros u U v V. field. split; lra.
Qed.

Lemma lognorm_interval Phi ppf c x y lc rc : normal_quantile Phi ppf -> 0 < c -> c < 100 -> 0 < x -> x < y ->
  exists m s, lognorm ppf (Some x) (Some y) None None None None c lc rc =
      Ok (mkLognormal (Some m) (Some s) (Some (fst (to_moments m s))) (Some (snd (to_moments m s))) lc rc) /\
    m = (ln x + ln y) / 2 /\ 0 < s /\
    lognormal_cdf Phi m s x = 1 / 2 - c / 200 /\ lognormal_cdf Phi m s y = 1 / 2 + c / 200.
Proof.
  intros NQ C1 C2 P L. unfold lognorm, log_checks. simpl. cases; try lra. simpl. do 2 eexists.
  split; [reflexivity|]. split; [reflexivity|].
  exact (interval Phi ppf NQ c (ln x) (ln y) C1 C2 (ln_increasing x y P L)).
Qed.

Lemma invlognorm_interval Phi ppf c x y lc rc : normal_quantile Phi ppf -> 0 < c -> c < 100 -> 0 < x -> x < y ->
  exists m s l2 l3, invlognorm ppf (Some x) (Some y) None None None None c lc rc =
      Ok (mkLognormal (Some m) (Some s) l2 l3 lc rc) /\ 0 < s /\
    inv_lognormal_cdf Phi m s x = 1 / 2 - c / 200 /\ inv_lognormal_cdf Phi m s y = 1 / 2 + c / 200.
Proof.
  intros NQ C1 C2 P L. unfold invlognorm, log_checks. simpl. cases; try lra. simpl.
  do 4 eexists. split; [reflexivity|].
  assert (I : ln (1 / y) < ln (1 / x)).
  { unfold Rdiv. rewrite !Rmult_1_l. apply ln_increasing; [apply Rinv_0_lt_compat; lra|].
    apply Rinv_lt_contravar; [apply Rmult_lt_0_compat; lra|assumption]. }
  destruct (interval Phi ppf NQ c _ _ C1 C2 I) as (S & Ex & Ey). split; [exact S|].
  unfold inv_lognormal_cdf, lognormal_cdf. replace (/ x) with (1 / x) by (field; lra). replace (/ y) with (1 / y) by (field; lra).
  rewrite Ex, Ey. split; lra.
Qed.

Lemma lognorm_accepts ppf x y nm ns lm ls c lc rc :
  (exists d, lognorm ppf x y nm ns lm ls c lc rc = Ok d) <->
  (exists a b, x = Some a /\ y = Some b /\ 0 < a /\ a <= b /\ ns = None /\ ls = None /\ (nm = None \/ lm = None)) \/
  (x = None /\ y = None /\ ns <> None /\ lm = None /\ ls = None) \/
  (x = None /\ y = None /\ ns = None /\ nm = None /\ ls <> None /\ lm <> Some 0).
Proof.
  unfold lognorm, log_checks, from_moments.
  destruct x as [a|], y as [b|], nm as [m|], ns as [s|], lm as [p|], ls as [q|]; simpl; cases; simpl; split;
    intros H; try (destruct H as [? H]; discriminate);
    try (left; do 2 eexists; repeat split; try lra; auto; fail);
    try (right; left; repeat split; congruence);
    try (right; right; repeat split; congruence);
    try (eexists; reflexivity); exfalso; try lra;
    destruct H as [(a' & b' & E1 & E2 & E3 & E4 & E5 & E6 & E7)|[(E1 & E2 & E3 & E4 & E5)|(E1 & E2 & E3 & E4 & E5 & E6)]];
    try congruence; try (destruct E7; congruence);
    injection E1; injection E2; intros; subst; lra.
Qed.

Lemma lognorm_rejects ppf x y nm ns lm ls c lc rc e : lognorm ppf x y nm ns lm ls c lc rc = Err e ->
  (exists s, e = ValueError s) \/ (e = ZeroDivisionError /\ lm = Some 0 /\ ls <> None).
Proof.
  unfold lognorm, log_checks, from_moments.
  destruct x as [a|], y as [b|], nm as [m|], ns as [s|], lm as [p|], ls as [q|]; simpl; cases; simpl; intros H;
    try discriminate; inversion H; subst; try (left; eexists; reflexivity); first [exfalso; lra|right; repeat split; congruence].
Qed.
Lemma invlognorm_rejects ppf x y nm ns lm ls c lc rc e : invlognorm ppf x y nm ns lm ls c lc rc = Err e ->
  (exists s, e = ValueError s) \/ (e = ZeroDivisionError /\ lm = Some 0 /\ ls <> None).
Proof.
  unfold invlognorm, log_checks, inv_from_moments.
  destruct x as [a|], y as [b|], nm as [m|], ns as [s|], lm as [p|], ls as [q|]; simpl; cases; simpl; intros H;
    try discriminate; inversion H; subst; try (left; eexists; reflexivity); first [exfalso; lra|right; repeat split; congruence].
Qed.

Lemma lognorm_full ppf x y nm ns lm ls c lc rc d : lognorm ppf x y nm ns lm ls c lc rc = Ok d ->
  exists m s M S, l_mean d = Some m /\ l_sd d = Some s /\ l_lmean d = Some M /\ l_lsd d = Some S.
Proof.
  unfold lognorm, log_checks, from_moments.
  destruct x as [a|], y as [b|], nm as [m|], ns as [s|], lm as [p|], ls as [q|]; simpl; cases; simpl; intros H;
    try discriminate; inversion H; do 4 eexists; repeat split; reflexivity.
Qed.

(** The four parameters always satisfy the moment equations (for positive mean and
    non-negative sds). *)
Lemma lognorm_consistent ppf x y nm ns lm ls c lc rc d m s M S : lognorm ppf x y nm ns lm ls c lc rc = Ok d ->
  (forall q, ls = Some q -> 0 <= q) -> (forall p, lm = Some p -> 0 < p) ->
  l_mean d = Some m -> l_sd d = Some s -> l_lmean d = Some M -> l_lsd d = Some S ->
  M = lognormal_mean m s /\ S * S = lognormal_var m s.
Proof.
  intros H Hq Hp E1 E2 E3 E4.
  assert (K : (M, S) = to_moments m s).
  { unfold lognorm, log_checks in H.
    destruct x as [a|], y as [b|], nm as [m'|], ns as [s'|], lm as [p|], ls as [q|]; simpl in H;
      repeat match type of H with
      | context [if Rlt_dec ?a ?b then _ else _] => destruct (Rlt_dec a b)
      | context [if Rle_dec ?a ?b then _ else _] => destruct (Rle_dec a b)
      end; simpl in H; try discriminate;
      try (apply (f_equal (fun r => match r with Ok v => v | Err _ => d end)) in H; subst d; cbn in E1, E2, E3, E4; injection E1 as <-;
           injection E2 as <-; injection E3 as <-; injection E4 as <-; reflexivity).
    - specialize (Hq q eq_refl). specialize (Hp p eq_refl).
      destruct (moments_round_trip2 p q Hp Hq) as (m1 & s1 & F & T & _). rewrite F in H. simpl in H.
      inversion H; subst d. cbn in *. congruence.
    - specialize (Hq q eq_refl).
      destruct (moments_round_trip2 1 q Rlt_0_1 Hq) as (m1 & s1 & F & T & _). rewrite F in H. simpl in H.
      inversion H; subst d. cbn in *. congruence. }
  destruct (to_moments_spec m s) as (A & B & _). rewrite <- K in A, B. auto.
Qed.

(** Defining by one pair and reading the other round-trips. *)
Lemma lognorm_round_trip ppf m s c lc rc M S d : 0 <= s ->
  lognorm ppf None None (Some m) (Some s) None None c lc rc = Ok d -> l_lmean d = Some M -> l_lsd d = Some S ->
  lognorm ppf None None None None (Some M) (Some S) c lc rc = Ok d.
Proof.
  intros Hs H E1 E2. unfold lognorm, log_checks in *. simpl in H.
  apply (f_equal (fun r => match r with Ok v => v | Err _ => d end)) in H. subst d. cbn [l_lmean l_lsd] in *.
  injection E1 as <-. injection E2 as <-. cbn [have negb orb andb bind need above non_positive].
  pose proof (moments_round_trip m s) as T. unfold to_moments in T. cbn [fst snd] in T. rewrite T. simpl.
  rewrite Rabs_right by lra. reflexivity.
Qed.

Lemma lognorm_round_trip2 ppf M S c lc rc m s d : 0 < M -> 0 <= S ->
  lognorm ppf None None None None (Some M) (Some S) c lc rc = Ok d -> l_mean d = Some m -> l_sd d = Some s ->
  lognorm ppf None None (Some m) (Some s) None None c lc rc = Ok d.
Proof.
  intros HM HS H E1 E2. unfold lognorm, log_checks in *. simpl in H.
  destruct (moments_round_trip2 M S HM HS) as (m1 & s1 & F & T & _). rewrite F in H. simpl in H.
  inversion H; subst d. cbn in E1, E2. injection E1 as <-. injection E2 as <-. cbn [have negb orb andb bind need above non_positive]. rewrite T.
  reflexivity.
Qed.

(** * invlognorm's moments *)
Lemma inv_moments_eq m s : fst (inv_moments m s) = exp (- (2 * m) - Rsqr s / 2).
Proof.
  unfold inv_moments. cbn [fst]. rewrite exp_sqr.
  replace (2 * (m + Rsqr s / 2)) with (2 * m + Rsqr s) by lra.
  replace ((exp (Rsqr s) - 1) * exp (2 * m + Rsqr s) + exp (2 * m + Rsqr s)) with (exp (2 * (m + Rsqr s)))
    by (replace (2 * (m + Rsqr s)) with (Rsqr s + (2 * m + Rsqr s)) by lra; rewrite exp_plus; ring).
  rewrite sqrt_exp. replace (2 * (m + Rsqr s) / 2) with (m + Rsqr s) by lra.
  unfold Rdiv at 1. rewrite Rmult_1_l, <- exp_Ropp, <- exp_plus. f_equal. lra.
Qed.

Lemma invlognorm_reported_wrong ppf : exists d M,
  invlognorm ppf None None (Some 0) (Some 1) None None 90 None None = Ok d /\
  l_mean d = Some 0 /\ l_sd d = Some 1 /\ l_lmean d = Some M /\ M <> inv_lognormal_mean 0 1.
Proof.
  unfold invlognorm, log_checks. cbn [have negb orb andb bind need above non_positive]. do 2 eexists.
  split; [reflexivity|]. split; [reflexivity|]. split; [reflexivity|]. split; [reflexivity|].
  rewrite inv_moments_eq. unfold inv_lognormal_mean, lognormal_mean. intros H. apply exp_inv in H.
  unfold Rsqr in H. lra.
Qed.

Lemma invlognorm_sampled_wrong ppf : exists d m s,
  invlognorm ppf None None None None (Some 1) (Some 1) 90 None None = Ok d /\
  l_mean d = Some m /\ l_sd d = Some s /\ l_lmean d = Some 1 /\ inv_lognormal_mean m s <> 1.
Proof.
  unfold invlognorm, log_checks, inv_from_moments. cbn [have negb orb andb bind need above non_positive].
  destruct (Req_EM_T 1 0); [lra|]. cbn [bind fst snd]. do 3 eexists.
  split; [reflexivity|]. split; [reflexivity|]. split; [reflexivity|]. split; [reflexivity|].
  assert (L : 0 < ln (1 + Rsqr 1 / Rsqr 1)).
  { rewrite <- ln_1. apply ln_increasing; unfold Rsqr; lra. }
  unfold inv_lognormal_mean, lognormal_mean. rewrite ln_1. intros H. apply (f_equal ln) in H. rewrite ln_exp, ln_1 in H.
  rewrite Rsqr_sqrt in H by lra. rewrite sqrt_sqrt in H by lra. lra.
Qed.

(** Exactly which underlying parameters report the right mean. *)
Lemma invlognorm_relative_sd ppf x y nm ns c lc rc d m s :
  invlognorm ppf x y nm ns None None c lc rc = Ok d -> l_mean d = Some m -> l_sd d = Some s ->
  exists M S, l_lmean d = Some M /\ l_lsd d = Some S /\ S / M = sqrt (inv_lognormal_var m s) / inv_lognormal_mean m s.
Proof.
  intros H Em Es.
  assert (K : l_lmean d = Some (fst (inv_moments m s)) /\ l_lsd d = Some (snd (inv_moments m s))).
  { unfold invlognorm in H. destruct (log_checks x y nm ns None None) as [[[[a b] lm] ls]|e] eqn:L; [|discriminate].
    cbn [bind] in H.
    assert (ls = None).
    { unfold log_checks in L. repeat match type of L with context [if ?c then _ else _] => destruct c; try discriminate end;
        inversion L; auto; destruct (is_given _); auto; destruct (is_given _); auto. }
    subst ls. destruct (match x with Some _ => _ | None => _ end) as [[a' b']|e']; [|discriminate]. cbn [bind] in H.
    destruct a' as [a'|]; [|discriminate]. cbn [bind need] in H. destruct b' as [b'|]; [|discriminate]. cbn [bind need] in H.
    inversion H; subst d. simpl in *. inversion Em; inversion Es; subst. auto. }
  destruct K as [K1 K2]. rewrite K1, K2. do 2 eexists. split; [reflexivity|]. split; [reflexivity|].
  assert (P : 0 < fst (inv_moments m s)) by (rewrite inv_moments_eq; apply exp_pos).
  change (snd (inv_moments m s)) with (fst (inv_moments m s) * sqrt (exp (Rsqr s) - 1)).
  unfold inv_lognormal_var, inv_lognormal_mean, lognormal_var.
  assert (Q : 0 < lognormal_mean (- m) s) by apply exp_pos.
  assert (E1 : 0 <= exp (s * s) - 1).
  { assert (1 <= exp (s * s)); [|lra]. rewrite <- exp_0. destruct (Req_dec (s * s) 0) as [->|N]; [lra|].
    left. apply exp_increasing. pose proof (Rle_0_sqr s). unfold Rsqr in *. lra. }
  rewrite sqrt_mult by (auto; nra). rewrite sqrt_square by lra. unfold Rsqr. field. split; lra.
Qed.
Lemma invlognorm_mean_iff m s : fst (inv_moments m s) = inv_lognormal_mean m s <-> m = - (s * s).
Proof.
  rewrite inv_moments_eq. unfold inv_lognormal_mean, lognormal_mean. split; intros H.
  - apply exp_inv in H. unfold Rsqr in H. lra.
  - f_equal. unfold Rsqr. lra.
Qed.

(** Given the lognormal mean and sd, the draws have the wanted relative sd and a mean too
    large by sd^2 / mean. *)
Lemma invlognorm_sampled_mean ppf lm ls c lc rc d m s : 0 < lm ->
  invlognorm ppf None None None None (Some lm) (Some ls) c lc rc = Ok d -> l_mean d = Some m -> l_sd d = Some s ->
  inv_lognormal_mean m s = lm + Rsqr ls / lm /\
  inv_lognormal_var m s / Rsqr (inv_lognormal_mean m s) = Rsqr ls / Rsqr lm.
Proof.
  intros P H Em Es.
  unfold invlognorm, log_checks, inv_from_moments in H. cbn [have negb orb andb bind need above non_positive] in H.
  destruct (Req_EM_T lm 0); [lra|]. cbn [bind fst snd] in H.
  repeat match type of H with context [if ?c then _ else _] => destruct c; try discriminate end.
  inversion H; subst d. cbn in Em, Es. inversion Em; inversion Es; subst m s. clear H Em Es.
  assert (N : 0 <= Rsqr ls / Rsqr lm).
  { apply Rmult_le_pos; [apply Rle_0_sqr|]. left. apply Rinv_0_lt_compat. now apply Rlt_0_sqr. }
  set (q := Rsqr ls / Rsqr lm) in *.
  assert (L : 0 <= ln (1 + q)).
  { rewrite <- ln_1. destruct (Req_dec q 0) as [->|K]; [right; f_equal; lra|]. left. apply ln_increasing; lra. }
  assert (M : inv_lognormal_mean (- ln lm - Rsqr (sqrt (ln (1 + q))) / 2) (sqrt (ln (1 + q))) = lm * (1 + q)).
  { unfold inv_lognormal_mean, lognormal_mean. rewrite Rsqr_sqrt, sqrt_sqrt by auto.
    replace (- (- ln lm - ln (1 + q) / 2) + ln (1 + q) / 2) with (ln lm + ln (1 + q)) by lra.
    rewrite exp_plus, !exp_ln by lra. reflexivity. }
  split.
  - rewrite M. unfold q, Rsqr. field. lra.
  - unfold inv_lognormal_var, lognormal_var. fold (inv_lognormal_mean (- ln lm - Rsqr (sqrt (ln (1 + q))) / 2) (sqrt (ln (1 + q)))).
    rewrite M, sqrt_sqrt, exp_ln by lra. unfold Rsqr at 1. field. split; nra.
Qed.

(** * to *)
Lemma to_positive ppf x y c lc rc : 0 < x ->
  to ppf x y c lc rc = (do d <- lognorm ppf (Some x) (Some y) None None None None c lc rc; Ok (DLognorm d)).
Proof. intros. unfold to. destruct (Rlt_dec 0 x); [reflexivity|contradiction]. Qed.
Lemma to_other ppf x y c lc rc : x <= 0 ->
  to ppf x y c lc rc = (do d <- norm ppf (Some x) (Some y) None None c lc rc; Ok (DNorm d)).
Proof. intros. unfold to. destruct (Rlt_dec 0 x); [lra|reflexivity]. Qed.

Lemma to_result ppf x y c lc rc : x <= y -> 
  (0 < x -> exists d, to ppf x y c lc rc = Ok (DLognorm d) /\ l_lclip d = lc /\ l_rclip d = rc) /\
  (x <= 0 -> exists d, to ppf x y c lc rc = Ok (DNorm d) /\ n_lclip d = lc /\ n_rclip d = rc).
Proof.
  intros L. split; intros H; unfold to, lognorm, log_checks, norm; simpl; cases; simpl; try lra;
    eexists; repeat split; reflexivity.
Qed.
Lemma to_raises ppf x y c lc rc : y < x -> exists s, to ppf x y c lc rc = Err (ValueError s).
Proof. intros L. unfold to, lognorm, log_checks, norm; simpl; cases; simpl; try lra; eexists; reflexivity. Qed.

(** * Clips *)
Lemma clips_kept ppf x y nm ns lm ls c lc rc :
  (forall d, norm ppf x y nm ns c lc rc = Ok d -> n_lclip d = lc /\ n_rclip d = rc) /\
  (forall d, lognorm ppf x y nm ns lm ls c lc rc = Ok d -> l_lclip d = lc /\ l_rclip d = rc) /\
  (forall d, invlognorm ppf x y nm ns lm ls c lc rc = Ok d -> l_lclip d = lc /\ l_rclip d = rc).
Proof.
  split; [|split]; intros d.
  - unfold norm. destruct (above x y); [discriminate|].
    repeat (match goal with |- (if ?b then _ else _) = _ -> _ => destruct b; try discriminate end; cbv zeta).
    + destruct x, y; simpl; intros H; inversion H; auto.
    + intros H; inversion H; auto.
  - unfold lognorm. destruct (log_checks _ _ _ _ _ _) as [[[[a b] e] f]|]; cbn [bind]; [|discriminate].
    destruct (match x with Some _ => _ | None => _ end) as [[m s]|]; cbn [bind]; [|discriminate].
    destruct f as [f|]; [destruct s as [s|]|].
    + intros H; inversion H; auto.
    + destruct (need e); cbn [bind]; [|discriminate]. destruct (from_moments _ _); cbn [bind]; [|discriminate]. intros H; inversion H; auto.
    + destruct (need m); cbn [bind]; [|discriminate]. destruct (need s); cbn [bind]; [|discriminate]. intros H; inversion H; auto.
  - unfold invlognorm. destruct (log_checks _ _ _ _ _ _) as [[[[a b] e] f]|]; cbn [bind]; [|discriminate].
    destruct (match x with Some _ => _ | None => _ end) as [[m s]|]; cbn [bind]; [|discriminate].
    destruct f as [f|]; [destruct s as [s|]|].
    + intros H; inversion H; auto.
    + destruct (need e); cbn [bind]; [|discriminate]. destruct (inv_from_moments _ _); cbn [bind]; [|discriminate]. intros H; inversion H; auto.
    + destruct (need m); cbn [bind]; [|discriminate]. destruct (need s); cbn [bind]; [|discriminate]. intros H; inversion H; auto.
Qed.
