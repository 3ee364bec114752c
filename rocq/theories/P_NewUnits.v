(** Constructors and updates under a change of units. *)
From Coq Require Import Reals Lra Bool.
From Verif Require Import Base M_Dists SpecDists P_Dists P_DistsSat.
Open Scope R_scope.

Lemma above_false a b : above (Some a) (Some b) = false <-> a <= b.
Proof. unfold above. destruct (Rlt_dec b a); split; intros; try discriminate; auto; lra. Qed.
Lemma norm_runs ppf x y c lc rc d : norm ppf (Some x) (Some y) None None c lc rc = Ok d <->
  x <= y /\ d = mkNormal (Some ((x + y) / 2)) (Some ((y - (x + y) / 2) / ppf (cdf_value c))) lc rc.
Proof.
  unfold norm. split.
  - destruct (above (Some x) (Some y)) eqn:E; [discriminate|]. cbn. intros H. inversion H. split; auto. now apply above_false.
  - intros [L ->]. apply above_false in L. rewrite L. reflexivity.
Qed.
Lemma norm_units ppf x y c lc rc lc' rc' a b m s : 0 < a ->
  norm ppf (Some x) (Some y) None None c lc rc = Ok (mkNormal (Some m) (Some s) lc rc) ->
  norm ppf (Some (a * x + b)) (Some (a * y + b)) None None c lc' rc' = Ok (mkNormal (Some (a * m + b)) (Some (a * s)) lc' rc').
Proof.
  intros A H. apply norm_runs in H as [L E]. inversion E; subst. apply norm_runs. split; [nra|].
  f_equal; f_equal; [field|]. unfold Rdiv. rewrite <- Rmult_assoc. f_equal. field.
Qed.
Lemma norm_mirror ppf x y c lc rc lc' rc' m s :
  norm ppf (Some x) (Some y) None None c lc rc = Ok (mkNormal (Some m) (Some s) lc rc) ->
  norm ppf (Some (- y)) (Some (- x)) None None c lc' rc' = Ok (mkNormal (Some (- m)) (Some s) lc' rc').
Proof.
  intros H. apply norm_runs in H as [L E]. inversion E; subst. apply norm_runs. split; [lra|].
  f_equal; f_equal; [field|]. unfold Rdiv. f_equal. field.
Qed.

Lemma log_checks_interval x y : 0 < x -> x <= y -> log_checks (Some x) (Some y) None None None None = Ok (None, None, None, None).
Proof.
  intros P L. unfold log_checks. apply above_false in L. rewrite L. unfold non_positive.
  destruct (Rle_dec x 0); [lra|]. reflexivity.
Qed.
Lemma lognorm_runs ppf x y c lc rc : 0 < x -> x <= y ->
  let m := (ln x + ln y) / 2 in let s := (ln y - m) / ppf (cdf_value c) in
  lognorm ppf (Some x) (Some y) None None None None c lc rc =
  Ok (mkLognormal (Some m) (Some s) (Some (fst (to_moments m s))) (Some (snd (to_moments m s))) lc rc).
Proof. intros P L m s. unfold lognorm. rewrite log_checks_interval by auto. reflexivity. Qed.
Lemma invlognorm_runs ppf x y c lc rc : 0 < x -> x <= y ->
  let m := (ln (1 / y) + ln (1 / x)) / 2 in let s := (ln (1 / x) - m) / ppf (cdf_value c) in
  invlognorm ppf (Some x) (Some y) None None None None c lc rc =
  Ok (mkLognormal (Some m) (Some s) (Some (fst (inv_moments m s))) (Some (snd (inv_moments m s))) lc rc).
Proof. intros P L m s. unfold invlognorm. rewrite log_checks_interval by auto. reflexivity. Qed.
Lemma log_checks_fails x y r : log_checks (Some x) (Some y) None None None None = Ok r -> 0 < x /\ x <= y.
Proof.
  unfold log_checks. destruct (above (Some x) (Some y)) eqn:A; [discriminate|]. apply above_false in A.
  unfold non_positive. destruct (Rle_dec x 0); [discriminate|]. intros _. split; lra.
Qed.
Lemma lognorm_positive ppf x y c lc rc d : lognorm ppf (Some x) (Some y) None None None None c lc rc = Ok d -> 0 < x /\ x <= y.
Proof.
  unfold lognorm. destruct (log_checks (Some x) (Some y) None None None None) eqn:E; [|discriminate].
  intros _. eapply log_checks_fails; eauto.
Qed.
Lemma invlognorm_positive ppf x y c lc rc d : invlognorm ppf (Some x) (Some y) None None None None c lc rc = Ok d -> 0 < x /\ x <= y.
Proof.
  unfold invlognorm. destruct (log_checks (Some x) (Some y) None None None None) eqn:E; [|discriminate].
  intros _. eapply log_checks_fails; eauto.
Qed.
Lemma moments_units k m s : 0 < k ->
  fst (to_moments (m + ln k) s) = k * fst (to_moments m s) /\ snd (to_moments (m + ln k) s) = k * snd (to_moments m s).
Proof.
  intros K. unfold to_moments. cbn [fst snd]. split.
  - replace (m + ln k + Rsqr s / 2) with (ln k + (m + Rsqr s / 2)) by ring. rewrite exp_plus, exp_ln by auto. ring.
  - replace (2 * (m + ln k) + Rsqr s) with (ln k + ln k + (2 * m + Rsqr s)) by ring. rewrite !exp_plus, !exp_ln by auto.
    replace ((exp (Rsqr s) - 1) * (k * k * (exp (2 * m) * exp (Rsqr s)))) with (Rsqr k * ((exp (Rsqr s) - 1) * (exp (2 * m) * exp (Rsqr s)))) by (unfold Rsqr; ring).
    assert (1 <= exp (Rsqr s)).
    { pose proof (Rle_0_sqr s) as Q. destruct (Req_dec (Rsqr s) 0) as [->|N]; [rewrite exp_0; lra|]. rewrite <- exp_0. left. apply exp_increasing. lra. }
    pose proof (exp_pos (2 * m)). pose proof (exp_pos (Rsqr s)).
    rewrite sqrt_mult_alt by apply Rle_0_sqr. rewrite sqrt_Rsqr by lra. reflexivity.
Qed.
Lemma lognorm_units ppf x y c lc rc lc' rc' k m s M S : 0 < k ->
  lognorm ppf (Some x) (Some y) None None None None c lc rc = Ok (mkLognormal (Some m) (Some s) (Some M) (Some S) lc rc) ->
  lognorm ppf (Some (k * x)) (Some (k * y)) None None None None c lc' rc' =
  Ok (mkLognormal (Some (m + ln k)) (Some s) (Some (k * M)) (Some (k * S)) lc' rc').
Proof.
  intros K H. pose proof (lognorm_positive _ _ _ _ _ _ _ H) as [P L]. rewrite (lognorm_runs ppf x y c lc rc P L) in H. cbv zeta in H.
  injection H as E1 E2 E3 E4. rewrite lognorm_runs by nra. cbv zeta. rewrite !ln_mult by lra.
  assert (Em : (ln k + ln x + (ln k + ln y)) / 2 = m + ln k) by (rewrite <- E1; field). rewrite Em.
  assert (Es : (ln k + ln y - (m + ln k)) / ppf (cdf_value c) = s).
  { rewrite <- E2, E1. unfold Rdiv. f_equal. ring. }
  rewrite Es. destruct (moments_units k m s K) as [-> ->].
  rewrite E1 in E2. rewrite E1, E2 in E3, E4. unfold to_moments. cbn [fst snd]. rewrite E3, E4. reflexivity.
Qed.
Lemma lognorm_power ppf x y c lc rc lc' rc' a d : 0 < a ->
  lognorm ppf (Some x) (Some y) None None None None c lc rc = Ok d ->
  exists m s d', l_mean d = Some m /\ l_sd d = Some s /\
    lognorm ppf (Some (Rpower x a)) (Some (Rpower y a)) None None None None c lc' rc' = Ok d' /\ l_mean d' = Some (a * m) /\ l_sd d' = Some (a * s).
Proof.
  intros A H. pose proof (lognorm_positive _ _ _ _ _ _ _ H) as [P L]. rewrite (lognorm_runs ppf x y c lc rc P L) in H. cbv zeta in H. inversion H; subst. clear H.
  assert (L' : Rpower x a <= Rpower y a) by (apply Rle_Rpower_l; lra).
  do 3 eexists. split; [reflexivity|]. split; [reflexivity|]. split; [apply lognorm_runs; auto; unfold Rpower; apply exp_pos|].
  cbn [l_mean l_sd]. unfold Rpower. rewrite !ln_exp. split; f_equal; [field|]. unfold Rdiv. rewrite <- Rmult_assoc. f_equal. field.
Qed.
Lemma lognorm_logs ppf x y c lc rc d : lognorm ppf (Some x) (Some y) None None None None c lc rc = Ok d ->
  norm ppf (Some (ln x)) (Some (ln y)) None None c lc rc = Ok (mkNormal (l_mean d) (l_sd d) lc rc).
Proof.
  intros H. pose proof (lognorm_positive _ _ _ _ _ _ _ H) as [P L]. rewrite (lognorm_runs ppf x y c lc rc P L) in H. cbv zeta in H. inversion H; subst. clear H.
  apply norm_runs. split; [|reflexivity]. destruct L as [L| ->]; [left; now apply ln_increasing|lra].
Qed.
Lemma invlognorm_reciprocal ppf x y c lc rc d : invlognorm ppf (Some x) (Some y) None None None None c lc rc = Ok d ->
  exists d', lognorm ppf (Some (1 / y)) (Some (1 / x)) None None None None c lc rc = Ok d' /\ l_mean d' = l_mean d /\ l_sd d' = l_sd d.
Proof.
  intros H. pose proof (invlognorm_positive _ _ _ _ _ _ _ H) as [P L]. rewrite (invlognorm_runs ppf x y c lc rc P L) in H. cbv zeta in H. inversion H; subst. clear H.
  eexists. split; [apply lognorm_runs|split; reflexivity].
  - unfold Rdiv. rewrite Rmult_1_l. apply Rinv_0_lt_compat. lra.
  - unfold Rdiv. rewrite !Rmult_1_l. apply Rinv_le_contravar; lra.
Qed.

(** Widths and credibilities. *)
Lemma quantile_positive Phi ppf c : normal_quantile Phi ppf -> 0 < c -> c < 100 -> 0 < ppf (cdf_value c).
Proof.
  intros [I S V] C0 C1. assert (H : Phi 0 = 1 / 2). { pose proof (S 0) as E. rewrite Ropp_0 in E. lra. }
  assert (V' : Phi (ppf (cdf_value c)) = cdf_value c) by (apply V; unfold cdf_value; lra).
  destruct (Rlt_or_le 0 (ppf (cdf_value c))) as [L|L]; auto. exfalso. unfold cdf_value in *.
  destruct L as [L|E]; [apply I in L; lra|]. rewrite E, H in V'. lra.
Qed.
Lemma quantile_increasing Phi ppf c c' : normal_quantile Phi ppf -> 0 < c -> c < c' -> c' < 100 -> ppf (cdf_value c) < ppf (cdf_value c').
Proof.
  intros [I S V] C0 C1 C2. assert (V1 : Phi (ppf (cdf_value c)) = cdf_value c) by (apply V; unfold cdf_value; lra).
  assert (V2 : Phi (ppf (cdf_value c')) = cdf_value c') by (apply V; unfold cdf_value; lra).
  destruct (Rlt_or_le (ppf (cdf_value c)) (ppf (cdf_value c'))) as [L|L]; auto. exfalso. unfold cdf_value in *.
  destruct L as [L|E]; [apply I in L; lra|]. rewrite E in V2. lra.
Qed.
Lemma norm_wider Phi ppf c x y x' y' lc rc lc' rc' m s m' s' : normal_quantile Phi ppf -> 0 < c -> c < 100 -> x' <= x -> y <= y' ->
  norm ppf (Some x) (Some y) None None c lc rc = Ok (mkNormal (Some m) (Some s) lc rc) ->
  norm ppf (Some x') (Some y') None None c lc' rc' = Ok (mkNormal (Some m') (Some s') lc' rc') -> s <= s'.
Proof.
  intros N C0 C1 X Y H H'. apply norm_runs in H as [L E]. apply norm_runs in H' as [L' E']. inversion E; inversion E'; subst.
  unfold Rdiv at 1 3. apply Rmult_le_compat_r; [|lra]. left. apply Rinv_0_lt_compat. eapply quantile_positive; eauto.
Qed.
Lemma norm_surer Phi ppf c c' x y lc rc lc' rc' m s m' s' : normal_quantile Phi ppf -> 0 < c -> c < c' -> c' < 100 -> x < y ->
  norm ppf (Some x) (Some y) None None c lc rc = Ok (mkNormal (Some m) (Some s) lc rc) ->
  norm ppf (Some x) (Some y) None None c' lc' rc' = Ok (mkNormal (Some m') (Some s') lc' rc') -> m' = m /\ s' < s.
Proof.
  intros N C0 C1 C2 X H H'. apply norm_runs in H as [L E]. apply norm_runs in H' as [L' E']. inversion E; inversion E'; subst.
  split; auto. assert (P : 0 < ppf (cdf_value c)) by (eapply quantile_positive; eauto; lra).
  assert (Q : ppf (cdf_value c) < ppf (cdf_value c')) by (eapply quantile_increasing; eauto).
  unfold Rdiv at 1 3. apply Rmult_lt_compat_l; [lra|]. apply Rinv_lt_contravar; [nra|auto].
Qed.
Lemma norm_reread Phi ppf c c' x y lc rc lc' rc' m s : normal_quantile Phi ppf -> 0 < c -> c < 100 -> 0 < c' -> c' < 100 ->
  norm ppf (Some x) (Some y) None None c lc rc = Ok (mkNormal (Some m) (Some s) lc rc) ->
  norm ppf (Some (m - ppf (cdf_value c') * s)) (Some (m + ppf (cdf_value c') * s)) None None c' lc' rc' =
  Ok (mkNormal (Some m) (Some s) lc' rc').
Proof.
  intros N C0 C1 C2 C3 H. apply norm_runs in H as [L E]. injection E as -> ->.
  assert (P : 0 < ppf (cdf_value c)) by (eapply quantile_positive; eauto).
  assert (P' : 0 < ppf (cdf_value c')) by (eapply quantile_positive; eauto).
  apply norm_runs.
  assert (S0 : 0 <= (y - (x + y) / 2) / ppf (cdf_value c)) by (unfold Rdiv at 1; apply Rmult_le_pos; [lra|left; now apply Rinv_0_lt_compat]).
  set (z := ppf (cdf_value c')) in *. set (t := (y - (x + y) / 2) / ppf (cdf_value c)) in *. split; [nra|].
  f_equal; f_equal; [field|field; lra].
Qed.

(** Updates. *)
Lemma combine_units a b pm pv em ev w m s : 0 < a -> combine pm pv em ev w = Ok (m, s) ->
  combine (a * pm + b) (a * a * pv) (a * em + b) (a * a * ev) w = Ok (a * m + b, a * s).
Proof.
  intros A. unfold combine. destruct (Req_EM_T (w * pv + ev) 0) as [Z|Z]; [discriminate|].
  destruct (Rlt_dec (ev * pv / (w * pv + ev)) 0) as [N|N]; [discriminate|]. intros H. inversion H; subst. clear H.
  assert (A2 : 0 < a * a) by nra.
  assert (Z' : w * (a * a * pv) + a * a * ev <> 0).
  { replace (w * (a * a * pv) + a * a * ev) with (a * a * (w * pv + ev)) by ring. apply Rmult_integral_contrapositive_currified; lra. }
  destruct (Req_EM_T (w * (a * a * pv) + a * a * ev) 0) as [|_]; [contradiction|].
  assert (V : a * a * ev * (a * a * pv) / (w * (a * a * pv) + a * a * ev) = Rsqr a * (ev * pv / (w * pv + ev))).
  { unfold Rsqr. field. split; [|lra]. replace (w * a ^ 2 * pv + a ^ 2 * ev) with (w * (a * a * pv) + a * a * ev) by ring. auto. }
  rewrite V. destruct (Rlt_dec (Rsqr a * (ev * pv / (w * pv + ev))) 0) as [B|_].
  { exfalso. assert (0 <= Rsqr a * (ev * pv / (w * pv + ev))) by (apply Rmult_le_pos; [apply Rle_0_sqr|lra]). lra. }
  rewrite sqrt_mult_alt by apply Rle_0_sqr. rewrite sqrt_Rsqr by lra. f_equal. f_equal. field.
  split; [lra|]. replace (w * a ^ 2 * pv + a ^ 2 * ev) with (w * (a * a * pv) + a * a * ev) by ring. auto.
Qed.
Lemma sqr_units a s : Rsqr (a * s) = a * a * Rsqr s.
Proof. unfold Rsqr. ring. Qed.
Lemma update_norm_units ppf a b pm ps em es w m s : 0 < a ->
  let n m s := DNorm (mkNormal (Some m) (Some s) None None) in
  update ppf (n pm ps) (n em es) w = Ok (n m s) ->
  update ppf (n (a * pm + b) (a * ps)) (n (a * em + b) (a * es)) w = Ok (n (a * m + b) (a * s)).
Proof.
  intros A n. unfold update, n. cbn [n_sd n_mean need bind]. destruct (combine pm (Rsqr ps) em (Rsqr es) w) as [[m' s']|e] eqn:E; [|discriminate].
  cbn [bind fst snd]. intros H. rewrite !sqr_units, (combine_units a b _ _ _ _ _ _ _ A E). cbn [bind fst snd].
  rewrite norm_mean_sd in *. cbn [bind] in *. inversion H. reflexivity.
Qed.
Lemma update_gamma_units ppf k psh psc esh esc w sh sc lc rc lc' rc' : 0 < k ->
  update ppf (DGamma psh psc lc rc) (DGamma esh esc lc' rc') w = Ok (DGamma sh sc None None) ->
  update ppf (DGamma psh (k * psc) lc rc) (DGamma esh (k * esc) lc' rc') w = Ok (DGamma sh (k * sc) None None).
Proof.
  intros K. unfold update. destruct (Req_EM_T psc 0) as [|P]; [discriminate|]. destruct (Req_EM_T esc 0) as [|E]; [discriminate|].
  destruct (Req_EM_T (psh + esh * w) 0) as [|S]; [discriminate|].
  destruct (Req_EM_T ((psh * (1 / psc) + esh * w * (1 / esc)) / (psh + esh * w)) 0) as [|R]; [discriminate|]. intros H. inversion H; subst.
  destruct (Req_EM_T (k * psc) 0) as [B|_]; [apply Rmult_integral in B; lra|].
  destruct (Req_EM_T (k * esc) 0) as [B|_]; [apply Rmult_integral in B; lra|].
  assert (Q : (psh * (1 / (k * psc)) + esh * w * (1 / (k * esc))) / (psh + esh * w) =
              (psh * (1 / psc) + esh * w * (1 / esc)) / (psh + esh * w) / k) by (field; lra).
  rewrite Q. set (r := (psh * (1 / psc) + esh * w * (1 / esc)) / (psh + esh * w)) in *.
  destruct (Req_EM_T (r / k) 0) as [B|_].
  { exfalso. apply R. replace r with (r / k * k) by (field; lra). rewrite B. ring. }
  f_equal. f_equal. field. lra.
Qed.
Lemma update_beta_swap ppf a b a' b' w A B : update ppf (DBeta a b) (DBeta a' b') w = Ok (DBeta A B) ->
  update ppf (DBeta b a) (DBeta b' a') w = Ok (DBeta B A).
Proof. cbn. intros H. inversion H. reflexivity. Qed.
Lemma to_units ppf x y c lc rc lc' rc' k d : 0 < k -> to ppf x y c lc rc = Ok d ->
  exists d', to ppf (k * x) (k * y) c lc' rc' = Ok d' /\
    ((exists m s, normal_of d m s /\ normal_of d' (k * m) (k * s)) \/ (exists m s, lognormal_of d m s /\ lognormal_of d' (m + ln k) s)).
Proof.
  intros K. unfold to. destruct (Rlt_dec 0 x) as [X|X].
  - destruct (lognorm ppf (Some x) (Some y) None None None None c lc rc) as [n|] eqn:E; [|discriminate]. cbn [bind]. intros H. inversion H; subst.
    destruct (Rlt_dec 0 (k * x)) as [_|B]; [|exfalso; apply B; nra].
    pose proof (lognorm_positive _ _ _ _ _ _ _ E) as [P L]. pose proof E as E0. rewrite (lognorm_runs ppf x y c lc rc P L) in E. cbv zeta in E. inversion E; subst. clear E.
    rewrite (lognorm_units ppf x y c lc rc lc' rc' k _ _ _ _ K E0). cbn [bind]. eexists. split; [reflexivity|]. right. do 2 eexists. repeat split.
  - destruct (norm ppf (Some x) (Some y) None None c lc rc) as [n|] eqn:E; [|discriminate]. cbn [bind]. intros H. inversion H; subst.
    destruct (Rlt_dec 0 (k * x)) as [B|_]; [exfalso; nra|].
    pose proof E as E0. apply norm_runs in E as [L ->].
    pose proof (norm_units ppf x y c lc rc lc' rc' k 0 _ _ K E0) as U. rewrite !Rplus_0_r in U. rewrite U. cbn [bind].
    eexists. split; [reflexivity|]. left. do 2 eexists. repeat split.
Qed.
Lemma lognorm_mean_sd ppf m s c lc rc : lognorm ppf None None (Some m) (Some s) None None c lc rc =
  Ok (mkLognormal (Some m) (Some s) (Some (fst (to_moments m s))) (Some (snd (to_moments m s))) lc rc).
Proof. reflexivity. Qed.
Lemma update_lognorm_units ppf k p e p' e' w pm ps em es r m s :
  lognormal_of p pm ps -> lognormal_of e em es -> lognormal_of p' (pm + ln k) ps -> lognormal_of e' (em + ln k) es ->
  update ppf p e w = Ok r -> lognormal_of r m s ->
  exists r', update ppf p' e' w = Ok r' /\ lognormal_of r' (m + ln k) s.
Proof.
  intros P E P' E'. destruct p as [|p| | |]; try contradiction. destruct e as [|e| | |]; try contradiction.
  destruct p' as [|p'| | |]; try contradiction. destruct e' as [|e'| | |]; try contradiction.
  destruct P as [P1 P2], E as [E1 E2], P' as [P1' P2'], E' as [E1' E2']. unfold update. rewrite P1, P2, E1, E2, P1', P2', E1', E2'. cbn [need bind].
  destruct (combine pm (Rsqr ps) em (Rsqr es) w) as [[m0 s0]|x] eqn:C; [|discriminate]. cbn [bind fst snd]. rewrite lognorm_mean_sd. cbn [bind].
  intros H R. inversion H; subst. destruct R as [R1 R2]. cbn in R1, R2. inversion R1; inversion R2; subst.
  pose proof (combine_units 1 (ln k) _ _ _ _ _ _ _ Rlt_0_1 C) as U. rewrite !Rmult_1_l in U. rewrite U. cbn [bind fst snd]. rewrite lognorm_mean_sd. cbn [bind].
  eexists. split; [reflexivity|]. split; reflexivity.
Qed.
