(** Lemmas for [Props_Geomean]. *)
From Coq Require Import Reals Lra Qreals.
From Verif Require Import Base M_Weights SpecWeights M_Formulas SpecFormulas SpecGeomean
  P_Sampler P_PwvMap P_Formulas P_Geomean P_Geomean2 P_GeomeanOdds.
Open Scope R_scope.

Lemma change_na h x : na_like (change h x) = na_like x.
Proof. destruct x; reflexivity. Qed.
Lemma exp_le a b : a <= b -> exp a <= exp b.
Proof. intros [K|K]; [left; now apply exp_increasing|right; now f_equal]. Qed.

(* ------------------------------------------------------------ the mean of positive numbers *)
Lemma dotp_le ws : nonneg ws -> forall xs ys, Forall2 Rle xs ys -> dotp ws xs <= dotp ws ys.
Proof.
  induction 1 as [|w ws H F IH]; intros xs ys G; [simpl; lra|]. destruct G as [|x y xs ys A G]; simpl; [lra|].
  apply Qle_Rle in H. rewrite RMicromega.Q2R_0 in H. pose proof (IH xs ys G). pose proof (Rmult_le_compat_l _ _ _ H A). lra.
Qed.
Lemma nonneg_of ws : positive ws -> nonneg ws.
Proof. intros P. eapply Forall_impl; [|exact P]. intros a H. now apply Qlt_le_weak. Qed.
Lemma forall2_map_self {A} (R : A -> A -> Prop) f (l : list A) : (forall x, In x l -> R x (f x)) -> Forall2 R l (map f l).
Proof. induction l as [|x l IH]; intros H; simpl; constructor; [apply H; now left|]. apply IH. intros; apply H; now right. Qed.
Lemma forall2_logs xs ys : (forall x, In x xs -> 0 < x) -> Forall2 Rle xs ys -> Forall2 Rle (map ln xs) (map ln ys).
Proof.
  intros P F. induction F as [|x y xs ys H F IH]; simpl; constructor.
  - apply ln_le'; auto. apply P. now left.
  - apply IH. intros; apply P; now right.
Qed.
Lemma gm_le ws xs ys : nonneg ws -> 0 < weight_total ws -> (forall x, In x xs -> 0 < x) -> Forall2 Rle xs ys -> gm ws xs <= gm ws ys.
Proof.
  intros P W X F. unfold gm. apply exp_le. apply Rmult_le_compat_l; [left; now apply Rinv_0_lt_compat|].
  apply dotp_le; auto. now apply forall2_logs.
Qed.
Lemma dotp_add ws : forall (f g : R -> R) rs, dotp ws (map (fun x => f x + g x) rs) = dotp ws (map f rs) + dotp ws (map g rs).
Proof. induction ws as [|w ws IH]; intros f g [|r rs]; simpl; try lra. rewrite IH. lra. Qed.
Lemma dotp_scale ws : forall (f : R -> R) k rs, dotp ws (map (fun x => k * f x) rs) = k * dotp ws (map f rs).
Proof. induction ws as [|w ws IH]; intros f k [|r rs]; simpl; try lra. rewrite IH. lra. Qed.
Lemma dotp_ext ws : forall (f g : R -> R) (rs : list R), (forall r, In r rs -> f r = g r) -> dotp ws (map f rs) = dotp ws (map g rs).
Proof.
  induction ws as [|w ws IH]; intros f g [|r rs] E; simpl; auto. rewrite (E r) by now left.
  rewrite (IH f g rs); auto. intros; apply E; now right.
Qed.
Lemma gm_times_fun ws (rs : list R) (h k : R -> R) : (forall r, In r rs -> 0 < h r /\ 0 < k r) ->
  gm ws (map (fun x => h x * k x) rs) = gm ws (map h rs) * gm ws (map k rs).
Proof.
  intros P. unfold gm. rewrite <- exp_plus. f_equal. rewrite !map_map, <- Rmult_plus_distr_l, <- dotp_add. f_equal.
  apply dotp_ext. intros r I. destruct (P r I). now apply ln_mult.
Qed.
Lemma gm_power ws rs a : (forall r, In r rs -> 0 < r) -> gm ws (map (fun x => Rpower x a) rs) = Rpower (gm ws rs) a.
Proof.
  intros P. unfold gm, Rpower. rewrite ln_exp. f_equal. rewrite map_map.
  rewrite (dotp_ext ws _ (fun x => a * ln x)) by (intros; apply ln_exp). rewrite dotp_scale. ring.
Qed.
Lemma dotp_const ws : forall xs c, length ws = length xs -> dotp ws (map (fun _ : R => c) xs) = c * weight_total ws.
Proof. induction ws as [|w ws IH]; intros [|x xs] c L; simpl in *; try discriminate; [lra|]. rewrite IH by congruence. lra. Qed.
Lemma weighted_total_dotp ws : forall xs, weighted_total ws xs = dotp ws xs.
Proof. reflexivity. Qed.
Lemma dotp_pos ws : nonneg ws -> 0 < weight_total ws -> forall xs, length ws = length xs -> (forall x, In x xs -> 0 < x) -> 0 < dotp ws xs.
Proof.
  intros N. induction N as [|w ws H F IH]; intros W [|x xs] L P; simpl in *; try discriminate; [lra|].
  apply Qle_Rle in H. rewrite RMicromega.Q2R_0 in H. pose proof (P x ltac:(now left)) as X.
  assert (D : 0 <= dotp ws xs).
  { assert (P' : forall y, In y xs -> 0 < y) by (intros; apply P; now right). clear - F P'. revert xs P'.
    induction F as [|v ws V F IH]; intros [|y ys] P'; simpl; try lra. apply Qle_Rle in V. rewrite RMicromega.Q2R_0 in V.
    pose proof (P' y ltac:(now left)). pose proof (IH ys ltac:(intros; apply P'; now right)). pose proof (Rmult_le_pos _ _ V ltac:(left; eauto)). lra. }
  destruct H as [H|H]; [pose proof (Rmult_lt_0_compat _ _ H X); lra|]. rewrite <- H in *.
  pose proof (IH ltac:(lra) xs ltac:(congruence) ltac:(intros; apply P; now right)). lra.
Qed.
(** The logarithm is below its tangents. *)
Lemma ln_tangent x m : 0 < x -> 0 < m -> ln x <= ln m + (x / m - 1).
Proof.
  intros X M. assert (Q : 0 < x / m) by now apply Rdiv_lt_0_compat.
  assert (E : ln x = ln m + ln (x / m)). { rewrite <- ln_mult by auto. f_equal. field. lra. }
  rewrite E. apply Rplus_le_compat_l. assert (ln (x / m) <= x / m - 1); auto.
  apply Rnot_lt_le. intros C. pose proof (exp_increasing _ _ C) as I. rewrite exp_ln in I by auto.
  pose proof (exp_ineq1_le (x / m - 1)). lra.
Qed.
Lemma gm_below ws rs : nonneg ws -> 0 < weight_total ws -> length ws = length rs -> (forall r, In r rs -> 0 < r) ->
  gm ws rs <= arithmetic_mean ws rs.
Proof.
  intros N W L P. unfold arithmetic_mean. rewrite weighted_total_dotp. set (m := dotp ws rs / weight_total ws).
  assert (D : 0 < dotp ws rs) by now apply dotp_pos. assert (M : 0 < m) by now apply Rdiv_lt_0_compat.
  unfold gm. rewrite <- (exp_ln m) by auto. apply exp_le.
  apply Rmult_le_reg_l with (weight_total ws); auto. rewrite <- Rmult_assoc, Rinv_r, Rmult_1_l by lra.
  apply Rle_trans with (dotp ws (map (fun r => (ln m - 1) + / m * r) rs)).
  - apply dotp_le; auto. clearbody m. clear - P M. induction rs as [|r rs IH]; simpl; constructor.
    + pose proof (ln_tangent r m (P r ltac:(now left)) M). unfold Rdiv in H. lra.
    + apply IH. intros; apply P; now right.
  - rewrite dotp_add, dotp_const by auto. rewrite (dotp_scale ws (fun x => x)), map_id. unfold m. right. field. split; lra.
Qed.
Lemma gm_above ws rs : nonneg ws -> 0 < weight_total ws -> length ws = length rs -> (forall r, In r rs -> 0 < r) ->
  / arithmetic_mean ws (map Rinv rs) <= gm ws rs.
Proof.
  intros N W L P. assert (Pi : forall r, In r (map Rinv rs) -> 0 < r).
  { intros r I. apply in_map_iff in I as (s & <- & I). apply Rinv_0_lt_compat; auto. }
  pose proof (gm_below ws (map Rinv rs) N W ltac:(rewrite map_length; auto) Pi) as H.
  assert (E : gm ws (map Rinv rs) = / gm ws rs).
  { unfold gm. rewrite map_map, (dotp_ext ws _ (fun x => -1 * ln x)).
    - rewrite dotp_scale, <- exp_Ropp. f_equal. ring.
    - intros r I. rewrite ln_Rinv by auto. ring. }
  rewrite E in H. assert (G : 0 < gm ws rs) by apply exp_pos. pose proof (Rinv_0_lt_compat _ G).
  rewrite <- (Rinv_inv (gm ws rs)). apply Rinv_le_contravar; auto.
Qed.

(* ------------------------------------------------------------ whatever the form of the arguments *)
Lemma geomean_form lo hi w rw v d g : 0 < lo -> usable lo hi d v -> geomean w rw v d = Ok g ->
  exists ws rs, positive ws /\ ws <> [] /\ length ws = length rs /\ (forall r, In r rs -> lo <= r <= hi) /\ g = RFin (gm ws rs) /\
    forall h, (forall r, lo <= r <= hi -> 0 < h r) -> geomean w rw (map_varg (change h) v) d = Ok (RFin (gm ws (map h rs))).
Proof.
  intros Lo U H. rewrite geomean_unfold in H. apply bind_ok in H as ([ws vs] & E & H). cbn [fst snd] in H.
  destruct (pwv_out _ _ _ _ _ _ _ _ E) as [P L]. pose proof H as H0. unfold gm_of in H.
  apply bind_ok in H as (xs & M & H). destruct (geomean_works _ _ _ _ _ _ _ _ _ U E M) as (rs & -> & B).
  pose proof (gnum_inv _ _ M). subst vs. destruct ws as [|w0 ws].
  - destruct rs; [|discriminate]. simpl in H. unfold average in H. simpl in H. destruct (Req_EM_T 0 0); [discriminate|lra].
  - rewrite !map_length in L. exists (w0 :: ws), rs. split; auto. split; [discriminate|]. split; auto. split; auto.
    rewrite map_map in H0. rewrite gm_finite in H0; auto; [|discriminate|intros r I; pose proof (B r I); lra].
    split; [now inversion H0|]. intros h Hh. rewrite geomean_unfold, pwv_map_items by apply change_na. rewrite E. cbn [rmap bind fst snd].
    rewrite !map_map. cbn [map_item change]. rewrite <- (map_map h (fun r => GVal (RFin r))). apply gm_finite; auto; [discriminate|].
    intros r I. apply in_map_iff in I as (s & <- & I). auto.
Qed.
Lemma geomean_rise h lo hi w rw v d g : 0 < lo -> usable lo hi d v -> (forall x, lo <= x <= hi -> x <= h x) ->
  geomean w rw v d = Ok (RFin g) -> exists g', geomean w rw (map_varg (change h) v) d = Ok (RFin g') /\ g <= g'.
Proof.
  intros Lo U I H. destruct (geomean_form lo hi w rw v d _ Lo U H) as (ws & rs & P & N & L & B & E & F). inversion E; subst g.
  exists (gm ws (map h rs)). split.
  - apply F. intros r R. pose proof (I r R). lra.
  - apply gm_le; [now apply nonneg_of|now apply weight_total_pos|intros x X; pose proof (B x X); lra|].
    apply forall2_map_self. intros x X. apply I. auto.
Qed.
Lemma geomean_products h k lo hi w rw v d g : 0 < lo -> usable lo hi d v ->
  (forall x, lo <= x <= hi -> 0 < h x /\ 0 < k x) -> geomean w rw v d = Ok g ->
  exists a b, geomean w rw (map_varg (change h) v) d = Ok (RFin a) /\ geomean w rw (map_varg (change k) v) d = Ok (RFin b) /\
    geomean w rw (map_varg (change (fun x => h x * k x)) v) d = Ok (RFin (a * b)).
Proof.
  intros Lo U I H. destruct (geomean_form lo hi w rw v d _ Lo U H) as (ws & rs & P & N & L & B & E & F).
  exists (gm ws (map h rs)), (gm ws (map k rs)). split; [apply F; intros; now apply I|]. split; [apply F; intros; now apply I|].
  rewrite <- gm_times_fun by (intros; apply I; auto). apply F. intros r R. destruct (I r R). now apply Rmult_lt_0_compat.
Qed.
Lemma geomean_powers a lo hi w rw v d g : 0 < lo -> usable lo hi d v -> geomean w rw v d = Ok (RFin g) ->
  geomean w rw (map_varg (change (fun x => Rpower x a)) v) d = Ok (RFin (Rpower g a)).
Proof.
  intros Lo U H. destruct (geomean_form lo hi w rw v d _ Lo U H) as (ws & rs & P & N & L & B & E & F). inversion E; subst g.
  rewrite <- gm_power by (intros r R; pose proof (B r R); lra). apply F. intros. apply exp_pos.
Qed.

(* ------------------------------------------------------------ lists *)
Lemma geomean_lists_rise w rw rs rs' ws d : Forall2 Rle rs rs' -> (forall r, In r rs -> 0 < r) -> nonneg ws -> 0 < weight_total ws ->
  length ws = length rs ->
  geomean w rw (VList (numbers rs)) d = Ok (RFin (power_product (weight_total ws) ws rs)) ->
  geomean w rw (VList (numbers rs')) d = Ok (RFin (power_product (weight_total ws) ws rs')) ->
  exists g g', geomean w rw (VList (numbers rs)) d = Ok (RFin g) /\ geomean w rw (VList (numbers rs')) d = Ok (RFin g') /\ g <= g'.
Proof.
  intros F P N W L E E'. eexists. eexists. split; [exact E|]. split; [exact E'|].
  assert (L' : length rs = length rs') by (clear - F; induction F; simpl; auto).
  rewrite <- !gm_product by congruence. now apply gm_le.
Qed.
Lemma risen_positive (rs rs' : list R) : Forall2 Rle rs rs' -> (forall r, In r rs -> 0 < r) -> forall r, In r rs' -> 0 < r.
Proof.
  induction 1 as [|x y rs rs' H F IH]; intros P r []; [subst; pose proof (P x ltac:(now left)); lra|].
  apply IH; auto. intros; apply P; now right.
Qed.
Lemma forall2_len {A B} (R : A -> B -> Prop) l m : Forall2 R l m -> length l = length m.
Proof. induction 1; simpl; auto. Qed.
Lemma lists_rise ws rs rs' d : Forall2 Rle rs rs' -> (forall r, In r rs -> 0 < r) -> nonneg ws -> length ws = length rs -> (0 < total ws)%Q ->
  (exists g g', geomean WNone WNone (VList (numbers rs)) d = Ok (RFin g) /\ geomean WNone WNone (VList (numbers rs')) d = Ok (RFin g') /\ g <= g') /\
  (exists g g', geomean WNone (WList (map Num ws)) (VList (numbers rs)) d = Ok (RFin g) /\
     geomean WNone (WList (map Num ws)) (VList (numbers rs')) d = Ok (RFin g') /\ g <= g') /\
  ((99#100 < total ws)%Q -> (total ws < 101#100)%Q ->
   exists g g', geomean (WList (map Num ws)) WNone (VList (numbers rs)) d = Ok (RFin g) /\
     geomean (WList (map Num ws)) WNone (VList (numbers rs')) d = Ok (RFin g') /\ g <= g').
Proof.
  intros F P N L T. pose proof (risen_positive _ _ F P) as P'. pose proof (forall2_len _ _ _ F) as LF.
  assert (W : 0 < weight_total ws) by (rewrite weight_total_total; now apply q2r_pos).
  split; [|split].
  - assert (NE : rs <> []) by (intros ->; destruct ws; [|discriminate]; simpl in W; lra).
    assert (NE' : rs' <> []) by (intros ->; destruct rs; [congruence|discriminate]).
    set (n := length rs) in *. set (q := (1 / inject_Z (Z.of_nat n))%Q) in *.
    assert (n <> 0%nat) by (unfold n; destruct rs; simpl; congruence).
    assert (Q : 0 < Q2R q) by (unfold q; rewrite q2r_part by auto; apply Rinv_0_lt_compat, lt_0_INR; lia).
    apply (geomean_lists_rise WNone WNone rs rs' (repeat q n) d); auto.
    + apply Forall_forall. intros x I. apply repeat_spec in I. subst x. apply Rle_Qle. rewrite RMicromega.Q2R_0. lra.
    + rewrite weight_total_repeat. apply Rmult_lt_0_compat; auto. apply lt_0_INR. lia.
    + apply repeat_length.
    + apply geomean_formula; auto; [apply unweighted_pwv; auto|destruct n; simpl; congruence].
    + apply geomean_formula; auto; [|destruct n; simpl; congruence]. unfold q. rewrite LF. apply unweighted_pwv; auto.
  - apply (geomean_lists_rise _ _ rs rs' ws d); auto; apply relative_formula; auto; congruence.
  - intros T1 T2. apply (geomean_lists_rise _ _ rs rs' ws d); auto; apply explicit_formula; auto; congruence.
Qed.
Lemma lists_mean ws rs d : (forall r, In r rs -> 0 < r) -> nonneg ws -> length ws = length rs -> (0 < total ws)%Q ->
  (exists g, geomean WNone (WList (map Num ws)) (VList (numbers rs)) d = Ok (RFin g) /\
     / arithmetic_mean ws (map Rinv rs) <= g <= arithmetic_mean ws rs) /\
  ((99#100 < total ws)%Q -> (total ws < 101#100)%Q ->
   exists g, geomean (WList (map Num ws)) WNone (VList (numbers rs)) d = Ok (RFin g) /\
     / arithmetic_mean ws (map Rinv rs) <= g <= arithmetic_mean ws rs).
Proof.
  intros P N L T. assert (W : 0 < weight_total ws) by (rewrite weight_total_total; now apply q2r_pos).
  split; [|intros T1 T2]; eexists; (split; [first [apply relative_formula; now auto|apply explicit_formula; now auto]|]);
    rewrite <- gm_product by auto; (split; [now apply gm_above|now apply gm_below]).
Qed.
Lemma dotp_repeat q rs : dotp (repeat q (length rs)) rs = Q2R q * sum_of rs.
Proof. induction rs as [|r rs IH]; simpl; [lra|]. rewrite IH. lra. Qed.
Lemma plain_mean rs d : (forall r, In r rs -> 0 < r) -> rs <> [] ->
  exists g, geomean WNone WNone (VList (numbers rs)) d = Ok (RFin g) /\ g <= sum_of rs / INR (length rs).
Proof.
  intros P NE. set (n := length rs). set (q := (1 / inject_Z (Z.of_nat n))%Q).
  assert (N0 : n <> 0%nat) by (unfold n; destruct rs; simpl; congruence).
  assert (IN : 0 < INR n) by (apply lt_0_INR; lia).
  assert (HQ : Q2R q = / INR n) by (unfold q; now apply q2r_part). assert (Q : 0 < Q2R q) by (rewrite HQ; now apply Rinv_0_lt_compat).
  assert (W : weight_total (repeat q n) = 1) by (rewrite weight_total_repeat, HQ; field; lra).
  eexists. split; [apply geomean_formula; [apply unweighted_pwv; auto| |auto]; fold n; fold q; destruct n; simpl; congruence|].
  fold n. fold q. rewrite <- gm_product by apply repeat_length.
  apply Rle_trans with (arithmetic_mean (repeat q n) rs).
  - apply gm_below; auto.
    + apply Forall_forall. intros x I. apply repeat_spec in I. subst x. apply Rle_Qle. rewrite RMicromega.Q2R_0. lra.
    + lra.
    + apply repeat_length.
  - unfold arithmetic_mean. rewrite weighted_total_dotp, W. unfold n. rewrite dotp_repeat. fold n. rewrite HQ. right. field. lra.
Qed.

(* ------------------------------------------------------------ odds *)
Definition odds (p : R) : R := p / (1 - p).
Definition chance (o : R) : R := o / (1 + o).
Lemma geomean_odds_rise h lo hi w rw v d p : 0 < lo -> hi < 1 -> usable lo hi d v -> (forall x, lo <= x <= hi -> x <= h x < 1) ->
  geomean_odds w rw v d = Ok (RScalar (RFin p)) ->
  exists p', geomean_odds w rw (map_varg (change h) v) d = Ok (RScalar (RFin p')) /\ p <= p' < 1.
Proof.
  intros Lo Hi U HH H. rewrite geomean_odds_unfold in H.
  apply bind_ok in H as ([ws vs] & E & H). cbn [fst snd] in H. apply bind_ok in H as (xs & M & H).
  destruct (geomean_works _ _ _ _ _ _ _ _ _ U E M) as (rs & -> & B). pose proof (gnum_inv _ _ M). subst vs.
  rewrite odds_finite in H by (intros r I; pose proof (B r I); lra). cbn [bind] in H.
  rewrite geomean_odds_unfold, pwv_map_items by apply change_na. rewrite E. cbn [rmap bind fst snd].
  rewrite gnum_map, gnum_vals. cbn [rmap bind]. rewrite map_map. cbn [change].
  rewrite <- (map_map h RFin), odds_finite.
  2: { intros r I. apply in_map_iff in I as (s & <- & I). pose proof (B s I). pose proof (HH s ltac:(lra)). lra. }
  cbn [bind]. change (map (fun p0 => p0 / (1 - p0)) rs) with (map odds rs) in H.
  set (h' := fun o => odds (h (chance o))).
  assert (EH : map (fun p0 => p0 / (1 - p0)) (map h rs) = map h' (map odds rs)).
  { rewrite !map_map. apply map_ext_in. intros r I. unfold h', chance, odds. rewrite prob_odds; auto. pose proof (B r I). lra. }
  rewrite EH. clear EH.
  assert (Bo : forall o, In o (map odds rs) -> odds lo <= o <= odds hi).
  { intros o I. apply in_map_iff in I as (r & <- & I). pose proof (B r I). split; apply odds_le; lra. }
  destruct rs as [|r1 [|r2 rs]]; [discriminate|discriminate|]. set (os := map odds (r1 :: r2 :: rs)) in *.
  assert (LH : lo <= hi) by (pose proof (B r1 ltac:(now left)); lra).
  assert (P0 : 0 < odds lo) by (apply Rdiv_lt_0_compat; lra).
  unfold odds_tail in *. change (rsimplify (map RFin os)) with (RSeq (map RFin os)) in H.
  change (rsimplify (map RFin (map h' os))) with (RSeq (map RFin (map h' os))). cbn iota in *.
  apply bind_ok in H as (g & Hg & H).
  assert (Us : usable (odds lo) (odds hi) true (VArray (map GVal (map RFin os)))).
  { clear - Bo. clearbody os. intros x Ox. left. inversion Ox as [v0 l i S I Ev|]; subst; inversion S; subst.
    rewrite map_map in I. apply in_map_iff in I as (o & <- & I). exists o. split; auto. }
  destruct (geomean_bounds _ _ _ _ _ _ _ P0 Us Hg) as (o & -> & Ho).
  assert (CH : forall x, odds lo <= x <= odds hi -> lo <= chance x <= hi).
  { intros x X. unfold chance, odds in *. pose proof (prob_le (lo / (1 - lo)) x P0 ltac:(lra)) as K1.
    pose proof (prob_le x (hi / (1 - hi)) ltac:(lra) ltac:(lra)) as K2. rewrite prob_odds in K1, K2 by lra. lra. }
  assert (CO : forall x, 0 < x -> odds (chance x) = x) by (intros x X; now apply odds_prob).
  assert (HR : forall x, odds lo <= x <= odds hi -> x <= h' x).
  { intros x X. unfold h'. pose proof (CH x X) as C. pose proof (HH _ C) as Y. rewrite <- (CO x) at 1 by lra. apply odds_le; lra. }
  destruct (geomean_rise h' (odds lo) (odds hi) _ _ _ _ o P0 Us HR Hg) as (o' & Eo & Lo').
  cbn [map_varg] in Eo. rewrite !map_map in Eo. cbn [map_item change] in Eo.
  rewrite <- (map_map h' (fun x => GVal (RFin x))) in Eo. rewrite <- (map_map RFin GVal) in Eo. rewrite Eo. cbn [bind].
  unfold odds_to_p in *. cbn [renlist mapM] in *. destruct (prob_value o ltac:(lra)) as [Ep _]. rewrite Ep in H.
  destruct (prob_value o' ltac:(lra)) as [Ep' R']. rewrite Ep'. cbn [bind rsimplify] in *. inversion H; subst p.
  eexists. split; [reflexivity|]. split; [apply prob_le; lra|]. lra.
Qed.
