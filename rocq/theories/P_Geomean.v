(** Lemmas about geometric means. *)
From Coq Require Import Reals Lra Permutation Qreals.
From Verif Require Import Base M_Weights SpecWeights P_Weights P_Weights2 M_Formulas SpecFormulas P_Sampler P_PwvMap P_Formulas.
Open Scope R_scope.

Lemma filter_loop_out {A} ws : forall (vs : list A) a b, filter_loop ws vs = Ok (a, b) -> positive a /\ length a = length b.
Proof.
  induction ws as [|w ws IH]; intros [|v vs] a b H; simpl in H; try discriminate;
    try (inversion H; subst; split; [constructor|reflexivity]).
  destruct (Qlt_bool w 0); [discriminate|]. apply bind_ok in H as ([a' b'] & H & E). apply IH in H as [P L].
  destruct (Qlt_bool 0 w) eqn:Q; inversion E; subst; simpl; auto.
  split; [constructor; auto; now apply Qlt_bool_iff|congruence].
Qed.
Lemma finish_out {A} rel ws p (vs : list A) a b : fst (finish rel ws p vs) = Ok (a, b) -> positive a /\ length a = length b.
Proof.
  unfold finish, numpy_zero_sum. intros H.
  repeat (match goal with
          | K : context [match ?y with _ => _ end] |- _ => destruct y
          end; cbn [fst] in H; try discriminate; try (inversion H; subst; split; [constructor|reflexivity]);
          try (eapply filter_loop_out; eassumption)).
Qed.
Lemma fill_out {A} pa na d rel ws (l : list A) a b :
  fst (fill_weights pa na d rel ws l) = Ok (a, b) -> positive a /\ length a = length b.
Proof.
  unfold fill_weights. intros H. destruct ws as [[cs p]|].
  - destruct (d && _); [discriminate|]. eauto using finish_out.
  - destruct l as [|v0 l]; [discriminate|]. destruct (pa v0).
    + destruct (mapM _ _) as [ps|e]; [|discriminate]. destruct (d && _); [discriminate|]. eauto using finish_out.
    + eauto using finish_out.
Qed.
Lemma pwv_out {A} pa na w rw (v : varg A) d a b : fst (pwv pa na w rw v d) = Ok (a, b) -> positive a /\ length a = length b.
Proof.
  unfold pwv. destruct (negb (wnone w) && negb (wnone rw)); [discriminate|].
  destruct (values_missing v); [discriminate|].
  destruct (weights_of_warg _) as [ws|e]; [|discriminate].
  assert (FI : forall l, fst (fill_weights pa na d (negb (wnone rw)) ws l) = Ok (a, b) -> positive a /\ length a = length b).
  { intros l H. eauto using fill_out. }
  destruct v as [| |l|l|l|l|l]; cbn [fst]; intros H; try discriminate; eauto.
  destruct ws; [discriminate|]. cbn [fst] in H. eauto using fill_out.
Qed.

Lemma q2r_pos q : (0 < q)%Q -> 0 < Q2R q.
Proof. intros H. apply Qlt_Rlt in H. unfold Q2R in H at 1. simpl in H. lra. Qed.
Lemma weight_total_pos ws : positive ws -> ws <> [] -> 0 < weight_total ws.
Proof.
  induction 1 as [|w ws H F IH]; intros N; [congruence|]. simpl. pose proof (q2r_pos _ H).
  destruct ws; simpl; [lra|]. specialize (IH ltac:(discriminate)). simpl in IH. lra.
Qed.

Fixpoint dotp (ws : list Q) (xs : list R) : R :=
  match ws, xs with w :: ws', x :: xs' => Q2R w * x + dotp ws' xs' | _, _ => 0 end.
Lemma weighted_sum_fin ws : forall xs, weighted_sum ws (map RFin xs) = RFin (dotp ws xs).
Proof. induction ws; intros [|x xs]; simpl; auto. rewrite IHws. reflexivity. Qed.

Lemma dotp_bounds ws : positive ws -> forall xs lo hi, length ws = length xs -> (forall x, In x xs -> lo <= x <= hi) ->
  lo * weight_total ws <= dotp ws xs <= hi * weight_total ws.
Proof.
  induction 1 as [|w ws H F IH]; intros [|x xs] lo hi L B; simpl in L; try discriminate; simpl; [lra|].
  pose proof (q2r_pos _ H). pose proof (B x ltac:(now left)).
  pose proof (IH xs lo hi ltac:(congruence) ltac:(intros; apply B; now right)). nra.
Qed.

Lemma average_fin ws xs : positive ws -> ws <> [] -> average ws (map RFin xs) = Ok (RFin (/ weight_total ws * dotp ws xs)).
Proof.
  intros P N. unfold average. pose proof (weight_total_pos _ P N). rcases; [lra|].
  rewrite weighted_sum_fin. reflexivity.
Qed.

Lemma logs_fin xs : (forall x, In x xs -> 0 < x) -> mapM np_log (map RFin xs) = Ok (map RFin (map ln xs)).
Proof.
  induction xs as [|x xs IH]; intros P; simpl; auto. pose proof (P x ltac:(now left)). destruct (Rlt_dec 0 x); [|contradiction]. cbn [bind].
  rewrite IH by (intros; apply P; now right). reflexivity.
Qed.

Lemma mapM_in {A B} (f : A -> res B) l : forall m, mapM f l = Ok m -> forall y, In y m -> exists x, In x l /\ f x = Ok y.
Proof.
  induction l as [|x l IH]; simpl; intros m H y I; [inversion H; subst; destruct I|].
  apply bind_ok in H as (z & Hz & H). apply bind_ok in H as (zs & Hs & H). inversion H; subst.
  destruct I as [<-|I]; [eauto|]. destruct (IH _ Hs _ I) as (x' & ? & ?). eauto.
Qed.
Lemma mapM_len {A B} (f : A -> res B) l : forall m, mapM f l = Ok m -> length m = length l.
Proof.
  induction l as [|x l IH]; simpl; intros m H; [inversion H; reflexivity|].
  apply bind_ok in H as (z & Hz & H). apply bind_ok in H as (zs & Hs & H). inversion H; subst. simpl. f_equal. auto.
Qed.

(** What a successful call worked with. *)
Lemma occurs_in v i x : went_in g_pair i v -> g_num i = Ok x -> occurs x v.
Proof.
  intros W E. assert (V : item_value i = x) by (destruct i; simpl in *; congruence).
  inversion W; subst.
  - eapply occ_seq; eauto.
  - destruct e as [|c y]; simpl in *; try discriminate.
    match goal with K : Some _ = Some _ |- _ => inversion K; subst end. eapply occ_seq; eauto.
  - eapply occ_dict; eauto.
Qed.


Lemma finite_list lo hi xs : (forall x, In x xs -> exists r, x = RFin r /\ lo <= r <= hi) ->
  exists rs, xs = map RFin rs /\ forall r, In r rs -> lo <= r <= hi.
Proof.
  induction xs as [|x xs IH]; intros H; [exists []; split; [reflexivity|intros ? []]|].
  destruct IH as (rs & -> & B); [intros; apply H; now right|]. destruct (H x ltac:(now left)) as (r & -> & R).
  exists (r :: rs). split; [reflexivity|]. intros y [<-|Y]; auto.
Qed.

Lemma ln_le' a b : 0 < a -> a <= b -> ln a <= ln b.
Proof. intros H [K|K]; [left; now apply ln_increasing|right; now subst]. Qed.

(** The mean of positive finite numbers. *)
Definition gm (ws : list Q) (rs : list R) : R := exp (/ weight_total ws * dotp ws (map ln rs)).
Lemma gm_bounds ws rs lo hi : positive ws -> ws <> [] -> length ws = length rs -> 0 < lo ->
  (forall r, In r rs -> lo <= r <= hi) -> lo <= gm ws rs <= hi.
Proof.
  intros P N L Lo B. pose proof (weight_total_pos _ P N) as W.
  assert (0 < hi). { destruct rs as [|r rs]; [destruct ws; simpl in L; congruence|]. pose proof (B r ltac:(now left)). lra. }
  assert (D : ln lo * weight_total ws <= dotp ws (map ln rs) <= ln hi * weight_total ws).
  { apply dotp_bounds; auto; [now rewrite map_length|]. intros x I. apply in_map_iff in I as (r & <- & I).
    pose proof (B r I). split; apply ln_le'; lra. }
  assert (E : ln lo <= / weight_total ws * dotp ws (map ln rs) <= ln hi).
  { split; apply Rmult_le_reg_l with (weight_total ws); auto; rewrite <- ?Rmult_assoc, ?Rinv_r by lra; lra. }
  assert (EL : forall a b, a <= b -> exp a <= exp b).
  { intros a b [K|K]; [left; now apply exp_increasing|right; now f_equal]. }
  unfold gm. split.
  - apply Rle_trans with (exp (ln lo)); [rewrite exp_ln by auto; lra|]. now apply EL.
  - apply Rle_trans with (exp (ln hi)); [now apply EL|rewrite exp_ln by auto; lra].
Qed.

(** Evaluating [geomean] after weight processing. *)
Definition gm_of (ws : list Q) (vs : list gitem) : res rnum :=
  do xs <- mapM g_num vs;
  do logs <- mapM np_log xs;
  do m <- average ws logs;
  Ok (np_exp m).
Lemma geomean_unfold w rw v d : geomean w rw v d = do wa <- fst (pwv g_pair g_na w rw v d); gm_of (fst wa) (snd wa).
Proof. reflexivity. Qed.

Lemma gnum_vals rs : mapM g_num (map GVal rs) = Ok rs.
Proof. induction rs; simpl; auto. now rewrite IHrs. Qed.
Lemma gnum_inv vs xs : mapM g_num vs = Ok xs -> vs = map GVal xs.
Proof.
  revert xs. induction vs as [|i vs IH]; simpl; intros xs H; [inversion H; reflexivity|].
  apply bind_ok in H as (z & Hz & H). apply bind_ok in H as (zs & Hs & H). inversion H; subst.
  destruct i; simpl in *; try discriminate. inversion Hz; subst. now rewrite (IH _ Hs).
Qed.
Lemma gm_finite ws rs : positive ws -> ws <> [] -> (forall r, In r rs -> 0 < r) ->
  gm_of ws (map (fun r => GVal (RFin r)) rs) = Ok (RFin (gm ws rs)).
Proof.
  intros P N B. unfold gm_of. rewrite <- (map_map RFin GVal), gnum_vals. cbn [bind]. rewrite logs_fin by auto. cbn [bind].
  rewrite average_fin by auto. reflexivity.
Qed.

Lemma radd_nan a : radd RNan a = RNan /\ radd a RNan = RNan.
Proof. destruct a; auto. Qed.
Lemma weighted_nan ws : forall l, length ws = length l -> In RNan l -> weighted_sum ws l = RNan.
Proof.
  induction ws as [|w ws IH]; intros [|x l] L I; simpl in *; try discriminate; [destruct I|].
  destruct I as [->|I]; [apply radd_nan|]. rewrite IH by (auto; congruence). apply radd_nan.
Qed.

Lemma geomean_works lo hi w rw v d ws vs xs : usable lo hi d v ->
  fst (pwv g_pair g_na w rw v d) = Ok (ws, vs) -> mapM g_num vs = Ok xs ->
  exists rs, xs = map RFin rs /\ (forall r, In r rs -> lo <= r <= hi).
Proof.
  intros U E M. apply finite_list. intros x I.
  pose proof (gnum_inv _ _ M). subst vs.
  assert (W : went_in g_pair (GVal x) v) by (eapply pwv_in; eauto; now apply in_map).
  destruct (U x) as [R|(D & NA)]; [eapply occurs_in; eauto; reflexivity|auto|].
  subst d. pose proof (pwv_no_na _ _ _ _ _ _ _ (GVal x) E ltac:(now apply in_map)) as K. simpl in K. congruence.
Qed.

Lemma geomean_bounds lo hi w rw v d g : 0 < lo -> usable lo hi d v -> geomean w rw v d = Ok g ->
  exists r, g = RFin r /\ lo <= r <= hi.
Proof.
  intros Lo U H. rewrite geomean_unfold in H. apply bind_ok in H as ([ws vs] & E & H). cbn [fst snd] in H.
  destruct (pwv_out _ _ _ _ _ _ _ _ E) as [P L]. pose proof H as H0. unfold gm_of in H.
  apply bind_ok in H as (xs & M & H). destruct (geomean_works _ _ _ _ _ _ _ _ _ U E M) as (rs & -> & B).
  pose proof (gnum_inv _ _ M). subst vs. destruct ws as [|w0 ws].
  - destruct rs; [|discriminate]. simpl in H. unfold average in H. simpl in H. rcases; [discriminate|lra].
  - rewrite map_map in H0. rewrite gm_finite in H0; auto; [|discriminate|intros r I; pose proof (B r I); lra].
    inversion H0; subst. eexists; split; [reflexivity|]. apply gm_bounds; auto; [discriminate|].
    rewrite L, !map_length. reflexivity.
Qed.

(* ---------------------------------------------------------------- mapping the values *)
Lemma map_varg_vmap f v : map_varg f v = vmap (map_item f) v.
Proof. destruct v; reflexivity. Qed.
Lemma pwv_map_items f w rw v d : (forall x, na_like (f x) = na_like x) ->
  fst (pwv g_pair g_na w rw (map_varg f v) d) =
  rmap (fun wv => (fst wv, map (map_item f) (snd wv))) (fst (pwv g_pair g_na w rw v d)).
Proof.
  intros N. rewrite map_varg_vmap. apply pwv_map.
  - intros [x|c x]; reflexivity.
  - intros [x|c x]; simpl; auto.
Qed.
Lemma gnum_map f vs : mapM g_num (map (map_item f) vs) = rmap (map f) (mapM g_num vs).
Proof.
  induction vs as [|i vs IH]; simpl; auto. destruct i; simpl; auto. rewrite IH. destruct (mapM g_num vs); reflexivity.
Qed.
Lemma mapM_map_through {A} (f : A -> A) (l2 : A -> A) (g : A -> res A) xs :
  (forall x, g (f x) = rmap l2 (g x)) -> mapM g (map f xs) = rmap (map l2) (mapM g xs).
Proof.
  intros H. induction xs as [|x xs IH]; simpl; auto. rewrite H, IH. destruct (g x); simpl; auto.
  destruct (mapM g xs); reflexivity.
Qed.

Definition shift (c : R) (v : rnum) : rnum := match v with RFin x => RFin (c + x) | _ => v end.
Lemma log_times k x : 0 < k -> np_log (times k x) = rmap (shift (ln k)) (np_log x).
Proof.
  intros K. destruct x as [x| | | |]; simpl; auto.
  destruct (Rlt_dec 0 x) as [P|P].
  - destruct (Rlt_dec 0 (k * x)) as [Q|Q]; [|exfalso; apply Q; now apply Rmult_lt_0_compat].
    simpl. rewrite ln_mult by auto. reflexivity.
  - destruct (Rlt_dec 0 (k * x)) as [Q|Q]; [exfalso; nra|].
    destruct (Req_EM_T x 0) as [Z|Z], (Req_EM_T (k * x) 0) as [Z'|Z']; auto.
    + subst x. exfalso. apply Z'. ring.
    + exfalso. apply Rmult_integral in Z' as [?|?]; [lra|contradiction].
Qed.
Lemma weighted_shift c ws : positive ws -> forall l, length ws = length l ->
  weighted_sum ws (map (shift c) l) = shift (c * weight_total ws) (weighted_sum ws l).
Proof.
  induction 1 as [|w ws H F IH]; intros [|x l] L; simpl in *; try discriminate.
  - f_equal. ring.
  - rewrite IH by congruence. pose proof (q2r_pos _ H).
    destruct x, (weighted_sum ws l); simpl; rcases; simpl; auto; try lra; f_equal; ring.
Qed.
Lemma average_shift c ws l : positive ws -> length ws = length l ->
  average ws (map (shift c) l) = rmap (shift c) (average ws l).
Proof.
  intros P L. unfold average. destruct (Req_EM_T (weight_total ws) 0) as [Z|Z]; [reflexivity|]. simpl.
  rewrite weighted_shift by auto. destruct (weighted_sum ws l); simpl; rcases; simpl; auto.
  do 2 f_equal. field. auto.
Qed.
Lemma exp_shift k v : 0 < k -> np_exp (shift (ln k) v) = times k (np_exp v).
Proof.
  intros K. destruct v; simpl; auto; f_equal; [|ring]. rewrite exp_plus, exp_ln; auto.
Qed.

Lemma gm_times k ws vs : 0 < k -> positive ws -> length ws = length vs ->
  gm_of ws (map (map_item (times k)) vs) = rmap (times k) (gm_of ws vs).
Proof.
  intros K P L. unfold gm_of. rewrite gnum_map. destruct (mapM g_num vs) as [xs|e] eqn:M; simpl; auto.
  rewrite (mapM_map_through (times k) (shift (ln k)) np_log) by (intros; now apply log_times).
  destruct (mapM np_log xs) as [logs|e] eqn:G; simpl; auto.
  rewrite average_shift; auto.
  - destruct (average ws logs); simpl; auto. now rewrite exp_shift.
  - apply mapM_len in M. apply mapM_len in G. congruence.
Qed.
Lemma times_na k x : na_like (times k x) = na_like x.
Proof. destruct x; reflexivity. Qed.
Lemma rmap_map_res {A B} (f : A -> B) r : rmap f r = map_res f r.
Proof. destruct r; reflexivity. Qed.
Lemma geomean_times k w rw v d : 0 < k -> geomean w rw (map_varg (times k) v) d = map_res (times k) (geomean w rw v d).
Proof.
  intros K. rewrite !geomean_unfold, (pwv_map_items (times k)) by (intros; apply times_na).
  destruct (fst (pwv g_pair g_na w rw v d)) as [[ws vs]|e] eqn:E; simpl; auto.
  destruct (pwv_out _ _ _ _ _ _ _ _ E) as [P L]. rewrite gm_times by auto. apply rmap_map_res.
Qed.

(* ---------------------------------------------------------------- the formula *)
Lemma gm_product ws rs : length ws = length rs ->
  gm ws rs = power_product (weight_total ws) ws rs.
Proof.
  unfold gm. generalize (weight_total ws) as W. intros W. revert rs.
  induction ws as [|w ws IH]; intros [|r rs] L; simpl in *; try discriminate.
  - rewrite Rmult_0_r. apply exp_0.
  - rewrite <- IH by congruence. unfold Rpower. rewrite <- exp_plus. f_equal. unfold Rdiv. ring.
Qed.
Lemma geomean_formula ws rs w rw v d : fst (pwv g_pair g_na w rw v d) = Ok (ws, numbers rs) -> ws <> [] ->
  (forall r, In r rs -> 0 < r) -> geomean w rw v d = Ok (RFin (power_product (weight_total ws) ws rs)).
Proof.
  intros E N B. rewrite geomean_unfold, E. cbn [bind fst snd]. destruct (pwv_out _ _ _ _ _ _ _ _ E) as [P L].
  unfold numbers. rewrite gm_finite by auto. do 2 f_equal. apply gm_product. now rewrite L; unfold numbers; rewrite map_length.
Qed.
