(** Geometric means of odds. *)
From Coq Require Import Reals Lra Permutation Qreals.
From Verif Require Import Base M_Weights SpecWeights P_Weights P_Weights2 M_Formulas SpecFormulas P_Sampler P_PwvMap P_Formulas P_Geomean P_Geomean2.
Open Scope R_scope.

(* ---------------------------------------------------------------- reciprocals *)
Definition recip (v : rnum) : rnum := match v with RFin x => RFin (/ x) | _ => v end.
Definition negate (v : rnum) : rnum := match v with RFin x => RFin (- x) | _ => v end.
Definition tame (v : rnum) : Prop := match v with RFin _ | RNan => True | _ => False end.

Lemma log_recip x : odds_or_na x -> np_log (recip x) = rmap negate (np_log x) /\ (forall y, np_log x = Ok y -> tame y).
Proof.
  destruct x as [x| | | |]; simpl; intros P; try contradiction; try (split; [reflexivity|intros y H; inversion H; simpl; auto]).
  destruct (Rlt_dec 0 x); [|contradiction].
  destruct (Rlt_dec 0 (/ x)) as [Q|Q]; [|exfalso; apply Q; now apply Rinv_0_lt_compat].
  split; [|intros y H; inversion H; simpl; auto]. simpl. now rewrite ln_Rinv.
Qed.
Lemma logs_recip xs : Forall odds_or_na xs ->
  mapM np_log (map recip xs) = rmap (map negate) (mapM np_log xs) /\ (forall ys, mapM np_log xs = Ok ys -> Forall tame ys).
Proof.
  induction 1 as [|x xs H F [IH1 IH2]]; simpl.
  - split; [reflexivity|]. intros ys E; inversion E; constructor.
  - destruct (log_recip x H) as [A B]. rewrite A, IH1. split.
    + destruct (np_log x); simpl; auto. destruct (mapM np_log xs); reflexivity.
    + intros ys E. apply bind_ok in E as (y & Ey & E). apply bind_ok in E as (zs & Ez & E). inversion E; subst. constructor; auto.
Qed.
Lemma weighted_negate ws : forall l, Forall tame l ->
  weighted_sum ws (map negate l) = negate (weighted_sum ws l) /\ tame (weighted_sum ws l).
Proof.
  induction ws as [|w ws IH]; intros l F; simpl.
  - split; [|exact I]. f_equal. ring.
  - destruct F as [|x l T F]; simpl; [split; [f_equal; ring|exact I]|].
    destruct (IH l F) as [A B]. rewrite A. destruct x, (weighted_sum ws l); simpl in *; try contradiction; split; auto; f_equal; ring.
Qed.
Lemma average_negate ws l : Forall tame l ->
  average ws (map negate l) = rmap negate (average ws l) /\ (forall m, average ws l = Ok m -> tame m).
Proof.
  intros F. unfold average. destruct (Req_EM_T _ 0); [split; [reflexivity|discriminate]|].
  destruct (weighted_negate ws l F) as [A B]. rewrite A. destruct (weighted_sum ws l); simpl in *; try contradiction.
  - split; [|intros m E; inversion E; exact I]. simpl. do 2 f_equal. ring.
  - split; [reflexivity|intros m E; inversion E; exact I].
Qed.
Lemma gm_recip ws xs : Forall odds_or_na xs ->
  gm_of ws (map GVal (map recip xs)) = rmap recip (gm_of ws (map GVal xs)) /\
  (forall g, gm_of ws (map GVal xs) = Ok g -> match g with RFin o => 0 < o | RNan => True | _ => False end).
Proof.
  intros F. unfold gm_of. rewrite !gnum_vals. cbn [bind]. destruct (logs_recip xs F) as [A B]. rewrite A.
  destruct (mapM np_log xs) as [ys|e]; cbn [rmap bind]; [|split; [reflexivity|discriminate]].
  destruct (average_negate ws ys (B _ eq_refl)) as [C D]. rewrite C.
  destruct (average ws ys) as [m|e]; cbn [rmap bind]; [|split; [reflexivity|discriminate]].
  pose proof (D _ eq_refl) as T. destruct m; simpl in *; try contradiction.
  - split; [do 2 f_equal; apply exp_Ropp|]. intros g E; inversion E. apply exp_pos.
  - split; [reflexivity|]. intros g E; inversion E; auto.
Qed.
Lemma recip_na x : na_like (recip x) = na_like x.
Proof. destruct x; reflexivity. Qed.

Lemma array_in w os d ws vs : fst (pwv g_pair g_na w WNone (VArray (map GVal os)) d) = Ok (ws, vs) ->
  exists xs, vs = map GVal xs /\ forall x, In x xs -> In x os.
Proof.
  intros E. assert (H : forall i, In i vs -> exists x, i = GVal x /\ In x os).
  { intros i I. pose proof (pwv_in _ _ _ _ _ _ _ _ _ E I) as W. inversion W as [v l S J|v l e w' S J K|l w' J]; subst; inversion S; subst.
    - apply in_map_iff in J as (x & <- & J). eauto.
    - apply in_map_iff in J as (x & <- & J). discriminate. }
  clear E. induction vs as [|i vs IH].
  - exists []. split; [reflexivity|intros x []].
  - destruct IH as (xs & -> & B); [intros; apply H; now right|]. destruct (H i ltac:(now left)) as (x & -> & J).
    exists (x :: xs). split; [reflexivity|]. intros y [<-|Y]; auto.
Qed.
Lemma geomean_recip w os : Forall odds_or_na os ->
  geomean w WNone (VArray (map GVal (map recip os))) true = rmap recip (geomean w WNone (VArray (map GVal os)) true) /\
  (forall g, geomean w WNone (VArray (map GVal os)) true = Ok g -> match g with RFin o => 0 < o | RNan => True | _ => False end).
Proof.
  intros F. rewrite !geomean_unfold.
  assert (E : VArray (map GVal (map recip os)) = map_varg recip (VArray (map GVal os))).
  { simpl. f_equal. rewrite !map_map. reflexivity. }
  rewrite E, (pwv_map_items recip) by (intros; apply recip_na).
  destruct (fst (pwv g_pair g_na w WNone (VArray (map GVal os)) true)) as [[ws vs]|e] eqn:Ep; cbn [rmap bind fst snd];
    [|split; [reflexivity|discriminate]].
  destruct (array_in _ _ _ _ _ Ep) as (xs & -> & I).
  assert (F' : Forall odds_or_na xs) by (apply Forall_forall; intros x J; eapply Forall_forall; [exact F|auto]).
  replace (map (map_item recip) (map GVal xs)) with (map GVal (map recip xs)) by (rewrite !map_map; reflexivity).
  apply gm_recip; auto.
Qed.

(* ---------------------------------------------------------------- complements *)
Lemma complement_na x : na_like (complement x) = na_like x.
Proof. destruct x; reflexivity. Qed.
Lemma odds_complement x : odds_of (complement x) = rmap recip (odds_of x).
Proof.
  destruct x as [p| | | |]; try reflexivity. unfold odds_of. simpl. rcases; try lra; auto. simpl. do 2 f_equal. field. split; lra.
Qed.
Lemma odds_good x o : odds_of x = Ok o -> odds_or_na o.
Proof.
  destruct x as [p| | | |]; unfold odds_of; simpl; try discriminate; try (intros H; inversion H; simpl; auto).
  clear H1. rcases; try discriminate. inversion H; subst. simpl. apply Rdiv_lt_0_compat; lra.
Qed.
Lemma p_to_odds_seq xs : p_to_odds (RSeq xs) = rmap rsimplify (mapM odds_of xs).
Proof. unfold p_to_odds. simpl. destruct (mapM odds_of xs); reflexivity. Qed.

Definition odds_tail (ws : list Q) (os : list rnum) : res rarg :=
  do g <- geomean (WList (map Num ws)) WNone
            (match rsimplify os with RScalar RNone => VNone | RScalar _ => VNonIter | RSeq l => VArray (map GVal l) end) true;
  odds_to_p (RScalar g).
Lemma geomean_odds_unfold w rw v d : geomean_odds w rw v d =
  do wa <- fst (pwv g_pair g_na w rw v d);
  do vs <- mapM g_num (snd wa);
  do os <- mapM odds_of vs; odds_tail (fst wa) os.
Proof.
  unfold geomean_odds, odds_tail. destruct (fst (pwv g_pair g_na w rw v d)) as [wa|e]; auto. cbn [bind].
  destruct (mapM g_num (snd wa)) as [vs|e]; auto. cbn [bind]. rewrite p_to_odds_seq. destruct (mapM odds_of vs); reflexivity.
Qed.

Lemma prob_recip g : match g with RFin o => 0 < o | RNan => True | _ => False end ->
  odds_to_p (RScalar (recip g)) = rmap complement_arg (odds_to_p (RScalar g)).
Proof.
  unfold odds_to_p. simpl. destruct g as [o| | | |]; simpl; try contradiction; auto. intros P.
  unfold prob_of. simpl. pose proof (Rinv_0_lt_compat _ P).
  destruct (Rle_dec (/ o) 0); [lra|]. destruct (Rle_dec o 0); [lra|]. simpl. do 3 f_equal. field. split; lra.
Qed.

Lemma odds_tail_recip ws os : Forall odds_or_na os -> odds_tail ws (map recip os) = rmap complement_arg (odds_tail ws os).
Proof.
  intros F. unfold odds_tail. destruct os as [|o1 [|o2 os]]; [| |].
  - reflexivity.
  - destruct o1; reflexivity.
  - set (L := o1 :: o2 :: os) in *.
    assert (rsimplify (map recip L) = RSeq (map recip L)) as -> by reflexivity.
    assert (rsimplify L = RSeq L) as -> by reflexivity.
    destruct (geomean_recip (WList (map Num ws)) L F) as [A B]. rewrite A.
    destruct (geomean _ _ (VArray (map GVal L)) true) as [g|e]; cbn [rmap bind]; auto. apply prob_recip. now apply B.
Qed.

Lemma mapM_forall {A B} (f : A -> res B) (P : B -> Prop) l : (forall x y, f x = Ok y -> P y) ->
  forall m, mapM f l = Ok m -> Forall P m.
Proof.
  intros H m E. apply Forall_forall. intros y I. destruct (mapM_in _ _ _ E _ I) as (x & _ & Fx). eauto.
Qed.

Lemma geomean_odds_complement w rw v d :
  geomean_odds w rw (map_varg complement v) d = map_res complement_arg (geomean_odds w rw v d).
Proof.
  rewrite !geomean_odds_unfold, (pwv_map_items complement) by (intros; apply complement_na).
  destruct (fst (pwv g_pair g_na w rw v d)) as [[ws vs]|e]; cbn [rmap bind fst snd map_res]; auto.
  rewrite gnum_map. destruct (mapM g_num vs) as [xs|e]; cbn [rmap bind fst snd map_res]; auto.
  rewrite (mapM_map_through complement recip odds_of) by apply odds_complement.
  destruct (mapM odds_of xs) as [os|e] eqn:E; cbn [rmap bind fst snd map_res]; auto.
  rewrite odds_tail_recip; [apply rmap_map_res|]. eapply mapM_forall; [|exact E]. intros; eapply odds_good; eauto.
Qed.

(* ---------------------------------------------------------------- bounds *)
Lemma odds_finite rs : (forall r, In r rs -> 0 < r < 1) ->
  mapM odds_of (map RFin rs) = Ok (map RFin (map (fun p => p / (1 - p)) rs)).
Proof.
  induction rs as [|r rs IH]; intros B; [reflexivity|]. cbn [map mapM].
  destruct (odds_value r (B r ltac:(now left))) as [-> _]. cbn [bind]. rewrite IH by (intros; apply B; now right). reflexivity.
Qed.
Lemma odds_le p q : 0 < p -> p <= q -> q < 1 -> p / (1 - p) <= q / (1 - q).
Proof. intros A [B|B] C; [left; now apply odds_increasing|right; now subst]. Qed.
Lemma prob_le o u : 0 < o -> o <= u -> o / (1 + o) <= u / (1 + u).
Proof. intros A [B|B]; [left; now apply prob_increasing|right; now subst]. Qed.
Lemma prob_odds p : 0 < p < 1 -> p / (1 - p) / (1 + p / (1 - p)) = p.
Proof. intros H. field. split; lra. Qed.

Lemma geomean_odds_bounds lo hi w rw v d a : 0 < lo -> hi < 1 -> usable lo hi d v -> geomean_odds w rw v d = Ok a ->
  exists p, a = RScalar (RFin p) /\ lo <= p <= hi.
Proof.
  intros Lo Hi U H. rewrite geomean_odds_unfold in H.
  apply bind_ok in H as ([ws vs] & E & H). cbn [fst snd] in H. apply bind_ok in H as (xs & M & H).
  destruct (geomean_works _ _ _ _ _ _ _ _ _ U E M) as (rs & -> & B).
  rewrite odds_finite in H by (intros r I; pose proof (B r I); lra). cbn [bind] in H.
  unfold odds_tail in H. apply bind_ok in H as (g & Hg & H).
  set (os := map (fun p => p / (1 - p)) rs) in *.
  assert (Bo : forall o, In o os -> lo / (1 - lo) <= o <= hi / (1 - hi)).
  { intros o I. apply in_map_iff in I as (r & <- & I). pose proof (B r I). split; apply odds_le; lra. }
  assert (lo <= hi \/ rs = []) as [LH| ->].
  { destruct rs as [|r rs]; auto. left. pose proof (B r ltac:(now left)). lra. }
  2: { simpl in Hg. discriminate. }
  assert (P0 : 0 < lo / (1 - lo)) by (apply Rdiv_lt_0_compat; lra).
  assert (Us : usable (lo / (1 - lo)) (hi / (1 - hi)) true
    (match rsimplify (map RFin os) with RScalar RNone => VNone | RScalar _ => VNonIter | RSeq l => VArray (map GVal l) end)).
  { clear Hg. intros x Ox. left. destruct os as [|o1 [|o2 os']]; simpl in Ox.
    - inversion Ox as [v0 l i S I|]; subst; inversion S; subst; destruct I.
    - inversion Ox as [v0 l i S I|]; subst; inversion S.
    - inversion Ox as [v0 l i S I Ev|]; subst; inversion S; subst.
      change (GVal (RFin o1) :: GVal (RFin o2) :: map GVal (map RFin os')) with (map GVal (map RFin (o1 :: o2 :: os'))) in I.
      rewrite map_map in I. apply in_map_iff in I as (o & <- & I). exists o. split; auto. }
  destruct (geomean_bounds _ _ _ _ _ _ _ P0 Us Hg) as (o & -> & Ho).
  unfold odds_to_p in H. simpl in H. destruct (prob_value o ltac:(lra)) as [Ep _]. rewrite Ep in H. simpl in H. inversion H.
  eexists. split; [reflexivity|]. pose proof (prob_le (lo / (1 - lo)) o P0 (proj1 Ho)) as K1.
  pose proof (prob_le o (hi / (1 - hi)) ltac:(lra) (proj2 Ho)) as K2.
  rewrite prob_odds in K1 by lra. rewrite prob_odds in K2 by lra. lra.
Qed.

(** Two or more usable probabilities always give a result. *)
Lemma pwv_array_again ws (os : list gitem) : length ws = length os -> positive ws -> (99#100 < total ws)%Q -> (total ws < 101#100)%Q ->
  existsb g_na os = false ->
  fst (pwv g_pair g_na (WList (map Num ws)) WNone (VArray os) true) = Ok (ws, os).
Proof.
  intros L P T1 T2 NA. pose proof (reprocess g_pair g_na ws os L P (conj T1 T2)) as R.
  unfold pwv in *. cbn [wnone negb andb] in *.
  assert (values_missing (VArray os) = values_missing (VList os)) as -> by reflexivity.
  destruct (values_missing (VList os)); [inversion R|]. cbn [weights_of_warg] in *.
  unfold fill_weights in *. cbn [andb] in *. rewrite NA. apply (f_equal fst) in R. cbn [fst] in R |- *. exact R.
Qed.

Lemma geomean_odds_single w rw v d ws i : fst (pwv g_pair g_na w rw v d) = Ok (ws, [i]) ->
  (exists p, i = GVal (RFin p) /\ 0 < p < 1) -> geomean_odds w rw v d = Err (ValueError "passed values must be an iterable").
Proof.
  intros E (p & -> & P). rewrite geomean_odds_unfold, E. cbn [bind fst snd mapM g_num].
  destruct (odds_value p P) as [-> _]. cbn [bind]. unfold odds_tail, geomean, pwv. simpl. reflexivity.
Qed.

Lemma odds_prob o : 0 < o -> o / (1 + o) / (1 - o / (1 + o)) = o.
Proof. intros H. field. split; [lra|]. intros Z. replace (1 + o - o) with 1 in Z by ring. lra. Qed.

Lemma geomean_odds_formula w rw v d ws rs : fst (pwv g_pair g_na w rw v d) = Ok (ws, numbers rs) ->
  (2 <= length rs)%nat -> (99#100 < total ws)%Q -> (total ws < 101#100)%Q -> (forall r, In r rs -> 0 < r < 1) ->
  exists p, geomean_odds w rw v d = Ok (RScalar (RFin p)) /\ 0 < p < 1 /\
    p / (1 - p) = power_product (weight_total ws) ws (map (fun q => q / (1 - q)) rs).
Proof.
  intros E L T1 T2 B. destruct (pwv_out _ _ _ _ _ _ _ _ E) as [P Lw].
  unfold numbers in Lw. rewrite map_length in Lw.
  rewrite geomean_odds_unfold, E. cbn [bind fst snd]. unfold numbers.
  rewrite <- (map_map RFin GVal), gnum_vals. cbn [bind]. rewrite odds_finite by auto. cbn [bind].
  set (os := map (fun q => q / (1 - q)) rs).
  assert (Lo : length os = length rs) by apply map_length.
  assert (Po : forall o, In o os -> 0 < o).
  { intros o I. apply in_map_iff in I as (r & <- & I). exact (proj2 (odds_value r (B r I))). }
  unfold odds_tail. assert (rsimplify (map RFin os) = RSeq (map RFin os)) as ->.
  { destruct os as [|? [|? ?]]; simpl in Lo; try (exfalso; lia). reflexivity. }
  assert (EG : geomean (WList (map Num ws)) WNone (VArray (map GVal (map RFin os))) true =
               Ok (RFin (power_product (weight_total ws) ws os))).
  { apply geomean_formula; auto.
    - unfold numbers. rewrite map_map. apply pwv_array_again; auto; [rewrite map_length; congruence|].
      apply (no_na os).
    - destruct ws; simpl in Lw; [exfalso; lia|discriminate]. }
  rewrite EG. cbn [bind].
  assert (PP : 0 < power_product (weight_total ws) ws os).
  { clear. revert os. induction ws as [|q ws IH]; intros [|o os]; simpl; try lra.
    apply Rmult_lt_0_compat; [apply exp_pos|]. generalize (Q2R q + weight_total ws). intros W. clear IH.
    revert os. induction ws; intros [|o' os]; simpl; try lra. apply Rmult_lt_0_compat; [apply exp_pos|apply IHws]. }
  unfold odds_to_p. simpl. destruct (prob_value _ PP) as [Ev R]. rewrite Ev. simpl.
  eexists. split; [reflexivity|]. split; auto. now apply odds_prob.
Qed.

Lemma geomean_odds_unweighted rs d : (2 <= length rs)%nat -> (forall r, In r rs -> 0 < r < 1) ->
  exists p, geomean_odds WNone WNone (VList (numbers rs)) d = Ok (RScalar (RFin p)) /\ 0 < p < 1 /\
    (p / (1 - p)) ^ length rs = product (map (fun q => q / (1 - q)) rs).
Proof.
  intros L B. assert (Hn : rs <> []) by (intros ->; simpl in L; lia).
  pose proof (unweighted_pwv rs d Hn) as E.
  set (n := length rs) in *. set (q := (1 / inject_Z (Z.of_nat n))%Q) in *.
  assert (NZ : ~ (inject_Z (Z.of_nat n) == 0)%Q) by (intros Z; unfold Qeq in Z; simpl in Z; lia).
  assert (T : (total (repeat q n) == 1)%Q).
  { assert (R : forall m, (total (repeat q m) == inject_Z (Z.of_nat m) * q)%Q).
    { induction m as [|m IH]; [reflexivity|]. cbn [repeat total]. rewrite IH, Nat2Z.inj_succ, <- Z.add_1_l, inject_Z_plus. ring. }
    rewrite R. unfold q. field. auto. }
  destruct (geomean_odds_formula _ _ _ _ _ _ E L) as (p & Eg & P & F); auto.
  { rewrite T. reflexivity. } { rewrite T. reflexivity. }
  exists p. repeat split; try apply P; auto. rewrite F.
  set (os := map (fun q => q / (1 - q)) rs).
  assert (Lo : length os = n) by apply map_length.
  assert (Po : forall o, In o os -> 0 < o).
  { intros o I. apply in_map_iff in I as (r & <- & I). exact (proj2 (odds_value r (B r I))). }
  assert (HN : INR n <> 0) by (apply not_0_INR; lia).
  assert (HQ : Q2R q = / INR n) by (apply q2r_part; lia).
  rewrite (power_product_equal q n os); auto; [|apply weight_total_repeat|lia|rewrite HQ; now apply Rinv_neq_0_compat].
  rewrite exp_logs by auto. rewrite <- Rpower_pow by apply exp_pos.
  rewrite Rpower_mult, Rinv_l, Rpower_1; auto. now apply product_pos.
Qed.
Lemma geomean_odds_weighted ws rs d : (2 <= length rs)%nat -> (forall r, In r rs -> 0 < r < 1) ->
  Forall (fun w => (0 < w)%Q) ws -> length ws = length rs -> (99#100 < total ws)%Q -> (total ws < 101#100)%Q ->
  exists p, geomean_odds (WList (map Num ws)) WNone (VList (numbers rs)) d = Ok (RScalar (RFin p)) /\ 0 < p < 1 /\
    p / (1 - p) = power_product (weight_total ws) ws (map (fun q => q / (1 - q)) rs).
Proof.
  intros L B W Lw T1 T2. apply geomean_odds_formula; auto. apply explicit_pwv; auto.
Qed.
