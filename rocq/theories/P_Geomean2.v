(** Geometric means of lists: the formula, permutations, NA. *)
From Coq Require Import Reals Lra Permutation Qreals.
From Verif Require Import Base M_Weights SpecWeights P_Weights P_Weights2 M_Formulas SpecFormulas P_Sampler P_PwvMap P_Formulas P_Geomean P_Discrete P_Ctor.
Open Scope R_scope.

Notation keep := (filter (fun e : Q * gitem => Qlt_bool 0 (fst e))).

Lemma q2r_zero q : (q == 0)%Q -> Q2R q = 0.
Proof. intros H. apply Qeq_eqR in H. rewrite H. unfold Q2R. simpl. lra. Qed.
Lemma weight_total_total ws : weight_total ws = Q2R (total ws).
Proof. induction ws; simpl; [unfold Q2R; simpl; lra|]. now rewrite IHws, Q2R_plus. Qed.

(** Dropping the entries of weight zero changes nothing. *)
Lemma kept_total ws : nonneg ws -> forall vs : list gitem, length ws = length vs ->
  weight_total (map fst (keep (combine ws vs))) = weight_total ws.
Proof.
  induction 1 as [|w ws H F IH]; intros [|v vs] L; simpl in *; try discriminate; auto.
  destruct (Qlt_bool 0 w) eqn:E; simpl; rewrite IH by congruence; auto.
  apply Qlt_bool_false in E. rewrite (q2r_zero w); [lra|]. apply Qle_antisym; auto.
Qed.
Lemma kept_product W ws : nonneg ws -> forall rs, length ws = length rs ->
  exists rs', map snd (keep (combine ws (numbers rs))) = numbers rs' /\ (forall r, In r rs' -> In r rs) /\
  power_product W (map fst (keep (combine ws (numbers rs)))) rs' = power_product W ws rs.
Proof.
  induction 1 as [|w ws H F IH]; intros [|r rs] L; simpl in *; try discriminate.
  - exists []. auto.
  - destruct (IH rs ltac:(congruence)) as (rs' & E & I & P). destruct (Qlt_bool 0 w) eqn:Q; simpl.
    + exists (r :: rs'). simpl. unfold numbers in *. rewrite E, P. split; auto. split; auto.
      intros x [<-|X]; auto.
    + exists rs'. split; auto. split; auto. rewrite P. apply Qlt_bool_false in Q.
      rewrite (q2r_zero w) by (apply Qle_antisym; auto). unfold Rdiv. rewrite Rmult_0_l. unfold Rpower.
      rewrite Rmult_0_l, exp_0. lra.
Qed.
Lemma no_na rs : existsb g_na (numbers rs) = false.
Proof. induction rs; simpl; auto. Qed.

Lemma kept_nonempty ws (vs : list gitem) : nonneg ws -> length ws = length vs -> 0 < weight_total ws ->
  map fst (keep (combine ws vs)) <> [].
Proof.
  intros N L W E. rewrite <- (kept_total ws N vs L), E in W. simpl in W. lra.
Qed.

Lemma finished_formula ws rs W w rw v d : nonneg ws -> length ws = length rs -> 0 < weight_total ws -> W = weight_total ws ->
  fst (pwv g_pair g_na w rw v d) = filter_loop ws (numbers rs) -> (forall r, In r rs -> 0 < r) ->
  geomean w rw v d = Ok (RFin (power_product W ws rs)).
Proof.
  intros N L P -> E B. assert (L' : length ws = length (numbers rs)) by (unfold numbers; rewrite map_length; auto).
  rewrite (filter_loop_entries _ N) in E by auto.
  destruct (kept_product (weight_total ws) ws N rs L) as (rs' & Ev & I & Pp). rewrite Ev in E.
  rewrite (geomean_formula _ _ _ _ _ _ E); [|now apply kept_nonempty|auto].
  rewrite (kept_total ws N _ L'), Pp. reflexivity.
Qed.

Lemma range_pos ws : (99#100 < total ws)%Q -> 0 < weight_total ws.
Proof.
  intros H. rewrite weight_total_total. apply Qlt_Rlt in H. assert (0 < Q2R (99#100)) by (unfold Q2R; simpl; lra). lra.
Qed.

Lemma explicit_filter ws rs d : nonneg ws -> length ws = length rs -> (99#100 < total ws)%Q -> (total ws < 101#100)%Q ->
  fst (pwv g_pair g_na (WList (map Num ws)) WNone (VList (numbers rs)) d) = filter_loop ws (numbers rs).
Proof.
  intros N L T1 T2. pose proof (range_pos _ T1) as Wp.
  unfold pwv. cbn [wnone negb andb].
  assert (values_missing (VList (numbers rs)) = false) as ->.
  { destruct rs; [|reflexivity]. destruct ws; [|discriminate]. simpl in Wp. lra. }
  cbn [weights_of_warg fst]. unfold fill_weights. rewrite no_na, andb_false_r. cbn [fst].
  unfold finish. rewrite any_na_num, cell_q_num.
  assert (length (numbers rs) = length rs) as -> by apply map_length.
  assert (Nat.eqb (S (length ws)) (length rs) = false) as -> by (apply Nat.eqb_neq; lia). cbn [andb].
  assert (Qle_bool (qsum ws) (99#100) = false) as -> by (apply qle_false; rewrite qsum_total; auto).
  assert (Qle_bool (101#100) (qsum ws) = false) as -> by (apply qle_false; rewrite qsum_total; auto).
  cbn [orb]. rewrite (proj2 (Nat.eqb_eq _ _) L). reflexivity.
Qed.
Lemma explicit_formula ws rs d : nonneg ws -> length ws = length rs -> (99#100 < total ws)%Q -> (total ws < 101#100)%Q ->
  (forall r, In r rs -> 0 < r) ->
  geomean (WList (map Num ws)) WNone (VList (numbers rs)) d = Ok (RFin (power_product (weight_total ws) ws rs)).
Proof.
  intros N L T1 T2 B. pose proof (range_pos _ T1) as Wp. apply finished_formula; auto. now apply explicit_filter.
Qed.
Lemma keep_all ws : Forall (fun w => (0 < w)%Q) ws -> forall vs : list gitem, length ws = length vs ->
  keep (combine ws vs) = combine ws vs.
Proof.
  induction 1 as [|w ws H F IH]; intros [|v vs] L; simpl in *; try discriminate; auto.
  apply Qlt_bool_iff in H. rewrite H, IH; auto.
Qed.
Lemma explicit_pwv ws rs d : Forall (fun w => (0 < w)%Q) ws -> length ws = length rs ->
  (99#100 < total ws)%Q -> (total ws < 101#100)%Q ->
  fst (pwv g_pair g_na (WList (map Num ws)) WNone (VList (numbers rs)) d) = Ok (ws, numbers rs).
Proof.
  intros W L T1 T2. assert (N : nonneg ws) by (eapply Forall_impl; [|exact W]; intros; now apply Qlt_le_weak).
  assert (L' : length ws = length (numbers rs)) by (unfold numbers; rewrite map_length; auto).
  rewrite explicit_filter, filter_loop_entries, keep_all by auto. f_equal.
  clear - L'. revert L'. generalize (numbers rs). induction ws as [|w ws IH]; intros [|v vs] L; simpl in *; try discriminate; auto.
  specialize (IH vs ltac:(congruence)). injection IH as -> ->. reflexivity.
Qed.

Lemma power_product_scale W k ws : W <> 0 -> Q2R k <> 0 -> forall rs,
  power_product (W / Q2R k) (map (fun w => (w / k)%Q) ws) rs = power_product W ws rs.
Proof.
  intros HW HK. assert (HK' : ~ (k == 0)%Q) by (intros Z; apply HK; now apply q2r_zero).
  induction ws; intros [|r rs]; simpl; auto. rewrite IHws. f_equal. f_equal.
  rewrite Q2R_div by auto. field. auto.
Qed.
Lemma weight_total_scale k ws : ~ (k == 0)%Q -> weight_total (map (fun w => (w / k)%Q) ws) = weight_total ws / Q2R k.
Proof.
  intros K. assert (Q2R k <> 0). { intros Z. apply K. apply eqR_Qeq. rewrite Z. unfold Q2R. simpl. lra. }
  induction ws; simpl; [field; auto|]. rewrite IHws, Q2R_div by auto. field. auto.
Qed.

Lemma relative_formula ws rs d : nonneg ws -> length ws = length rs -> (0 < total ws)%Q ->
  (forall r, In r rs -> 0 < r) ->
  geomean WNone (WList (map Num ws)) (VList (numbers rs)) d = Ok (RFin (power_product (weight_total ws) ws rs)).
Proof.
  intros N L T B. assert (Wp : 0 < weight_total ws) by (rewrite weight_total_total; now apply q2r_pos).
  assert (QS : (qsum ws == total ws)%Q) by apply qsum_total.
  assert (QP : (0 < qsum ws)%Q) by now rewrite QS.
  assert (QZ : ~ (qsum ws == 0)%Q) by (intros Z; rewrite Z in QP; discriminate QP).
  assert (QR : Q2R (qsum ws) = weight_total ws) by (rewrite weight_total_total; now apply Qeq_eqR).
  rewrite <- (power_product_scale (weight_total ws) (qsum ws)) by (rewrite ?QR; lra).
  apply finished_formula; auto.
  - apply Forall_map. eapply Forall_impl; [|exact N]. intros q Hq. simpl in Hq.
    apply Qle_shift_div_l; auto. rewrite Qmult_0_l. auto.
  - now rewrite map_length.
  - rewrite weight_total_scale by auto. rewrite QR. apply Rdiv_lt_0_compat; auto.
  - now rewrite weight_total_scale by auto.
  - unfold pwv. cbn [wnone negb andb].
    assert (values_missing (VList (numbers rs)) = false) as ->.
    { destruct rs; [|reflexivity]. destruct ws; [|discriminate]. simpl in Wp. lra. }
    cbn [weights_of_warg fst]. unfold fill_weights. rewrite no_na, andb_false_r. cbn [fst].
    unfold finish. rewrite any_na_num, cell_q_num. unfold normalize.
    assert (Qeq_bool (qsum ws) 0 = false) as Z.
    { apply not_true_iff_false. intros C. apply Qeq_bool_iff in C. contradiction. }
    rewrite Z. destruct ws as [|w0 ws0]; [simpl in Wp; lra|].
    set (V := w0 :: ws0) in *. cbn [fst].
    assert (Nat.eqb (length (map (fun x => (x / qsum V)%Q) V)) (length (numbers rs)) = true) as ->.
    { unfold numbers. rewrite !map_length. now apply Nat.eqb_eq. }
    reflexivity.
Qed.

(** Unweighted: the n-th root of the product. *)
Lemma power_product_equal q n rs W : W = INR n * Q2R q -> length rs = n -> n <> 0%nat -> Q2R q <> 0 ->
  power_product W (repeat q n) rs = Rpower (exp (rsum (map ln rs))) (/ INR n).
Proof.
  intros HW L Hn HQ. assert (HN : INR n <> 0) by (apply not_0_INR; auto).
  assert (E : Q2R q / W = / INR n) by (rewrite HW; field; auto). unfold Rpower at 1. rewrite ln_exp. revert L. clear Hn HN.
  revert E. generalize (/ INR n) as k. intros k E L. rewrite <- L. clear L n HW. induction rs as [|r rs IH]; simpl.
  - rewrite Rmult_0_r. symmetry. apply exp_0.
  - rewrite IH, E. unfold Rpower. rewrite <- exp_plus. f_equal. ring.
Qed.
Lemma exp_logs rs : (forall r, In r rs -> 0 < r) -> exp (rsum (map ln rs)) = product rs.
Proof.
  induction rs as [|r rs IH]; intros B; simpl; [apply exp_0|].
  rewrite exp_plus, exp_ln by (apply B; now left). rewrite IH; auto. intros; apply B; now right.
Qed.
Lemma product_pos rs : (forall r, In r rs -> 0 < r) -> 0 < product rs.
Proof.
  induction rs as [|r rs IH]; intros B; simpl; [lra|]. apply Rmult_lt_0_compat; [apply B; now left|apply IH; intros; apply B; now right].
Qed.

Lemma weight_total_repeat q n : weight_total (repeat q n) = INR n * Q2R q.
Proof. induction n; cbn [repeat weight_total]; [simpl; lra|]. rewrite IHn, S_INR. lra. Qed.

Lemma unweighted_pwv rs d : rs <> [] -> fst (pwv g_pair g_na WNone WNone (VList (numbers rs)) d) =
  Ok (repeat (1 / inject_Z (Z.of_nat (length rs)))%Q (length rs), numbers rs).
Proof.
  intros Hn.
  destruct rs as [|r rs]; [congruence|].
    rewrite (equal_default g_pair g_na (VList (numbers (r :: rs))) (numbers (r :: rs)) (GVal (RFin r)) d);
      [|constructor|reflexivity|reflexivity].
    assert ((if d then filter (fun y => negb (g_na y)) (numbers (r :: rs)) else numbers (r :: rs)) = numbers (r :: rs)) as ->.
    { destruct d; auto. clear. unfold numbers. induction (r :: rs); simpl; congruence. }
    unfold numbers. rewrite map_length. reflexivity.
Qed.
Lemma q2r_part n : n <> 0%nat -> Q2R (1 / inject_Z (Z.of_nat n))%Q = / INR n.
Proof.
  intros N. assert (HN : INR n <> 0) by (apply not_0_INR; auto). rewrite Q2R_div.
  - unfold Q2R at 1. simpl. unfold inject_Z, Q2R. simpl. rewrite <- INR_IZR_INZ. field. auto.
  - intros Z. unfold Qeq in Z. simpl in Z. lia.
Qed.

Lemma unweighted_formula rs d : rs <> [] -> (forall r, In r rs -> 0 < r) ->
  exists g, geomean WNone WNone (VList (numbers rs)) d = Ok (RFin g) /\ 0 < g /\ g ^ length rs = product rs.
Proof.
  intros Hn B. assert (LN : length rs <> 0%nat) by (destruct rs; simpl; congruence).
  pose proof (unweighted_pwv rs d Hn) as E.
  set (n := length rs) in *. set (q := (1 / inject_Z (Z.of_nat n))%Q) in *.
  assert (HN : INR n <> 0) by (apply not_0_INR; auto).
  assert (HQ : Q2R q = / INR n) by now apply q2r_part.
  assert (QN : Q2R q <> 0) by (rewrite HQ; apply Rinv_neq_0_compat; auto).
  assert (WT : weight_total (repeat q n) = INR n * Q2R q).
  { apply weight_total_repeat. }
  rewrite (geomean_formula _ _ _ _ _ _ E); auto; [|destruct n; simpl; congruence].
  rewrite (power_product_equal q n rs) by auto. rewrite exp_logs by auto.
  eexists. split; [reflexivity|]. split; [apply exp_pos|].
  rewrite <- Rpower_pow by apply exp_pos. rewrite Rpower_mult, Rinv_l, Rpower_1; auto. now apply product_pos.
Qed.

(** NA is ignored. *)
Lemma geomean_ignores_na l : (exists x, In x l /\ na_like x = false) ->
  geomean WNone WNone (VList (map GVal l)) true = geomean WNone WNone (VList (map GVal (filter (fun x => negb (na_like x)) l))) true.
Proof.
  intros (x & I & N). rewrite !geomean_unfold. f_equal.
  set (l' := filter (fun x => negb (na_like x)) l).
  assert (FF : forall m, filter (fun y => negb (g_na y)) (map GVal m) = map GVal (filter (fun x => negb (na_like x)) m)).
  { induction m as [|y m IH]; simpl; auto. destruct (na_like y); simpl; now rewrite IH. }
  assert (Il : In x l') by (apply filter_In; rewrite N; auto).
  assert (H : forall m, In x m -> exists y, hd_error (map GVal m) = Some y /\ g_pair y = None).
  { intros [|y m] Im; [destruct Im|]. eexists. split; reflexivity. }
  destruct (H l I) as (y & Hy & Py). destruct (H l' Il) as (y' & Hy' & Py').
  rewrite (equal_default g_pair g_na (VList (map GVal l)) (map GVal l) y true); [|constructor|auto|auto].
  rewrite (equal_default g_pair g_na (VList (map GVal l')) (map GVal l') y' true); [|constructor|auto|auto].
  cbn zeta. rewrite !FF. fold l'.
  assert (filter (fun x => negb (na_like x)) l' = l') as ->; [|reflexivity].
  unfold l'. clear. induction l as [|a l IH]; simpl; auto. destruct (na_like a) eqn:E; simpl; auto. rewrite E. simpl. now rewrite IH.
Qed.

(** Order does not matter. *)
Fixpoint pairs_product (W : R) (l : list (Q * R)) : R :=
  match l with [] => 1 | (w, x) :: l' => Rpower x (Q2R w / W) * pairs_product W l' end.
Fixpoint pairs_total (l : list (Q * R)) : R := match l with [] => 0 | (w, _) :: l' => Q2R w + pairs_total l' end.
Lemma power_product_pairs W l : power_product W (map fst l) (map snd l) = pairs_product W l.
Proof. induction l as [|[w x] l IH]; simpl; auto. now rewrite IH. Qed.
Lemma weight_total_pairs l : weight_total (map fst l) = pairs_total l.
Proof. induction l as [|[w x] l IH]; simpl; auto. now rewrite IH. Qed.
Lemma pairs_perm W l l' : Permutation l l' -> pairs_product W l = pairs_product W l' /\ pairs_total l = pairs_total l'.
Proof.
  induction 1 as [|[w x] l l' P [A B]|[w x] [w' x'] l|l1 l2 l3 P1 [A1 B1] P2 [A2 B2]]; simpl; split; auto; try congruence;
    try (now rewrite A); try (now rewrite B); ring.
Qed.
Lemma total_perm (l l' : list Q) : Permutation l l' -> (total l == total l')%Q.
Proof. induction 1; simpl; try (rewrite IHPermutation; reflexivity); try ring; try reflexivity. now rewrite IHPermutation1. Qed.

Lemma geomean_permutation l l' d : Permutation l l' -> nonneg (map fst l) -> (forall r, In r (map snd l) -> 0 < r) ->
  ((99#100 < total (map fst l))%Q -> (total (map fst l) < 101#100)%Q ->
   geomean (WList (map Num (map fst l))) WNone (VList (numbers (map snd l))) d =
   geomean (WList (map Num (map fst l'))) WNone (VList (numbers (map snd l'))) d) /\
  ((0 < total (map fst l))%Q ->
   geomean WNone (WList (map Num (map fst l))) (VList (numbers (map snd l))) d =
   geomean WNone (WList (map Num (map fst l'))) (VList (numbers (map snd l'))) d).
Proof.
  intros P N B.
  assert (N' : nonneg (map fst l')) by (eapply Permutation_Forall; [apply Permutation_map; exact P|auto]).
  assert (B' : forall r, In r (map snd l') -> 0 < r).
  { intros r I. apply B. eapply Permutation_in; [apply Permutation_map, Permutation_sym; exact P|auto]. }
  assert (T : (total (map fst l) == total (map fst l'))%Q) by (apply total_perm; now apply Permutation_map).
  destruct (pairs_perm (pairs_total l) l l' P) as [A1 A2].
  split; intros.
  - rewrite !explicit_formula; auto; try (now rewrite !map_length); try (now rewrite <- T).
    now rewrite !power_product_pairs, !weight_total_pairs, <- A2, A1.
  - rewrite !relative_formula; auto; try (now rewrite !map_length); try (now rewrite <- T).
    now rewrite !power_product_pairs, !weight_total_pairs, <- A2, A1.
Qed.
