(** Percentiles under a change of units, and the share of data below them. *)
From Coq Require Import Lqa Setoid Permutation Sorted.
From Verif Require Import Base M_Percentiles SpecPercentiles SpecPctUnits
  P_Support P_Percentiles P_Percentiles2 P_Percentiles3 P_Percentiles4.
Open Scope Q_scope.

Lemma ltb_iff (a b c d : Q) : (a < b <-> c < d) -> Qlt_bool a b = Qlt_bool c d.
Proof.
  intros H. destruct (Qlt_bool a b) eqn:E, (Qlt_bool c d) eqn:F; auto.
  - apply qlt_true, H, qlt_true in E. congruence.
  - apply qlt_true, H, qlt_true in F. congruence.
Qed.
Lemma leb_iff (a b c d : Q) : (a <= b <-> c <= d) -> Qle_bool a b = Qle_bool c d.
Proof.
  intros H. destruct (Qle_bool a b) eqn:E, (Qle_bool c d) eqn:F; auto.
  - apply Qle_bool_iff, H, Qle_bool_iff in E. congruence.
  - apply Qle_bool_iff, H, Qle_bool_iff in F. congruence.
Qed.
Lemma filter_map_len {A B} (f : A -> B) g h (l : list A) : (forall x, g (f x) = h x) ->
  length (filter g (map f l)) = length (filter h l).
Proof. intros H. induction l as [|x l IH]; simpl; auto. rewrite H. destruct (h x); simpl; auto. Qed.
Lemma affine_lt a b x y : 0 < a -> affine a b x < affine a b y <-> x < y.
Proof. intros H. unfold affine. split; intros L; nra. Qed.
Lemma affine_le a b x y : 0 < a -> affine a b x <= affine a b y <-> x <= y.
Proof. intros H. unfold affine. split; intros L; nra. Qed.
Lemma order_stat_affine a b l i v : 0 < a -> order_stat l i v -> order_stat (map (affine a b) l) i (affine a b v).
Proof.
  intros A [I L]. split; [now apply in_map|]. unfold count_below, count_upto in *.
  rewrite (filter_map_len (affine a b) _ (fun y => Qlt_bool y v)) by (intros x; apply ltb_iff; now apply affine_lt).
  rewrite (filter_map_len (affine a b) _ (fun y => Qle_bool y v)) by (intros x; apply leb_iff; now apply affine_le). exact L.
Qed.
Lemma percentile_affine a b l p r : 0 < a -> percentile_of l p r -> percentile_of (map (affine a b) l) p (affine a b r).
Proof.
  intros A (i & x & y & V1 & V2 & Sx & Sy & E). exists i, (affine a b x), (affine a b y). cbv zeta. rewrite map_length.
  split; [exact V1|]. split; [exact V2|]. split; [now apply order_stat_affine|]. split; [now apply order_stat_affine|].
  unfold affine. rewrite E. ring.
Qed.

(* ------------------------------------------------------------ negation *)
Lemma filter_split {A} (f : A -> bool) l : (length (filter f l) + length (filter (fun x => negb (f x)) l) = length l)%nat.
Proof. induction l as [|x l IH]; simpl; auto. destruct (f x); simpl; lia. Qed.
Lemma order_stat_opp l i v : (i < length l)%nat -> order_stat l i v ->
  order_stat (map Qopp l) (length l - 1 - i) (- v).
Proof.
  intros Li [I L]. split; [now apply in_map|]. unfold count_below, count_upto in *.
  rewrite (filter_map_len Qopp _ (fun y => negb (Qle_bool y v))).
  2: { intros x. unfold Qlt_bool. f_equal. apply leb_iff. split; intros; lra. }
  rewrite (filter_map_len Qopp _ (fun y => negb (Qlt_bool y v))).
  2: { intros x. unfold Qlt_bool. rewrite negb_involutive. apply leb_iff. split; intros; lra. }
  pose proof (filter_split (fun y => Qle_bool y v) l). pose proof (filter_split (fun y => Qlt_bool y v) l). lia.
Qed.
Lemma order_stat_range l i v : order_stat l i v -> (i < length l)%nat.
Proof. intros [_ [_ L]]. unfold count_upto in L. pose proof (P_Percentiles3.filter_len (fun y => Qle_bool y v) l). lia. Qed.
Lemma inject_minus n m : (m <= n)%nat -> inject_Z (Z.of_nat (n - m)) == inject_Z (Z.of_nat n) - inject_Z (Z.of_nat m).
Proof.
  intros L. replace (Z.of_nat (n - m)) with (Z.of_nat n + - Z.of_nat m)%Z by lia. rewrite inject_Z_plus, inject_Z_opp. ring.
Qed.
Lemma percentile_opp l p r : percent p -> percentile_of l p r -> percentile_of (map Qopp l) (100 - p) (- r).
Proof.
  intros [P0 P1] (i & x & y & V1 & V2 & Sx & Sy & E). cbv zeta in *. set (K := (length l - 1)%nat) in *.
  pose proof (order_stat_range _ _ _ Sx) as Rx. pose proof (order_stat_range _ _ _ Sy) as Ry.
  assert (EV : inject_Z (Z.of_nat K) * ((100 - p) / 100) == inject_Z (Z.of_nat K) - inject_Z (Z.of_nat K) * (p / 100)) by field.
  assert (K0 : 0 <= inject_Z (Z.of_nat K)) by (change 0 with (inject_Z (Z.of_nat 0)); apply inject_nat_le; lia).
  assert (VK : inject_Z (Z.of_nat K) * (p / 100) <= inject_Z (Z.of_nat K)).
  { assert (p / 100 <= 1) by (apply Qle_shift_div_r; lra). nra. }
  set (v := inject_Z (Z.of_nat K) * (p / 100)) in *.
  pose proof (order_stat_opp l i x Rx Sx) as Ox. pose proof (order_stat_opp l _ y Ry Sy) as Oy. fold K in Ox, Oy.
  pose proof (inject_minus K i ltac:(lia)) as EI.
  destruct (Qlt_le_dec (inject_Z (Z.of_nat i)) v) as [Hv|Hv].
  - assert (iK : (i < K)%nat) by (apply inject_nat_lt; lra). replace (Nat.min (S i) K) with (S i) in * by lia.
    pose proof (inject_minus K (S i) ltac:(lia)) as ES. rewrite inject_S in ES.
    exists (K - S i)%nat, (- y), (- x). cbv zeta. rewrite map_length. fold K. rewrite EV.
    split; [lra|]. split; [lra|]. split; [exact Oy|]. split.
    + replace (Nat.min (S (K - S i)) K) with (K - i)%nat by lia. exact Ox.
    + rewrite ES, E. ring.
  - assert (Ev : v == inject_Z (Z.of_nat i)) by lra.
    assert (Rn : (Nat.min (S (K - i)) K < length l)%nat) by lia.
    assert (exists z, order_stat (map Qopp l) (Nat.min (S (K - i)) K) z) as [z Oz].
    { rewrite <- (map_length Qopp) in Rn. eexists. apply qsort_order_stat. exact Rn. }
    exists (K - i)%nat, (- x), z. cbv zeta. rewrite map_length. fold K. rewrite EV.
    split; [lra|]. split; [lra|]. split; [exact Ox|]. split; [exact Oz|]. rewrite E, EI, Ev. ring.
Qed.

(* ------------------------------------------------------------ shares *)
Lemma order_stat_below l i v r : order_stat l i v -> r <= v -> (count_below l r <= i)%nat.
Proof.
  intros [_ [L _]] H. unfold count_below in *. etransitivity; [|exact L]. clear L i.
  induction l as [|y l IH]; simpl; auto. destruct (Qlt_bool y r) eqn:E.
  - apply qlt_true in E. rewrite (proj2 (qlt_true y v)) by lra. simpl. lia.
  - destruct (Qlt_bool y v); simpl; lia.
Qed.
Lemma order_stat_upto l i v r : order_stat l i v -> v <= r -> (i < count_upto l r)%nat.
Proof.
  intros [_ [_ L]] H. unfold count_upto in *. eapply Nat.lt_le_trans; [exact L|]. clear L i.
  induction l as [|y l IH]; simpl; auto. destruct (Qle_bool y v) eqn:E.
  - apply Qle_bool_iff in E. rewrite (proj2 (Qle_bool_iff y r)) by lra. simpl. lia.
  - destruct (Qle_bool y r); simpl; lia.
Qed.
Lemma percentile_share l p r : percent p -> percentile_of l p r ->
  count (count_below l r) < count (length l - 1) * (p / 100) + 1 /\
  count (length l - 1) * (p / 100) < count (count_upto l r).
Proof.
  intros [P0 P1] (i & x & y & V1 & V2 & Sx & Sy & E). cbv zeta in *. unfold count. set (K := (length l - 1)%nat) in *.
  pose proof (order_stat_range _ _ _ Sx) as Rx. pose proof (order_stat_range _ _ _ Sy) as Ry.
  assert (K0 : 0 <= inject_Z (Z.of_nat K)) by (change 0 with (inject_Z (Z.of_nat 0)); apply inject_nat_le; lia).
  assert (VK : inject_Z (Z.of_nat K) * (p / 100) <= inject_Z (Z.of_nat K)).
  { assert (p / 100 <= 1) by (apply Qle_shift_div_r; lra). nra. }
  set (v := inject_Z (Z.of_nat K) * (p / 100)) in *.
  assert (XY : x <= y) by (eapply order_stat_mono; [|exact Sx|exact Sy]; lia).
  split.
  - destruct (Qlt_le_dec (inject_Z (Z.of_nat i)) v) as [Hv|Hv].
    + assert (iK : (i < K)%nat) by (apply inject_nat_lt; lra). replace (Nat.min (S i) K) with (S i) in * by lia.
      assert (r <= y) by (rewrite E; apply step_value; auto; lra).
      pose proof (order_stat_below _ _ _ r Sy H) as B. apply inject_nat_le in B. rewrite inject_S in B. lra.
    + assert (Er : r == x) by (rewrite E; assert (v == inject_Z (Z.of_nat i)) as -> by lra; ring).
      pose proof (order_stat_below _ _ _ r Sx ltac:(lra)) as B. apply inject_nat_le in B. lra.
  - assert (x <= r) by (rewrite E; apply step_value; auto; lra).
    pose proof (order_stat_upto _ _ _ r Sx H) as B.
    assert (B' : (S i <= count_upto l r)%nat) by lia. apply inject_nat_le in B'. rewrite inject_S in B'. lra.
Qed.
Lemma inside_count l lo hi : lo <= hi -> (count_inside l lo hi + count_below l lo = count_upto l hi)%nat.
Proof.
  intros H. unfold count_inside, count_below, count_upto. induction l as [|y l IH]; simpl; auto.
  unfold Qlt_bool at 1. destruct (Qle_bool lo y) eqn:A; simpl.
  - destruct (Qle_bool y hi); simpl; lia.
  - assert (Qle_bool y hi = true) as ->. { apply Qle_bool_iff. destruct (Qlt_le_dec y lo); [lra|]. apply Qle_bool_iff in q. congruence. }
    simpl. lia.
Qed.

(* ------------------------------------------------------------ weighted shares *)
Definition wsum (l : list (Q * Q)) : Q := sum (map snd l).
Lemma wsum_app a b : wsum (a ++ b) == wsum a + wsum b.
Proof. unfold wsum. rewrite map_app. apply sum_app. Qed.
Lemma wsum_filter f l : (forall w, In w (map snd l) -> 0 <= w) -> 0 <= wsum (filter f l) /\ wsum (filter f l) <= wsum l.
Proof.
  unfold wsum. induction l as [|[d w] l IH]; intros H; simpl in *; [lra|].
  specialize (IH (fun u I => H u (or_intror I))). specialize (H w (or_introl eq_refl)).
  destruct (f (d, w)); simpl; lra.
Qed.
Lemma datum_skipn l k x : sorted_pairs l -> In x (skipn k l) -> datum l k <= fst x.
Proof.
  intros S I. apply In_nth with (d := (0, 0)) in I as (j & L & <-). rewrite skipn_length in L.
  assert (nth j (skipn k l) (0, 0) = nth (k + j) l (0, 0)) as ->.
  { clear - L. revert l L. induction k as [|k IH]; intros [|y l] L; simpl in *; auto; try (destruct j; auto; fail). }
  apply (S k (k + j)%nat). lia.
Qed.
Lemma datum_firstn l k x : sorted_pairs l -> (k < length l)%nat -> In x (firstn (S k) l) -> fst x <= datum l k.
Proof.
  intros S Lk I. apply In_nth with (d := (0, 0)) in I as (j & L & <-). rewrite firstn_length in L.
  assert (nth j (firstn (Datatypes.S k) l) (0, 0) = nth j l (0, 0)) as ->.
  { clear - L. assert (H : (j < Datatypes.S k)%nat) by lia. clear L. revert j l H. generalize (Datatypes.S k) as n.
    induction n as [|n IH]; intros j l H; [lia|]. destruct l as [|y l]; [destruct j; auto|].
    destruct j as [|j]; simpl; auto. apply IH. lia. }
  apply (S j k). lia.
Qed.
Lemma wbelow_firstn l k r : sorted_pairs l -> (forall w, In w (map snd l) -> 0 <= w) -> r <= datum l k ->
  wsum (filter (fun dw => Qlt_bool (fst dw) r) l) <= wsum (firstn k l).
Proof.
  intros S W H. rewrite <- (firstn_skipn k l) at 1. rewrite filter_app, wsum_app.
  rewrite (filter_nil (fun dw => Qlt_bool (fst dw) r) (skipn k l)).
  - unfold wsum at 2. simpl. assert (F : forall w, In w (map snd (firstn k l)) -> 0 <= w).
    { intros w I. apply W. rewrite <- (firstn_skipn k l), map_app. apply in_or_app. now left. }
    pose proof (wsum_filter (fun dw => Qlt_bool (fst dw) r) _ F). lra.
  - intros x I. apply qlt_false. pose proof (datum_skipn l k x S I). lra.
Qed.
Lemma wupto_firstn l k r : sorted_pairs l -> (forall w, In w (map snd l) -> 0 <= w) -> (k < length l)%nat -> datum l k <= r ->
  wsum (firstn (S k) l) <= wsum (filter (fun dw => Qle_bool (fst dw) r) l).
Proof.
  intros S W L H. rewrite <- (firstn_skipn (Datatypes.S k) l) at 2. rewrite filter_app, wsum_app.
  rewrite (filter_all (fun dw => Qle_bool (fst dw) r) (firstn (Datatypes.S k) l)).
  - assert (F : forall w, In w (map snd (skipn (Datatypes.S k) l)) -> 0 <= w).
    { intros w I. apply W. rewrite <- (firstn_skipn (Datatypes.S k) l), map_app. apply in_or_app. now right. }
    pose proof (wsum_filter (fun dw => Qle_bool (fst dw) r) _ F). lra.
  - intros x I. apply Qle_bool_iff. pose proof (datum_firstn l k x S L I). lra.
Qed.
Lemma wsum_step l k : (k < length l)%nat -> wsum (firstn (S k) l) == wsum (firstn k l) + weight l k.
Proof.
  revert k. induction l as [|x l IH]; intros k L; simpl in L; [lia|]. destruct k as [|k].
  - unfold wsum, weight. simpl. ring.
  - cbn [firstn]. unfold wsum in *. cbn [map sum]. change (map snd (firstn (S k) l)) with (map snd (firstn (S k) l)).
    specialize (IH k ltac:(lia)). unfold weight in *. cbn [nth]. cbn [firstn map] in IH. 
    destruct l as [|y l]; [simpl in L; lia|]. cbn [firstn map sum] in *. rewrite IH. ring.
Qed.
Lemma filter_perm {A} (f : A -> bool) l m : Permutation l m -> Permutation (filter f l) (filter f m).
Proof.
  induction 1; simpl; auto.
  - destruct (f x); auto.
  - destruct (f x), (f y); auto. apply perm_swap.
  - etransitivity; eauto.
Qed.
Lemma point_value l i W : wsum l == W -> 0 < W -> W * point l i == wsum (firstn i l) + weight l i / 2.
Proof. intros E P. unfold point. fold (wsum (firstn i l)) (wsum l). rewrite E. field. lra. Qed.
Lemma fraction x a b : a <= x -> x < b -> 0 <= (x - a) / (b - a) /\ (x - a) / (b - a) <= 1.
Proof. intros A B. split; [apply Qle_shift_div_l|apply Qle_shift_div_r]; lra. Qed.
Lemma weighted_share data weights m p r : usable_weights data weights -> percent p ->
  (forall w, In w weights -> w <= m) -> weighted_percentile_of data weights p r ->
  weight_below data weights r <= sum weights * (p / 100) + m / 2 /\
  sum weights * (p / 100) - m / 2 <= weight_upto data weights r.
Proof.
  intros (Ew & Wn & Wp) [P0 P1] M (l & Pm & Sd & I).
  assert (Es : wsum l == sum weights).
  { unfold wsum. rewrite (sum_perm_snd _ _ Pm). now rewrite combine_snd. }
  assert (Win : forall w, In w (map snd l) -> In w weights).
  { intros w J. rewrite <- (combine_snd data weights Ew). eapply Permutation_in; [|exact J]. now apply Permutation_map. }
  assert (W0 : forall w, In w (map snd l) -> 0 <= w) by auto.
  assert (EB : weight_below data weights r == wsum (filter (fun dw => Qlt_bool (fst dw) r) l)).
  { unfold weight_below, wsum. apply sum_perm_snd, filter_perm, Permutation_sym, Pm. }
  assert (EU : weight_upto data weights r == wsum (filter (fun dw => Qle_bool (fst dw) r) l)).
  { unfold weight_upto, wsum. apply sum_perm_snd, filter_perm, Permutation_sym, Pm. }
  assert (Ll : (0 < length l)%nat).
  { destruct l; simpl; [|lia]. unfold wsum in Es. simpl in Es. lra. }
  assert (Wi : forall i, (i < length l)%nat -> 0 <= weight l i /\ weight l i <= m).
  { intros i L. assert (In (weight l i) (map snd l)) by (unfold weight; apply in_map, nth_In; auto). auto. }
  assert (PV : forall i, sum weights * point l i == wsum (firstn i l) + weight l i / 2) by (intros; now apply point_value).
  unfold interpolates in I. assert (Hm : m / 2 == m * (1#2)) by field.
  assert (Hw : forall i, weight l i / 2 == weight l i * (1#2)) by (intros; field).
  set (T := sum weights) in *. set (x := p / 100) in *.
  assert (X0 : 0 <= x) by (unfold x; apply Qle_shift_div_l; lra).
  assert (X1 : x <= 1) by (unfold x; apply Qle_shift_div_r; lra).
  rewrite EB, EU. destruct I as [[I E]|[[I E]|(i & L & I1 & I2 & E)]].
  - pose proof (wbelow_firstn l 0 r Sd W0 ltac:(lra)) as B. pose proof (wupto_firstn l 0 r Sd W0 Ll ltac:(lra)) as U.
    rewrite wsum_step in U by auto. pose proof (PV 0%nat) as V. pose proof (Wi 0%nat Ll).
    assert (wsum (firstn 0 l) == 0) by reflexivity. rewrite Hw in V.
    assert (T * x <= T * point l 0) by (apply Qmult_le_l; lra). assert (0 <= T * x) by (apply Qmult_le_0_compat; lra). rewrite Hm; split; lra.
  - set (k := (length l - 1)%nat) in *. assert (Lk : (k < length l)%nat) by (unfold k; lia).
    pose proof (wbelow_firstn l k r Sd W0 ltac:(lra)) as B. pose proof (wupto_firstn l k r Sd W0 Lk ltac:(lra)) as U.
    replace (S k) with (length l) in U by (unfold k; lia). rewrite firstn_all in U. pose proof (PV k) as V. rewrite Hw in V. pose proof (Wi k Lk).
    assert (T * point l k <= T * x) by (apply Qmult_le_l; lra). assert (T * x <= T * 1) by (apply Qmult_le_l; lra). rewrite Hm; split; lra.
  - assert (Di : datum l i <= datum l (S i)) by (apply Sd; lia).
    destruct (fraction x (point l i) (point l (S i)) I1 I2) as [F0 F1].
    destruct (step_value _ _ _ Di F0 F1) as [R0 R1]. rewrite <- E in R0, R1.
    pose proof (wbelow_firstn l (S i) r Sd W0 R1) as B. pose proof (wupto_firstn l i r Sd W0 ltac:(lia) R0) as U.
    rewrite wsum_step in B by lia. pose proof (PV i) as V. pose proof (PV (S i)) as V'. rewrite Hw in V, V'.
    pose proof (Wi i ltac:(lia)). pose proof (Wi (S i) L).
    assert (T * point l i <= T * x) by (apply Qmult_le_l; lra). assert (T * x <= T * point l (S i)) by (apply Qmult_le_l; lra). rewrite Hm; split; lra.
Qed.

(* ------------------------------------------------------------ through the interface *)
Definition up (a b : Q) (q : Q * Q) : Q * Q := (fst q, affine a b (snd q)).
Lemma interp_from_affine a b x pts : forall x0 y0,
  interp_from x x0 (affine a b y0) (map (up a b) pts) == affine a b (interp_from x x0 y0 pts).
Proof.
  induction pts as [|[x1 y1] pts IH]; intros x0 y0; simpl; [reflexivity|]. destruct (Qle_bool x1 x); [apply IH|].
  unfold affine, Qdiv. ring.
Qed.
Lemma np_interp_affine a b pts x : pts <> [] -> np_interp (map (up a b) pts) x == affine a b (np_interp pts x).
Proof.
  destruct pts as [|[x0 y0] pts]; intros N; [congruence|]. simpl. destruct (Qlt_bool x x0); [reflexivity|]. apply interp_from_affine.
Qed.
Lemma combine_map_fst {A B C} (f : A -> C) (l : list A) : forall m : list B,
  combine (map f l) m = map (fun x => (f (fst x), snd x)) (combine l m).
Proof. induction l as [|x l IH]; intros [|y m]; simpl; auto. f_equal. auto. Qed.
Lemma combine_map_snd {A B C} (f : B -> C) (l : list A) : forall m,
  combine l (map f m) = map (fun x => (fst x, f (snd x))) (combine l m).
Proof. induction l as [|x l IH]; intros [|y m]; simpl; auto. f_equal. auto. Qed.
Definition upd (a b : Q) (q : Q * Q) : Q * Q := (affine a b (fst q), snd q).
Lemma affine_inj a b x y : 0 < a -> affine a b x == affine a b y -> x == y.
Proof. intros A E. apply Qle_antisym; apply (affine_le a b); auto; rewrite E; apply Qle_refl. Qed.
Lemma different_affine a b l : 0 < a -> different l -> different (map (affine a b) l).
Proof.
  intros A. unfold different. induction l as [|x l IH]; cbn [map]; intros N; constructor; inversion N as [|? ? NI N']; subst; auto.
  intros I. apply NI. rewrite map_map in I. apply in_map_iff in I as (y & E & J). apply in_map_iff. exists y. split; auto.
  apply Qred_complete. apply (affine_inj a b); auto. rewrite <- (Qred_correct (affine a b y)), E. apply Qred_correct.
Qed.
Lemma combine_fst (d w : list Q) : length w = length d -> map fst (combine d w) = d.
Proof. revert w. induction d as [|x d IH]; intros [|y w] E; simpl in *; try discriminate; auto. f_equal. auto. Qed.
Lemma pairs_affine as1 as2 a b data weights : sorts_numbers as1 -> sorts_numbers as2 -> length weights = length data ->
  0 < a -> different data -> pairs as2 (map (affine a b) data) weights = map (upd a b) (pairs as1 data weights).
Proof.
  intros S1 S2 E A D.
  assert (E2 : length weights = length (map (affine a b) data)) by now rewrite map_length.
  assert (P1 : Permutation (pairs as1 data weights) (combine data weights)) by now apply pairs_perm.
  assert (P2 : Permutation (pairs as2 (map (affine a b) data) weights) (combine (map (affine a b) data) weights)) by now apply pairs_perm.
  assert (P : Permutation (pairs as2 (map (affine a b) data) weights) (map (upd a b) (pairs as1 data weights))).
  { rewrite P2, combine_map_fst. apply Permutation_map. now symmetry. }
  assert (D1 : different (map fst (pairs as1 data weights))).
  { unfold different. apply (Permutation_NoDup (l := map Qred data)); auto. rewrite <- (combine_fst data weights E) at 1. symmetry.
    apply Permutation_map, Permutation_map. exact P1. }
  assert (D2 : different (map fst (pairs as2 (map (affine a b) data) weights))).
  { unfold different. apply (Permutation_NoDup (l := map Qred (map (affine a b) data))).
    - rewrite <- (combine_fst _ weights E2) at 1. symmetry. apply Permutation_map, Permutation_map. exact P2.
    - now apply different_affine. }
  apply (strict_unique (fun x y => fst x < fst y)); auto.
  - intros x. apply Qlt_irrefl.
  - intros x y H H'. lra.
  - apply strictly_sorted_pairs; auto. now apply pairs_sorted.
  - pose proof (strictly_sorted_pairs _ D1 (pairs_sorted as1 S1 data weights E)) as St. revert St.
    generalize (pairs as1 data weights). clear - A. induction l as [|x l IH]; intros St; simpl; constructor; inversion St as [|? ? S' F]; subst.
    + auto.
    + rewrite Forall_forall in *. intros y I. apply in_map_iff in I as (z & <- & J). simpl. apply affine_lt; auto.
Qed.
Lemma weighted_affine as1 as2 a b data weights x : sorts_numbers as1 -> sorts_numbers as2 -> usable_weights data weights ->
  0 < a -> different data ->
  np_interp (weighted_points as2 (map (affine a b) data) weights) x == affine a b (np_interp (weighted_points as1 data weights) x).
Proof.
  intros S1 S2 U A D. pose proof U as (E & W & T).
  assert (E2 : length weights = length (map (affine a b) data)) by now rewrite map_length.
  rewrite <- np_interp_affine by (apply points_nonempty; auto).
  assert (weighted_points as2 (map (affine a b) data) weights = map (up a b) (weighted_points as1 data weights)) as ->; [|reflexivity].
  unfold weighted_points. pose proof (pairs_affine as1 as2 a b data weights S1 S2 E A D) as EP.
  rewrite <- (pairs_fst as1 S1 data weights E), <- (pairs_fst as2 S2 (map (affine a b) data) weights E2).
  rewrite <- (pairs_snd as1 S1 data weights E), <- (pairs_snd as2 S2 (map (affine a b) data) weights E2).
  rewrite EP, !map_map. unfold upd. cbn [fst snd]. change (fun x0 : Q * Q => snd x0) with (@snd Q Q).
  rewrite <- (map_map fst (affine a b)), combine_map_snd. reflexivity.
Qed.
Lemma same_dset_map (f : Q -> Q) d d' k v v' : Forall2 (fun x y : Q * Q => fst x = fst y /\ f (snd x) == snd y) d d' -> f v == v' ->
  Forall2 (fun x y => fst x = fst y /\ f (snd x) == snd y) (dset d k v) (dset d' k v').
Proof.
  intros F E. induction F as [|[a x] [b y] d d' [E1 E2] F IH]; simpl in *.
  - repeat constructor. auto.
  - subst b. destruct (Qeq_bool a k); constructor; auto.
Qed.
Lemma same_dict_map (f : Q -> Q) ls vs vs' : Forall2 (fun x y => f x == y) vs vs' ->
  Forall2 (fun x y => fst x = fst y /\ f (snd x) == snd y) (dict_of (combine ls vs)) (dict_of (combine ls vs')).
Proof.
  intros F. unfold dict_of. assert (G : Forall2 (fun x y : Q * Q => fst x = fst y /\ f (snd x) == snd y) [] []) by constructor.
  revert G. generalize (@nil (Q * Q)) at 1 3. generalize (@nil (Q * Q)). revert vs vs' F.
  induction ls as [|l ls IH]; intros vs vs' F d d' G; simpl; auto. destruct F as [|v v' vs vs' E F]; simpl; auto.
  apply IH; auto. now apply same_dset_map.
Qed.
Lemma gp_map (f : Q -> Q) as1 as2 data data' w pa reverse : sorts_numbers as1 -> sorts_numbers as2 ->
  good_call data w (plist pa) -> good_call data' w (plist pa) ->
  (forall p, In p (plist pa) -> f (pct as1 data w p) == pct as2 data' w p) ->
  exists o o', get_percentiles as1 data pa w reverse None = Ok o /\ get_percentiles as2 data' pa w reverse None = Ok o' /\
    same_out (out_map f o) o'.
Proof.
  intros H1 H2 G G' E. rewrite (get_vals as1 data pa w) by auto. rewrite (get_vals as2 data' pa w) by auto. cbv zeta.
  set (labels := if reverse then rev (plist pa) else plist pa). cbn [round_to].
  set (v := map (fun p => pct as1 data w p) (plist pa)). set (v' := map (fun p => pct as2 data' w p) (plist pa)).
  assert (F : Forall2 (fun x y => f x == y) v v').
  { unfold v, v'. revert E. generalize (plist pa). induction l as [|p l IH]; simpl; intros E; constructor; auto. }
  assert (Lv : length v = length labels) by (unfold v, labels; destruct reverse; rewrite map_length, ?rev_length; auto).
  destruct labels as [|a [|b ls]] eqn:EL.
  - eexists; eexists; split; [reflexivity|]; split; [reflexivity|]. simpl. constructor.
  - destruct F as [|x x' y y' Ex F]; [discriminate|]. eexists; eexists; split; [reflexivity|]; split; [reflexivity|]. exact Ex.
  - eexists; eexists; split; [reflexivity|]; split; [reflexivity|]. cbn [out_map same_out].
    pose proof (same_dict_map f (a :: b :: ls) _ _ F) as R. revert R.
    generalize (dict_of (combine (a :: b :: ls) v)) (dict_of (combine (a :: b :: ls) v')). clear.
    intros d d' R. induction R as [|x y d d' [A B] R IH]; simpl; constructor; auto.
Qed.
Lemma gp_affine as1 as2 data w pa reverse a b : sorts_numbers as1 -> sorts_numbers as2 -> 0 < a ->
  good_call data w (plist pa) -> w = None \/ different data ->
  exists o o', get_percentiles as1 data pa w reverse None = Ok o /\
    get_percentiles as2 (map (affine a b) data) pa w reverse None = Ok o' /\ same_out (out_map (affine a b) o) o'.
Proof.
  intros S1 S2 A G H. apply gp_map; auto; destruct w as [w|]; simpl in *.
  - destruct G as (E & W & T). repeat split; auto. now rewrite map_length.
  - destruct G as [N C]. split; auto. destruct data; [congruence|discriminate].
  - intros p I. destruct H as [H|H]; [discriminate|]. symmetry. now apply weighted_affine.
  - intros p I. destruct G as [N C]. eapply percentile_unique; [apply percentile_affine; auto|]; apply np_percentile_spec; auto.
    destruct data; [congruence|discriminate].
Qed.
Lemma gp_opp as1 as2 data p v : data <> [] -> percent p ->
  get_percentiles as1 data (POne p) None false None = Ok (One v) ->
  exists v', get_percentiles as2 (map Qopp data) (POne (100 - p)) None false None = Ok (One v') /\ v' == - v.
Proof.
  intros N P H. assert (P' : percent (100 - p)) by (destruct P; split; lra).
  assert (N' : map Qopp data <> []) by (destruct data; [congruence|discriminate]).
  unfold get_percentiles in *. cbn [plist] in *. unfold np_percentiles in *.
  rewrite (proj2 (forallb_percent [p])) in H by (intros ? [<-|[]]; auto).
  rewrite (proj2 (forallb_percent [100 - p])) by (intros ? [<-|[]]; auto). cbn [negb] in *.
  destruct data as [|x data]; [congruence|]. destruct (map Qopp (x :: data)) as [|y data'] eqn:E; [congruence|].
  cbn [bind map round_to] in *. inversion H; subst v. eexists. split; [reflexivity|]. rewrite <- E.
  eapply percentile_unique; [apply np_percentile_spec; auto; rewrite E; discriminate|].
  change (- x :: map Qopp data) with (map Qopp (x :: data)).
  apply percentile_opp; auto. apply np_percentile_spec; auto.
Qed.
Lemma ci_covers argsort data c r : sorts_numbers argsort -> data <> [] -> percent c ->
  get_median_and_ci argsort data c None None = Ok r ->
  count (length data - 1) * (c / 100) - 1 < count (count_inside data (md_low r) (md_high r)) /\
  count (count_below data (md_low r)) < count (length data - 1) * ((100 - c) / 200) + 1.
Proof.
  intros S N C H. destruct (median_ci argsort S data c None None N C) as (r' & l & m & h & E & Pl & Pm & Ph & El & Em & Eh & L1 & L2).
  rewrite H in E. inversion E; subst r'. cbn [round_to percentile_is] in *.
  assert (Cl : percent ((100 - c) / 2) /\ percent (100 - (100 - c) / 2)).
  { destruct C as [C0 C1]. assert (0 <= (100 - c) / 2) by (apply Qle_shift_div_l; lra). assert ((100 - c) / 2 <= 50) by (apply Qle_shift_div_r; lra).
    split; split; lra. }
  destruct Cl as [Cl Ch].
  assert (Pl' : percentile_of data ((100 - c) / 2) (md_low r)) by (eapply percentile_compat; [reflexivity|symmetry; exact El|exact Pl]).
  assert (Ph' : percentile_of data (100 - (100 - c) / 2) (md_high r)) by (eapply percentile_compat; [reflexivity|symmetry; exact Eh|exact Ph]).
  destruct (percentile_share _ _ _ Cl Pl') as [B _]. destruct (percentile_share _ _ _ Ch Ph') as [_ U].
  assert (LH : md_low r <= md_high r) by lra.
  pose proof (inside_count data _ _ LH) as I.
  assert (I' : count (count_upto data (md_high r)) == count (count_inside data (md_low r) (md_high r)) + count (count_below data (md_low r))).
  { unfold count. rewrite <- inject_Z_plus, <- Nat2Z.inj_add, I. reflexivity. }
  assert (E1 : count (length data - 1) * ((100 - c) / 2 / 100) == count (length data - 1) * ((100 - c) / 200)) by field.
  assert (E2 : count (length data - 1) * ((100 - (100 - c) / 2) / 100) == count (length data - 1) * (c / 100) + count (length data - 1) * ((100 - c) / 200)) by field.
  rewrite E1 in B. rewrite E2 in U. split; lra.
Qed.
Lemma gp_share argsort data p v : sorts_numbers argsort -> data <> [] -> percent p ->
  get_percentiles argsort data (POne p) None false None = Ok (One v) ->
  count (count_below data v) < count (length data - 1) * (p / 100) + 1 /\
  count (length data - 1) * (p / 100) < count (count_upto data v).
Proof.
  intros S N P H. destruct (get_single argsort S data (POne p) p None false None eq_refl) as (v' & E & Pv).
  - split; auto. now intros ? [<-|[]].
  - rewrite H in E. inversion E; subst. now apply percentile_share.
Qed.
Lemma gp_weighted_share argsort data w m p v : sorts_numbers argsort -> usable_weights data w -> percent p ->
  (forall x, In x w -> x <= m) -> get_percentiles argsort data (POne p) (Some w) false None = Ok (One v) ->
  weight_below data w v <= sum w * (p / 100) + m / 2 /\ sum w * (p / 100) - m / 2 <= weight_upto data w v.
Proof.
  intros S U P M H. destruct (get_single argsort S data (POne p) p (Some w) false None eq_refl U) as (v' & E & Pv).
  rewrite H in E. inversion E; subst. now apply weighted_share.
Qed.
