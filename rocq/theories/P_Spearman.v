(** Spearman's coefficient (C153). *)
From Coq Require Import Reals Qreals Lra Lia Permutation.
From Verif Require Import Base M_Values M_Sampler M_Corr M_Iman M_Spearman SpecCorr SpecIman SpecEigen P_Corr P_Induce P_Units P_Iman P_Eigen.
Open Scope R_scope.

Lemma equal_once l x : tie_free l -> In x l -> length (filter (fun y => Qeq_bool y x) l) = 1%nat.
Proof.
  intros T I. apply (In_nth _ _ 0%Q) in I as (i & Hi & <-). revert i Hi T. induction l as [|y l IH]; intros i Hi T; [cbn in Hi; lia|].
  assert (Tl : tie_free l).
  { intros a b A B E. assert (S a = S b); [|lia]. apply T; cbn; try lia. exact E. }
  destruct i as [|i].
  - cbn [nth filter]. replace (Qeq_bool y y) with true by (symmetry; apply Qeq_bool_iff; reflexivity). cbn [length]. f_equal.
    replace (filter _ l) with (@nil Q); [reflexivity|]. symmetry. apply filter_none. intros z Z. apply not_true_is_false. intros E.
    apply Qeq_bool_iff in E. apply (In_nth _ _ 0%Q) in Z as (j & J & <-).
    assert (S j = 0%nat); [|lia]. apply T; cbn; try lia. exact E.
  - cbn [nth filter]. destruct (Qeq_bool y (nth i l 0%Q)) eqn:E.
    + apply Qeq_bool_iff in E. assert (0%nat = S i); [|lia]. cbn in Hi. apply T; cbn; try lia. exact E.
    + apply IH; [cbn in Hi; lia|exact Tl].
Qed.
Lemma rank_avg_free l : tie_free l -> rank_avg l = map INR (rank_min l).
Proof.
  intros T. unfold rank_avg, rank_min. rewrite map_map. apply map_ext_in. intros x I. rewrite (equal_once l x T I), (S_INR (length (filter _ l))). change (INR 1) with 1. lra.
Qed.
Lemma conv_eq f c a b : increasing_on f c -> In a c -> In b c -> Qeq_bool (f a) (f b) = Qeq_bool a b.
Proof.
  intros I A B. destruct (Qeq_bool a b) eqn:E.
  - apply Qeq_bool_iff. apply Qeq_bool_iff in E. now apply I.
  - apply not_true_is_false. intros H. apply Qeq_bool_iff in H. apply Qeq_bool_neq in E.
    destruct (QArith_base.Q_dec a b) as [[L|L]|L]; [| |contradiction].
    + apply (I a b A B) in L. rewrite H in L. now apply Qlt_irrefl in L.
    + apply (I b a B A) in L. rewrite H in L. now apply Qlt_irrefl in L.
Qed.
Lemma rank_avg_convert f c : increasing_on f c -> rank_avg (map f c) = rank_avg c.
Proof.
  intros I. unfold rank_avg. rewrite map_map. apply map_ext_in. intros x X. rewrite !filter_map_len.
  do 2 f_equal; [f_equal; apply filter_ext_in; intros y Y; now apply conv_lt with c|].
  do 3 f_equal. apply filter_ext_in. intros y Y. now apply conv_eq with c.
Qed.

(* sums over ranks *)
Lemma total_map_sum {A} (f : A -> R) (l : list A) d : total (map f l) = sum (length l) (fun i => f (nth i l d)).
Proof.
  induction l as [|x l IH]; [reflexivity|]. cbn [length]. rewrite sum_shift. cbn [nth map]. unfold total in *. cbn. rewrite IH. reflexivity.
Qed.
Lemma sum_ranks n : total (map INR (seq 1 n)) = INR n * (INR n + 1) / 2.
Proof.
  induction n; [cbn; lra|]. rewrite seq_S, map_app, total_app, IHn. cbn [map total fold_right]. change (1 + n)%nat with (S n). rewrite !S_INR. lra.
Qed.
Lemma sum_squares n : total (map (fun r => INR r * INR r) (seq 1 n)) = INR n * (INR n + 1) * (2 * INR n + 1) / 6.
Proof.
  induction n; [cbn; lra|]. rewrite seq_S, map_app, total_app, IHn. cbn [map total fold_right]. change (1 + n)%nat with (S n). rewrite !S_INR. lra.
Qed.
Lemma dev_products m x j l : (0 < m)%nat ->
  dev m x j l = sum m (fun i => x i j * x i l) - sum m (fun i => x i j) * sum m (fun i => x i l) / INR m.
Proof.
  intros P. assert (N : INR m <> 0) by (apply not_0_INR; lia). unfold dev, mean.
  set (a := sum m (fun i => x i j)). set (b := sum m (fun i => x i l)).
  rewrite (sum_ext m _ (fun i => x i j * x i l - (b / INR m) * x i j - ((a / INR m) * x i l - a / INR m * (b / INR m)))) by (intros; lra).
  rewrite !sum_minus, !sum_scal. fold a b.
  assert (C : forall n c, sum n (fun _ => c) = INR n * c).
  { induction n; intros c; cbn [sum]; [cbn; lra|]. rewrite IHn, S_INR. lra. }
  rewrite C. field. exact N.
Qed.

Section Two.
  Variables (a b : list Q) (m : nat).
  Hypothesis (La : length a = m) (Lb : length b = m) (M : (2 <= m)%nat) (Ta : tie_free a) (Tb : tie_free b).
  Let x : mat := fun r c => nth r (rank_avg (if Nat.eqb c 0 then a else b)) 0.
  Lemma col0 r : (r < m)%nat -> x r 0%nat = INR (nth r (rank_min a) 0%nat).
  Proof. intros H. unfold x. cbn [Nat.eqb]. rewrite rank_avg_free by exact Ta. apply nth_map2. rewrite rank_length. lia. Qed.
  Lemma col1 r : (r < m)%nat -> x r 1%nat = INR (nth r (rank_min b) 0%nat).
  Proof. intros H. unfold x. cbn [Nat.eqb]. rewrite rank_avg_free by exact Tb. apply nth_map2. rewrite rank_length. lia. Qed.
  Lemma first_moment c : length c = m -> tie_free c -> sum m (fun r => INR (nth r (rank_min c) 0%nat)) = INR m * (INR m + 1) / 2.
  Proof.
    intros L T. rewrite <- sum_ranks. rewrite <- L at 1. rewrite <- (rank_length c), <- total_map_sum.
    apply total_perm, Permutation_map. rewrite <- L. now apply rank_perm.
  Qed.
  Lemma second_moment c : length c = m -> tie_free c ->
    sum m (fun r => INR (nth r (rank_min c) 0%nat) * INR (nth r (rank_min c) 0%nat)) = INR m * (INR m + 1) * (2 * INR m + 1) / 6.
  Proof.
    intros L T. rewrite <- sum_squares. rewrite <- L at 1. rewrite <- (rank_length c), <- (total_map_sum (fun r => INR r * INR r)).
    apply total_perm, Permutation_map. rewrite <- L. now apply rank_perm.
  Qed.
  Definition spread : R := INR m * (INR m * INR m - 1) / 12.
  Lemma spread_pos : 0 < spread.
  Proof.
    unfold spread. assert (G : 2 <= INR m) by (apply (le_INR 2) in M; exact M).
    apply Rdiv_lt_0_compat; [|lra]. apply Rmult_lt_0_compat; nra.
  Qed.
  Lemma dev00 : dev m x 0 0 = spread.
  Proof.
    rewrite dev_products by lia.
    rewrite (sum_ext m _ (fun r => INR (nth r (rank_min a) 0%nat) * INR (nth r (rank_min a) 0%nat))) by (intros; now rewrite !col0).
    rewrite (sum_ext m (fun i => x i 0%nat) (fun r => INR (nth r (rank_min a) 0%nat))) by (intros; now rewrite !col0).
    rewrite second_moment, first_moment by assumption. unfold spread. field. apply not_0_INR. lia.
  Qed.
  Lemma dev11 : dev m x 1 1 = spread.
  Proof.
    rewrite dev_products by lia.
    rewrite (sum_ext m _ (fun r => INR (nth r (rank_min b) 0%nat) * INR (nth r (rank_min b) 0%nat))) by (intros; now rewrite !col1).
    rewrite (sum_ext m (fun i => x i 1%nat) (fun r => INR (nth r (rank_min b) 0%nat))) by (intros; now rewrite !col1).
    rewrite second_moment, first_moment by assumption. unfold spread. field. apply not_0_INR. lia.
  Qed.
  Definition gap : R := sum m (fun r => (INR (nth r (rank_min a) 0%nat) - INR (nth r (rank_min b) 0%nat)) * (INR (nth r (rank_min a) 0%nat) - INR (nth r (rank_min b) 0%nat))).
  Lemma dev01 : dev m x 0 1 = spread - gap / 2.
  Proof.
    rewrite dev_products by lia. unfold gap.
    rewrite (sum_ext m _ (fun r => INR (nth r (rank_min a) 0%nat) * INR (nth r (rank_min b) 0%nat))) by (intros; now rewrite col0, col1).
    rewrite (sum_ext m (fun i => x i 0%nat) (fun r => INR (nth r (rank_min a) 0%nat))) by (intros; now rewrite !col0).
    rewrite (sum_ext m (fun i => x i 1%nat) (fun r => INR (nth r (rank_min b) 0%nat))) by (intros; now rewrite !col1).
    rewrite !first_moment by assumption.
    rewrite (sum_ext m (fun r => (_ - _) * _) (fun r => INR (nth r (rank_min a) 0%nat) * INR (nth r (rank_min a) 0%nat)
      + INR (nth r (rank_min b) 0%nat) * INR (nth r (rank_min b) 0%nat)
      - 2 * (INR (nth r (rank_min a) 0%nat) * INR (nth r (rank_min b) 0%nat)))) by (intros; lra).
    rewrite sum_minus, sum_plus, sum_scal, !second_moment by assumption. unfold spread. field. apply not_0_INR. lia.
  Qed.
  Lemma gap_distance : gap = Q2R (rank_distance a b).
  Proof.
    unfold gap, rank_distance. rewrite <- La at 1. rewrite <- (rank_length a).
    assert (L : length (rank_min a) = length (rank_min b)) by (rewrite !rank_length; lia). revert L.
    generalize (rank_min a) as u, (rank_min b) as v.
    induction u as [|p u IH]; intros [|q v] L; cbn [length] in *; try lia; [unfold Q2R; cbn; lra|].
    rewrite sum_shift. cbn [nth combine map fold_right fst snd]. rewrite Q2R_plus, Q2R_mult, Q2R_minus, IH by lia.
    assert (E : forall n, Q2R (inject_Z (Z.of_nat n)) = INR n).
    { intros n. unfold Q2R, inject_Z. cbn [Qnum Qden]. rewrite INR_IZR_INZ. lra. }
    now rewrite !E.
  Qed.
  Lemma rho_real : Q2R (rho a b) = 1 - 6 * gap / (INR m * (INR m * INR m - 1)).
  Proof.
    assert (G : 2 <= INR m) by (apply (le_INR 2) in M; exact M).
    assert (E : Q2R (inject_Z (Z.of_nat m)) = INR m).
    { unfold Q2R, inject_Z. cbn [Qnum Qden]. rewrite INR_IZR_INZ. lra. }
    assert (One : Q2R 1 = 1) by (unfold Q2R; cbn; lra). assert (Six : Q2R 6 = 6) by (unfold Q2R; cbn; lra).
    assert (D : Q2R (inject_Z (Z.of_nat m) * (inject_Z (Z.of_nat m) * inject_Z (Z.of_nat m) - 1)) = INR m * (INR m * INR m - 1)).
    { now rewrite !Q2R_mult, Q2R_minus, Q2R_mult, E, One. }
    unfold rho. cbn zeta. rewrite La, Q2R_minus, Q2R_div, Q2R_mult, D, <- gap_distance, One, Six; [reflexivity|].
    intros H. apply Qeq_eqR in H. rewrite D in H. replace (Q2R 0) with 0 in H by (unfold Q2R; cbn; lra).
    assert (0 < INR m * (INR m * INR m - 1)) by (apply Rmult_lt_0_compat; nra). lra.
  Qed.
  Lemma two_columns : corrcoef m x 0%nat 1%nat = Q2R (rho a b).
  Proof.
    pose proof spread_pos as P.
    rewrite (corr_equal_spread m x 2 spread); try lia; [|lra|].
    - rewrite dev01, rho_real. unfold spread in *. assert (G : 2 <= INR m) by (apply (le_INR 2) in M; exact M).
      field. split; [nra|lra].
    - intros c C. destruct c as [|[|c]]; [apply dev00|apply dev11|lia].
  Qed.
  Lemma ranks_equal_gap : gap = 0 <-> rank_min a = rank_min b.
  Proof.
    unfold gap. split.
    - intros Z. apply nth_ext with 0%nat 0%nat; [rewrite !rank_length; lia|]. intros r H. rewrite rank_length, La in H.
      set (d := fun r => INR (nth r (rank_min a) 0%nat) - INR (nth r (rank_min b) 0%nat)) in *.
      change (sum m (fun r => d r * d r) = 0) in Z. apply INR_eq. apply Rminus_diag_uniq. fold (d r).
      destruct (Req_dec (d r) 0) as [|N]; [assumption|exfalso]. assert (0 < sum m (fun r => d r * d r)); [|lra].
      apply (sum_pos m _ r); [intros; apply Rle_0_sqr|exact H|]. now apply Rsqr_pos_lt in N.
    - intros ->. apply sum_zero. intros. lra.
  Qed.
  Lemma rho_one : Q2R (rho a b) = 1 <-> rank_min a = rank_min b.
  Proof.
    rewrite rho_real, <- ranks_equal_gap. assert (G : 2 <= INR m) by (apply (le_INR 2) in M; exact M).
    assert (P : 0 < INR m * (INR m * INR m - 1)) by (apply Rmult_lt_0_compat; nra). split.
    - intros H. assert (Z : 6 * gap / (INR m * (INR m * INR m - 1)) = 0) by lra.
      apply (Rmult_eq_compat_r (INR m * (INR m * INR m - 1))) in Z. unfold Rdiv in Z. rewrite Rmult_assoc, Rinv_l in Z by lra. lra.
    - intros ->. unfold Rdiv. lra.
  Qed.
  Lemma gap_sums : sum m (fun r => (INR (nth r (rank_min a) 0%nat) + INR (nth r (rank_min b) 0%nat) - (INR m + 1)) *
      (INR (nth r (rank_min a) 0%nat) + INR (nth r (rank_min b) 0%nat) - (INR m + 1))) = 4 * spread - gap.
  Proof.
    unfold gap.
    rewrite (sum_ext m (fun r => (_ + _ - _) * _) (fun r => 2 * (INR (nth r (rank_min a) 0%nat) * INR (nth r (rank_min a) 0%nat))
      + 2 * (INR (nth r (rank_min b) 0%nat) * INR (nth r (rank_min b) 0%nat))
      - (INR (nth r (rank_min a) 0%nat) - INR (nth r (rank_min b) 0%nat)) * (INR (nth r (rank_min a) 0%nat) - INR (nth r (rank_min b) 0%nat))
      - (2 * (INR m + 1)) * INR (nth r (rank_min a) 0%nat) - (2 * (INR m + 1)) * INR (nth r (rank_min b) 0%nat) + (INR m + 1) * (INR m + 1))) by (intros; lra).
    assert (C : forall n c, sum n (fun _ => c) = INR n * c).
    { induction n; intros c; cbn [sum]; [cbn; lra|]. rewrite IHn, S_INR. lra. }
    rewrite sum_plus, !sum_minus, sum_plus, !sum_scal, !second_moment, !first_moment, C by assumption. unfold spread. field.
  Qed.
  Lemma rho_minus_one : Q2R (rho a b) = -1 <->
    forall r, (r < m)%nat -> (nth r (rank_min a) 0 + nth r (rank_min b) 0 = m + 1)%nat.
  Proof.
    rewrite rho_real. assert (G : 2 <= INR m) by (apply (le_INR 2) in M; exact M).
    assert (P : 0 < INR m * (INR m * INR m - 1)) by (apply Rmult_lt_0_compat; nra). pose proof gap_sums as S.
    set (d := fun r => INR (nth r (rank_min a) 0%nat) + INR (nth r (rank_min b) 0%nat) - (INR m + 1)) in *.
    change (sum m (fun r => d r * d r) = 4 * spread - gap) in S.
    assert (E : 1 - 6 * gap / (INR m * (INR m * INR m - 1)) = -1 <-> sum m (fun r => d r * d r) = 0).
    { rewrite S. unfold spread. split; intros H.
      - assert (Z : 6 * gap / (INR m * (INR m * INR m - 1)) = 2) by lra.
        apply (Rmult_eq_compat_r (INR m * (INR m * INR m - 1))) in Z. unfold Rdiv in Z at 1. rewrite Rmult_assoc, Rinv_l in Z by lra. lra.
      - replace gap with (4 * (INR m * (INR m * INR m - 1) / 12)) by lra. field. split; [nra|lra]. }
    rewrite E. split.
    - intros Z r H. apply INR_eq. rewrite !plus_INR. change (INR 1) with 1. apply Rminus_diag_uniq. fold (d r).
      destruct (Req_dec (d r) 0) as [|N]; [assumption|exfalso]. assert (0 < sum m (fun r => d r * d r)); [|lra].
      apply (sum_pos m _ r); [intros; apply Rle_0_sqr|exact H|]. now apply Rsqr_pos_lt in N.
    - intros H. apply sum_zero. intros r L. specialize (H r L). apply (f_equal INR) in H. rewrite !plus_INR in H. change (INR 1) with 1 in H.
      unfold d. replace (INR (nth r (rank_min a) 0%nat) + INR (nth r (rank_min b) 0%nat)) with (INR m + 1) by lra. lra.
  Qed.
End Two.

Lemma ranks_same_order a b : length a = length b -> rank_min a = rank_min b -> same_order a b.
Proof.
  intros L E. split; [exact L|]. intros i j I J.
  assert (R : forall r, (r < length a)%nat -> below a (nth r a 0%Q) = below b (nth r b 0%Q)).
  { intros r H. pose proof (f_equal (fun l => nth r l 0%nat) E) as X. cbn beta in X. rewrite !rank_nth in X by lia. lia. }
  rewrite <- (below_iff a), <- (below_iff b) by (apply nth_In; lia). now rewrite !R by assumption.
Qed.
Lemma below_above l x : tie_free l -> In x l -> (below l x + length (filter (fun y => Qlt_bool x y) l) + 1 = length l)%nat.
Proof.
  intros T I. rewrite <- (equal_once l x T I) at 1. unfold below. clear T I. induction l as [|y l IH]; [reflexivity|]. cbn [filter].
  destruct (QArith_base.Q_dec y x) as [[H|H]|H].
  - replace (Qlt_bool y x) with true by (symmetry; now apply clt_true).
    replace (Qlt_bool x y) with false by (symmetry; apply clt_false; now apply Qlt_le_weak).
    replace (Qeq_bool y x) with false. { cbn [length]. lia. }
    symmetry. apply not_true_is_false. intros E. apply Qeq_bool_iff in E. rewrite E in H. now apply Qlt_irrefl in H.
  - replace (Qlt_bool x y) with true by (symmetry; now apply clt_true).
    replace (Qlt_bool y x) with false by (symmetry; apply clt_false; now apply Qlt_le_weak).
    replace (Qeq_bool y x) with false. { cbn [length]. lia. }
    symmetry. apply not_true_is_false. intros E. apply Qeq_bool_iff in E. rewrite E in H. now apply Qlt_irrefl in H.
  - replace (Qlt_bool x y) with false by (symmetry; apply clt_false; rewrite H; apply Qle_refl).
    replace (Qlt_bool y x) with false by (symmetry; apply clt_false; rewrite H; apply Qle_refl).
    replace (Qeq_bool y x) with true by (symmetry; now apply Qeq_bool_iff). cbn [length]. lia.
Qed.
Lemma opposite_ranks a b : length a = length b -> tie_free a -> tie_free b ->
  opposite_order a b <-> forall r, (r < length a)%nat -> (nth r (rank_min a) 0 + nth r (rank_min b) 0 = length a + 1)%nat.
Proof.
  intros L Ta Tb. split.
  - intros (_ & O) r H.
    assert (E : rank_min b = rank_min (map Qopp a)).
    { apply same_order_ranks. split; [now rewrite map_length|]. intros i j I J. rewrite !(nth_map2 Qopp a _ 0%Q 0%Q) by lia.
      rewrite <- (O j i) by lia. split; intros X; [now apply Qopp_lt_compat|]. apply Qopp_lt_compat in X. now rewrite !Qopp_involutive in X. }
    rewrite E, !rank_nth by (rewrite ?map_length; lia). rewrite (nth_map2 Qopp a _ 0%Q 0%Q) by lia.
    pose proof (below_above a (nth r a 0%Q) Ta (nth_In _ _ H)) as B.
    unfold below at 2. rewrite filter_map_len.
    replace (length (filter (fun x => Qlt_bool (- x)%Q (- nth r a 0)%Q) a)) with (length (filter (fun y => Qlt_bool (nth r a 0%Q) y) a)); [lia|].
    f_equal. apply filter_ext. intros y. destruct (Qlt_bool (nth r a 0%Q) y) eqn:X.
    + symmetry. apply clt_true. apply clt_true in X. now apply Qopp_lt_compat.
    + symmetry. apply clt_false. apply clt_false in X. now apply Qopp_le_compat.
  - intros H. split; [exact L|]. intros i j I J. pose proof (H i I) as Hi. pose proof (H j J) as Hj.
    rewrite !rank_nth in Hi, Hj by lia. rewrite <- (below_iff a), <- (below_iff b) by (apply nth_In; lia). lia.
Qed.
Lemma spearman_extremes a b m : length a = m -> length b = m -> (2 <= m)%nat -> tie_free a -> tie_free b ->
  (Q2R (rho a b) = 1 <-> same_order a b) /\ (Q2R (rho a b) = -1 <-> opposite_order a b).
Proof.
  intros La Lb M Ta Tb. split.
  - rewrite (rho_one a b m La Lb M). split; [apply ranks_same_order; lia|apply same_order_ranks].
  - rewrite (rho_minus_one a b m La Lb M Ta Tb), opposite_ranks by (auto; lia). now rewrite La.
Qed.

Lemma spearman_free cols m i j : (forall c, In c cols -> length c = m) -> (2 <= m)%nat -> (i < length cols)%nat -> (j < length cols)%nat ->
  tie_free (nth i cols []) -> tie_free (nth j cols []) -> spearman_stat cols i j = Q2R (rho (nth i cols []) (nth j cols [])).
Proof.
  intros L M I J Ti Tj. unfold spearman_stat.
  assert (H : length (hd [] cols) = m). { destruct cols as [|c cols]; [cbn in I; lia|]. apply L. now left. }
  rewrite H. rewrite <- (two_columns _ _ m); auto; try (apply L, nth_In; assumption).
Qed.
Lemma spearman_units fs cols : conversions fs cols -> forall i j, spearman_stat (convert fs cols) i j = spearman_stat cols i j.
Proof.
  intros C i j.
  assert (E : forall c, rank_avg (nth c (convert fs cols) []) = rank_avg (nth c cols [])).
  { unfold conversions in C. induction C as [|f c fs cols H C IH]; intros n; [reflexivity|].
    unfold convert. cbn [combine map fst snd]. destruct n as [|n]; cbn [nth]; [now apply rank_avg_convert|]. apply IH. }
  assert (L : length (hd [] (convert fs cols)) = length (hd [] cols)).
  { destruct C; cbn; [reflexivity|apply map_length]. }
  unfold spearman_stat. rewrite L. unfold corrcoef, cov, mean.
  now rewrite !E.
Qed.
Lemma corr_bound m x i j : dev m x i i <> 0 -> dev m x j j <> 0 -> -1 <= corrcoef m x i j <= 1.
Proof.
  intros Ni Nj. pose proof (dev_pos_rows m x i Ni) as G. assert (M : 0 < INR m - 1) by (apply (le_INR 2) in G; cbn in G; lra).
  assert (P : forall c, 0 <= dev m x c c) by (intros; apply sum_nonneg; intros; apply Rle_0_sqr).
  assert (Pi : 0 < dev m x i i) by (specialize (P i); lra). assert (Pj : 0 < dev m x j j) by (specialize (P j); lra).
  assert (E : corrcoef m x i j = dev m x i j / (sqrt (dev m x i i) * sqrt (dev m x j j))).
  { unfold corrcoef, cov. fold (dev m x i j) (dev m x i i) (dev m x j j). rewrite !sqrt_div_alt by exact M.
    pose proof (sqrt_lt_R0 _ Pi). pose proof (sqrt_lt_R0 _ Pj). pose proof (sqrt_lt_R0 _ M). pose proof (sqrt_sqrt (INR m - 1) (Rlt_le _ _ M)) as SS.
    rewrite <- SS at 1. field. repeat split; lra. }
  rewrite E. rewrite <- sqrt_mult by lra. set (s := sqrt (dev m x i i * dev m x j j)).
  assert (S : 0 < s) by (apply sqrt_lt_R0, Rmult_lt_0_compat; assumption).
  assert (Q : dev m x i j * dev m x i j <= s * s).
  { unfold s. rewrite sqrt_sqrt by (apply Rlt_le, Rmult_lt_0_compat; assumption). apply cauchy. }
  assert (A : - s <= dev m x i j <= s) by (split; nra).
  split; apply (Rmult_le_reg_r s); try exact S; unfold Rdiv; rewrite Rmult_assoc, Rinv_l by lra; lra.
Qed.
Lemma rank_avg_lt l a b : In a l -> (a < b)%Q ->
  INR (below l a) + (INR (length (filter (fun y => Qeq_bool y a) l)) + 1) / 2 <
  INR (below l b) + (INR (length (filter (fun y => Qeq_bool y b) l)) + 1) / 2.
Proof.
  intros I L.
  assert (E : (1 <= length (filter (fun y => Qeq_bool y a) l))%nat).
  { destruct (filter (fun y => Qeq_bool y a) l) as [|z f] eqn:F; [|cbn; lia]. exfalso.
    assert (H : In a (filter (fun y => Qeq_bool y a) l)) by (apply filter_In; split; [exact I|apply Qeq_bool_iff; reflexivity]).
    rewrite F in H. destruct H. }
  assert (B : (below l a + length (filter (fun y => Qeq_bool y a) l) <= below l b)%nat).
  { unfold below. clear I E. induction l as [|y l IH]; [cbn; lia|]. cbn [filter].
    destruct (Qlt_bool y a) eqn:A.
    - apply clt_true in A. replace (Qlt_bool y b) with true by (symmetry; apply clt_true; eapply Qlt_trans; eassumption).
      replace (Qeq_bool y a) with false; [cbn [length]; lia|]. symmetry. apply not_true_is_false. intros E. apply Qeq_bool_iff in E.
      rewrite E in A. now apply Qlt_irrefl in A.
    - destruct (Qeq_bool y a) eqn:E.
      + apply Qeq_bool_iff in E. replace (Qlt_bool y b) with true by (symmetry; apply clt_true; now rewrite E). cbn [length]. lia.
      + destruct (Qlt_bool y b); cbn [length]; lia. }
  apply le_INR in B. apply le_INR in E. rewrite plus_INR in B. cbn [INR] in E.
  pose proof (pos_INR (length (filter (fun y => Qeq_bool y b) l))). lra.
Qed.
Lemma varied_ranks cols m j : (j < length cols)%nat -> length (nth j cols []) = m -> varied (nth j cols []) ->
  dev m (fun r c => nth r (rank_avg (nth c cols [])) 0) j j <> 0.
Proof.
  intros J L (a & b & A & B & H) Z. set (l := nth j cols []) in *.
  apply (In_nth _ _ 0%Q) in A as (i & Hi & Ei). apply (In_nth _ _ 0%Q) in B as (n & Hn & En).
  pose proof (dev_zero _ _ _ Z i ltac:(lia)) as Zi. pose proof (dev_zero _ _ _ Z n ltac:(lia)) as Zn. cbn beta in Zi, Zn.
  fold l in Zi, Zn. rewrite <- Zi in Zn. unfold rank_avg in Zn. rewrite !(nth_map2 _ l _ 0 0%Q) in Zn by lia. rewrite Ei, En in Zn.
  assert (X := rank_avg_lt l a b ltac:(rewrite <- Ei; apply nth_In; exact Hi) H). unfold below in X. lra.
Qed.
Lemma spearman_range cols m i j : (forall c, In c cols -> length c = m /\ varied c) -> (i < length cols)%nat -> (j < length cols)%nat ->
  -1 <= spearman_stat cols i j <= 1.
Proof.
  intros V I J. unfold spearman_stat.
  assert (H : length (hd [] cols) = m). { destruct cols as [|c cols]; [cbn in I; lia|]. apply V. now left. }
  rewrite H. apply corr_bound; (apply varied_ranks; [assumption| |]); apply V, nth_In; assumption.
Qed.
Lemma spearman_diagonal cols m i : (forall c, In c cols -> length c = m /\ varied c) -> (i < length cols)%nat -> spearman_stat cols i i = 1.
Proof.
  intros V I. unfold spearman_stat.
  assert (H : length (hd [] cols) = m). { destruct cols as [|c cols]; [cbn in I; lia|]. apply V. now left. }
  rewrite H. pose proof (varied_ranks cols m i I (proj1 (V _ (nth_In cols [] I))) (proj2 (V _ (nth_In cols [] I)))) as N.
  set (x := fun r c => nth r (rank_avg (nth c cols [])) 0) in *.
  pose proof (dev_pos_rows m x i N) as G. assert (M : 0 < INR m - 1) by (apply (le_INR 2) in G; cbn in G; lra).
  assert (P : 0 < cov m x i i).
  { unfold cov. fold (dev m x i i). apply Rdiv_lt_0_compat; [|exact M]. assert (0 <= dev m x i i) by (apply sum_nonneg; intros; apply Rle_0_sqr). lra. }
  unfold corrcoef. pose proof (sqrt_lt_R0 _ P). rewrite <- (sqrt_sqrt (cov m x i i)) at 1 by lra. field. lra.
Qed.
