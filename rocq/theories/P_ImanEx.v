(** Concrete scores: exact correlation needs columns without ties. *)
From Coq Require Import Reals Qreals Lra Permutation.
From Verif Require Import Base M_Corr M_Iman SpecCorr SpecIman P_Corr P_Induce P_Iman P_CorrEx.
Open Scope R_scope.

Definition flat_ppf (x : R) : R := x - 1 / 2.
Lemma flat_increasing : increasing_quantile flat_ppf.
Proof. intros p q _ L _. unfold flat_ppf. lra. Qed.
Definition six : matrix := [[1; 3 # 5]; [3 # 5; 1]]%Q.
Lemma six_proper : proper_matrix 2 six.
Proof.
  split; [reflexivity|]. split; [intros row [<-|[<-|[]]]; reflexivity|].
  split; [intros [|[|i]] I; try lia; reflexivity|].
  split; intros [|[|i]] [|[|j]] I J; try lia; try (split; discriminate); try reflexivity.
Qed.
Lemma six_entry : Q2R (entry six 0 0) = 1 /\ Q2R (entry six 1 1) = 1 /\ Q2R (entry six 0 1) = 3 / 5 /\ Q2R (entry six 1 0) = 3 / 5.
Proof. unfold entry, six, Q2R. cbn. repeat split; lra. Qed.
Lemma six_definite : real_definite 2 (fun i j => Q2R (entry six i j)).
Proof. destruct six_entry as (A & B & C & D). apply definite_two; rewrite ?A, ?B, ?C, ?D; lra. Qed.

Definition tied_data : list (list Q) := [[1; 2; 3; 4; 5]; [3; 4; 1; 2; 4]]%Q.
Definition untied_data : list (list Q) := [[1; 2; 3; 4; 5]; [3; 5; 1; 2; 4]]%Q.
Lemma tied_ranks : map rank_min tied_data = [[1; 2; 3; 4; 5]; [3; 4; 1; 2; 4]]%nat.
Proof. reflexivity. Qed.
Lemma untied_ranks : map rank_min untied_data = [[1; 2; 3; 4; 5]; [3; 5; 1; 2; 4]]%nat.
Proof. reflexivity. Qed.
Lemma sum5 f : sum 5 f = f 0%nat + f 1%nat + f 2%nat + f 3%nat + f 4%nat.
Proof. cbn. lra. Qed.
Definition x0 : mat := vdw flat_ppf 5 [[1; 2; 3; 4; 5]; [3; 4; 1; 2; 4]]%nat.
Definition x1 : mat := vdw flat_ppf 5 [[1; 2; 3; 4; 5]; [3; 5; 1; 2; 4]]%nat.
Ltac crunch := unfold dev, mean, x0, x1, vdw, flat_ppf; rewrite !sum5; cbn; lra.
Lemma x0_dev : dev 5 x0 0 0 = 10 / 36 /\ dev 5 x0 1 1 = 68 / 360 /\ dev 5 x0 0 1 = 0 /\ dev 5 x0 1 0 = 0.
Proof. repeat split; crunch. Qed.
Lemma x1_dev : dev 5 x1 0 0 = 10 / 36 /\ dev 5 x1 1 1 = 10 / 36 /\ dev 5 x1 0 1 = - 1 / 36 /\ dev 5 x1 1 0 = - 1 / 36.
Proof. repeat split; crunch. Qed.
Lemma score_pearson ranks i j : length (nth i (map rank_min ranks) []) = 5%nat -> length (nth j (map rank_min ranks) []) = 5%nat ->
  (i < length ranks)%nat -> (j < length ranks)%nat ->
  pearson (score_column flat_ppf (nth i ranks [])) (score_column flat_ppf (nth j ranks [])) =
  let x := vdw flat_ppf 5 (map rank_min ranks) in dev 5 x i j / sqrt (dev 5 x i i * dev 5 x j j).
Proof.
  intros Li Lj I J. unfold score_column. rewrite (nth_map2 rank_min ranks i [] []) in Li by assumption.
  rewrite (nth_map2 rank_min ranks j [] []) in Lj by assumption. pose proof Li as Li'. pose proof Lj as Lj'. rewrite rank_length in Li', Lj'.
  rewrite Li', Lj'. replace (rank_min (nth i ranks [])) with (nth i (map rank_min ranks) []) by (now apply nth_map2).
  replace (rank_min (nth j ranks [])) with (nth j (map rank_min ranks) []) by (now apply nth_map2).
  rewrite <- !vdw_column by (rewrite (nth_map2 rank_min ranks _ [] []) by assumption; assumption).
  unfold pearson. now rewrite !co_deviation_dev.
Qed.
Lemma tied_varied : forall c, In c tied_data -> length c = 5%nat /\ varied c.
Proof.
  intros c [<-|[<-|[]]]; split; try reflexivity; exists 1%Q, 2%Q; repeat split; cbn; auto 10.
Qed.
Lemma untied_varied : forall c, In c untied_data -> length c = 5%nat /\ varied c.
Proof.
  intros c [<-|[<-|[]]]; split; try reflexivity; exists 1%Q, 2%Q; repeat split; cbn; auto 10.
Qed.
Lemma untied_free : Forall tie_free untied_data.
Proof.
  repeat constructor; intros i j I J E; cbn in I, J;
    do 5 (destruct i as [|i]; [do 5 (destruct j as [|j]; [reflexivity || discriminate|]); lia|]); lia.
Qed.
Lemma tied_scores : exists news, new_scores flat_ppf six (map rank_min tied_data) = Ok news.
Proof.
  destruct (outcome flat_ppf six tied_data 5 flat_increasing six_proper ltac:(discriminate) tied_varied) as (H & _).
  apply H; [exact six_definite|]. destruct x0_dev as (A & B & C & D).
  assert (P : 0 < sqrt (10 / 36 * (68 / 360))) by (apply sqrt_lt_R0; lra).
  apply definite_two; rewrite ?(score_pearson tied_data) by (cbn; auto); cbv zeta; rewrite tied_ranks; fold x0; rewrite ?A, ?B, ?C, ?D.
  - rewrite sqrt_square by lra. field.
  - rewrite sqrt_square by lra. field.
  - unfold Rdiv. rewrite !Rmult_0_l. reflexivity.
  - unfold Rdiv. rewrite !Rmult_0_l. lra.
Qed.
Lemma untied_scores : exists news, new_scores flat_ppf six (map rank_min untied_data) = Ok news.
Proof.
  destruct (outcome flat_ppf six untied_data 5 flat_increasing six_proper ltac:(discriminate) untied_varied) as (H & _).
  apply H; [exact six_definite|]. destruct x1_dev as (A & B & C & D).
  apply definite_two; rewrite ?(score_pearson untied_data) by (cbn; auto); cbv zeta; rewrite untied_ranks; fold x1; rewrite ?A, ?B, ?C, ?D;
    rewrite !sqrt_square by lra; lra || field || idtac.
Qed.
Lemma ties_break : exists ppf w cols news, increasing_quantile ppf /\ proper_matrix 2 w /\ length cols = 2%nat /\
  (forall c, In c cols -> enough 4 c) /\ new_scores ppf w (map rank_min cols) = Ok news /\
  pearson (nth 0 news []) (nth 1 news []) <> Q2R (entry w 0 1).
Proof.
  destruct tied_scores as (news & H). exists flat_ppf, six, tied_data, news.
  split; [exact flat_increasing|]. split; [exact six_proper|]. split; [reflexivity|]. split.
  { intros c I. apply diverse_enough; destruct I as [<-|[<-|[]]]; try discriminate; reflexivity. }
  split; [exact H|]. apply new_scores_ok in H as (_ & _ & _ & p & q & Hp & Hq & ->).
  rewrite tied_ranks in *. cbn [length hd] in *. fold x0 in Hq |- *.
  destruct six_entry as (S0 & S1 & S2 & S3). destruct (cholesky_two _ p S0 S1 Hp) as (p00 & p01 & p10 & p11).
  cbv beta in p10, p11. rewrite S3 in p10, p11. replace (1 - 3 / 5 * (3 / 5)) with (4 / 5 * (4 / 5)) in p11 by lra.
  rewrite sqrt_square in p11 by lra. destruct x0_dev as (A & B & C & D).
  assert (cov_dev : forall i j, cov 5 x0 i j = dev 5 x0 i j / 4).
  { intros i j. unfold cov. replace (INR 5 - 1) with 4 by (cbn; lra). reflexivity. }
  assert (T00 : corrcoef 5 x0 0%nat 0%nat = 1).
  { unfold corrcoef. rewrite !cov_dev, A. set (r := sqrt (10 / 36 / 4)).
    assert (0 < r) by (apply sqrt_lt_R0; lra). assert (r * r = 10 / 36 / 4) by (apply sqrt_sqrt; lra).
    replace (10 / 36 / 4) with (r * r). field. lra. }
  assert (T11 : corrcoef 5 x0 1%nat 1%nat = 1).
  { unfold corrcoef. rewrite !cov_dev, B. set (r := sqrt (68 / 360 / 4)).
    assert (0 < r) by (apply sqrt_lt_R0; lra). assert (r * r = 68 / 360 / 4) by (apply sqrt_sqrt; lra).
    replace (68 / 360 / 4) with (r * r). field. lra. }
  assert (T10 : corrcoef 5 x0 1%nat 0%nat = 0).
  { unfold corrcoef. rewrite !cov_dev, D. unfold Rdiv. rewrite !Rmult_0_l. reflexivity. }
  destruct (cholesky_two _ q T00 T11 Hq) as (q00 & q01 & q10 & q11). rewrite T10 in q10, q11.
  replace (1 - 0 * 0) with 1 in q11 by lra. rewrite sqrt_1 in q11.
  set (s := mul 2 p (inv_lower q 2)).
  assert (s00 : s 0%nat 0%nat = 1 /\ s 0%nat 1%nat = 0 /\ s 1%nat 0%nat = 3 / 5 /\ s 1%nat 1%nat = 4 / 5).
  { unfold s, mul. cbn [sum inv_lower Nat.eqb]. rewrite p00, p01, p10, p11, q00, q10, q11. repeat split; field. }
  destruct s00 as (s00 & s01 & s10 & s11). change (seq 0 2) with [0%nat; 1%nat]. cbn [map nth].
  unfold pearson. rewrite !(co_deviation_dev 5 (mixed 2 x0 s)), !dev_mixed. cbn [sum]. rewrite s00, s01, s10, s11, A, B, C, D, S2.
  intros E. match type of E with ?n / sqrt ?v = _ => set (num := n) in E; set (var := v) in E end.
  assert (V : 0 < var) by (unfold var; lra). pose proof (sqrt_lt_R0 var V) as R0. pose proof (sqrt_sqrt var (Rlt_le _ _ V)) as R1.
  assert (F : num = 3 / 5 * sqrt var) by (rewrite <- E; field; lra).
  assert (G : num * num = 9 / 25 * var) by (replace (num * num) with (9 / 25 * (sqrt var * sqrt var)) by (rewrite F; field); now rewrite R1).
  unfold num, var in G. lra.
Qed.
