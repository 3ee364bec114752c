(** One correlation for all pairs: when it can be induced (C98, C138). *)
From Coq Require Import Reals Qreals Lra Lia.
From Verif Require Import Base M_Values M_Sampler M_Corr M_Iman SpecCorr SpecIman P_Corr P_Induce P_Iman P_ImanEx P_Eigen.
Open Scope R_scope.

Lemma quad_full_real k q x : real_quad k (fun i j => Q2R (entry (full_matrix k q) i j)) x =
  (1 - Q2R q) * sum k (fun i => x i * x i) + Q2R q * (sum k x * sum k x).
Proof.
  rewrite quad_sum. rewrite (sum_ext k _ (fun i => (1 - Q2R q) * (x i * x i) + (Q2R q * sum k x) * x i)).
  - rewrite sum_plus, !sum_scal. lra.
  - intros i I. rewrite (sum_ext k _ (fun j => ((1 - Q2R q) * x i) * ((if Nat.eqb i j then 1 else 0) * x j) + (Q2R q * x i) * x j)).
    + rewrite sum_plus, !sum_scal, (sum_delta k i x I). lra.
    + intros j J. rewrite full_entry by assumption. destruct (Nat.eqb i j); [|lra]. replace (Q2R 1) with 1 by (unfold Q2R; cbn; lra). lra.
Qed.
Lemma sum_squared k x : sum k x * sum k x <= INR k * sum k (fun i => x i * x i).
Proof.
  pose proof (P_Eigen.cauchy k (fun _ => 1) x) as H. cbn beta in H.
  rewrite (sum_ext k (fun t => 1 * x t) x) in H by (intros; lra).
  assert (C : sum k (fun _ => 1 * 1) = INR k). { clear. induction k; cbn [sum]; [reflexivity|]. rewrite IHk, S_INR. lra. }
  rewrite C in H. exact H.
Qed.
Lemma full_definite k q : (1 <= k)%nat -> Q2R q < 1 ->
  (real_definite k (fun i j => Q2R (entry (full_matrix k q) i j)) <-> 0 < 1 + (INR k - 1) * Q2R q).
Proof.
  intros K Q1. split.
  - intros D. specialize (D (fun _ => 1) ltac:(exists 0%nat; split; [lia|lra])). rewrite quad_full_real in D.
    assert (C : forall f, (forall i, f i = 1) -> sum k f = INR k).
    { clear. intros f F. induction k; cbn [sum]; [reflexivity|]. rewrite IHk, F, S_INR. lra. }
    rewrite !C in D by (intros; lra). assert (P : 0 < INR k) by (apply lt_0_INR; lia).
    replace ((1 - Q2R q) * INR k + Q2R q * (INR k * INR k)) with (INR k * (1 + (INR k - 1) * Q2R q)) in D by lra.
    apply (Rmult_lt_reg_l (INR k)); [exact P|lra].
  - intros H x N. rewrite quad_full_real. pose proof (sum_squared k x) as C. pose proof (norm2_pos k x N) as P. unfold norm2 in P.
    set (s := sum k (fun i => x i * x i)) in *. set (t := sum k x) in *. pose proof (Rle_0_sqr t) as T. unfold Rsqr in T.
    destruct (Rle_lt_dec 0 (Q2R q)) as [Q0|Q0].
    + assert (0 <= Q2R q * (t * t)) by (now apply Rmult_le_pos). assert (0 < (1 - Q2R q) * s) by (apply Rmult_lt_0_compat; lra). lra.
    + assert (Q2R q * (INR k * s) <= Q2R q * (t * t)) by nra. assert (0 < (1 + (INR k - 1) * Q2R q) * s) by (now apply Rmult_lt_0_compat). lra.
Qed.
Lemma inr_of_nat n : Q2R (inject_Z (Z.of_nat n)) = INR n.
Proof. unfold Q2R, inject_Z. cbn [Qnum Qden]. rewrite INR_IZR_INZ. lra. Qed.
Lemma bound_real k q : (- (1) < (inject_Z (Z.of_nat k) - 1) * q)%Q <-> 0 < 1 + (INR k - 1) * Q2R q.
Proof.
  assert (One : Q2R 1 = 1) by (unfold Q2R; cbn; lra).
  assert (E : Q2R ((inject_Z (Z.of_nat k) - 1) * q) = (INR k - 1) * Q2R q).
  { now rewrite Q2R_mult, Q2R_minus, inr_of_nat, One. }
  split; intros H.
  - apply Qlt_Rlt in H. rewrite E, Q2R_opp, One in H. lra.
  - apply Rlt_Qlt. rewrite E, Q2R_opp, One. lra.
Qed.
Lemma scalar_outcome ppf k q cols m : increasing_quantile ppf -> length cols = k -> (1 <= k)%nat -> (-1 < q)%Q -> (q < 1)%Q ->
  (forall c, In c cols -> length c = m /\ varied c) ->
  real_definite k (fun i j => pearson (score_column ppf (nth i cols [])) (score_column ppf (nth j cols []))) ->
  if Qlt_bool (- (1)) ((inject_Z (Z.of_nat k) - 1) * q)
  then exists news, new_scores ppf (full_matrix k q) (map rank_min cols) = Ok news
  else new_scores ppf (full_matrix k q) (map rank_min cols) = Err LinAlgError.
Proof.
  intros Q L K Q0 Q1 V D. subst k. assert (NE : cols <> []) by (intros ->; cbn in K; lia).
  assert (PM : proper_matrix (length cols) (full_matrix (length cols) q)) by (apply full_proper; now apply Qlt_le_weak).
  assert (R1 : Q2R q < 1). { apply Qlt_Rlt in Q1. replace (Q2R 1) with 1 in Q1 by (unfold Q2R; cbn; lra). exact Q1. }
  destruct (outcome ppf _ cols m Q PM NE V) as (H1 & H2). destruct (Qlt_bool _ _) eqn:E.
  - apply H1; [|exact D]. apply full_definite; [exact K|exact R1|]. now apply bound_real, clt_true.
  - apply H2. intros (W & _). apply full_definite in W; [|exact K|exact R1]. apply bound_real, clt_true in W. congruence.
Qed.
Lemma scalar_boundary eig_ok h vs t u : eigen_test eig_ok -> (3 <= length vs)%nat ->
  (forall v, In v vs -> (v < length (vars h))%nat) -> (forall v, In v vs -> uncorrelated h v) ->
  exists q, (exists r, correlate eig_ok h vs (CScalar q) t u = Ok r) /\
  forall ppf cols m, increasing_quantile ppf -> length cols = length vs -> (forall c, In c cols -> length c = m /\ varied c) ->
    new_scores ppf (full_matrix (length cols) q) (map rank_min cols) = Err LinAlgError.
Proof.
  intros E K V U. set (d := (inject_Z (Z.of_nat (length vs)) - 1)%Q).
  assert (D : (2 <= d)%Q).
  { unfold d. apply (Qplus_le_l _ _ 1). setoid_replace (inject_Z (Z.of_nat (length vs)) - 1 + 1)%Q with (inject_Z (Z.of_nat (length vs))) by ring.
    change (2 + 1)%Q with (inject_Z 3). rewrite <- Zle_Qle. lia. }
  assert (D0 : ~ (d == 0)%Q) by (intros Z; rewrite Z in D; now apply D).
  assert (P : (0 < d)%Q) by (eapply Qlt_le_trans; [|exact D]; reflexivity).
  set (q := (- (1) / d)%Q). assert (Eq : (d * q == - (1))%Q) by (unfold q; field; exact D0).
  assert (Q0 : (-1 < q)%Q).
  { unfold q. apply Qlt_shift_div_l; [exact P|]. eapply Qle_lt_trans; [|apply (Qlt_le_trans (- (2)) (-1)); [reflexivity|discriminate]].
    setoid_replace (-1 * d)%Q with (- d)%Q by ring. now apply Qopp_le_compat. }
  assert (Q1 : (q < 1)%Q).
  { unfold q. apply Qlt_shift_div_r; [exact P|]. eapply Qlt_trans; [|rewrite Qmult_1_l; exact P]. reflexivity. }
  exists q. split.
  - apply (correlate_accepts_exact eig_ok h vs (CScalar q) t u E V). split; [lia|]. split; [exact U|].
    fold d. split; [rewrite Eq; apply Qle_refl|]. now split.
  - intros ppf cols m Q L C. rewrite L. assert (NE : cols <> []) by (intros ->; cbn in L; lia).
    assert (PM : proper_matrix (length cols) (full_matrix (length cols) q)) by (apply full_proper; now apply Qlt_le_weak).
    rewrite <- L. apply (outcome ppf _ cols m Q PM NE C). intros (W & _).
    assert (R1 : Q2R q < 1). { apply Qlt_Rlt in Q1. replace (Q2R 1) with 1 in Q1 by (unfold Q2R; cbn; lra). exact Q1. }
    apply full_definite in W; [|lia|exact R1]. apply bound_real in W. rewrite L in W. fold d in W. rewrite Eq in W. now apply Qlt_irrefl in W.
Qed.
Lemma untied_scores_definite : real_definite (length untied_data)
  (fun i j => pearson (score_column flat_ppf (nth i untied_data [])) (score_column flat_ppf (nth j untied_data []))).
Proof.
  destruct x1_dev as (A & B & C & D).
  apply definite_two; rewrite ?(score_pearson untied_data) by (cbn; auto); cbv zeta; rewrite untied_ranks; fold x1; rewrite ?A, ?B, ?C, ?D;
    rewrite !sqrt_square by lra; lra || field || idtac.
Qed.
