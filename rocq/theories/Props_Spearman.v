(** The tests behind correlations: eigenvalues (C52), one correlation for all pairs (C98), rank correlation (C153). *)
From Coq Require Import Reals Qreals Lra Lia.
From Verif Require Import Base M_Values M_Sampler M_Corr M_Iman M_Spearman SpecCorr SpecIman SpecEigen P_Corr P_Psd P_CorrEx P_Iman P_ImanEx P_Eigen P_CorrScalar P_Spearman.
Open Scope R_scope.

(* ---------------------------------------------------------------- C52 *)
(** A proper matrix has no negative eigenvalue exactly if it is semidefinite, so testing
    eigenvalues is what C52_accepts_exactly and C98 assume. *)
Theorem C52_eigenvalue_test :
  forall k m, proper_matrix k m -> (no_negative_eigenvalue k m <-> semidefinite m).
Proof. exact eigen_test_correct. Qed.
Print Assumptions C52_eigenvalue_test.

Theorem C52_accepts_by_eigenvalues :
  forall eig_ok, (forall k m, proper_matrix k m -> (eig_ok m = true <-> no_negative_eigenvalue k m)) ->
  forall h vs m t u, (forall v, In v vs -> (v < length (vars h))%nat) ->
  (exists r, correlate eig_ok h vs (CMatrix m) t u = Ok r) <->
  (2 <= length vs)%nat /\ (forall v, In v vs -> uncorrelated h v) /\ proper_matrix (length vs) m /\
  no_negative_eigenvalue (length vs) m.
Proof.
  intros eig_ok E h vs m t u V. rewrite (correlate_accepts_exact eig_ok h vs (CMatrix m) t u (real_eigen_test eig_ok E) V).
  split; intros (A & B & P & S); (split; [exact A|]; split; [exact B|]; split; [exact P|]); now apply (eigen_test_correct (length vs) m P).
Qed.
Print Assumptions C52_accepts_by_eigenvalues.

Example C52_eigen_sat :
  proper_matrix 2 perfect /\ no_negative_eigenvalue 2 perfect /\
  (forall k m, proper_matrix k m -> (ex_eig m = true <-> no_negative_eigenvalue k m)) /\
  eigenvalue 2 (fun i j => Q2R (entry perfect i j)) 0.
Proof.
  split; [exact perfect_proper|]. split; [apply (eigen_test_correct 2 _ perfect_proper), perfect_semidefinite|]. split.
  - intros k m P. rewrite (ex_eigen k m P). symmetry. now apply eigen_test_correct.
  - exists (fun i => if Nat.eqb i 0 then 1 else -1). split; [exists 0%nat; split; [lia|cbn; lra]|].
    intros i I. destruct i as [|[|i]]; [| |lia]; unfold total, Q2R; cbn; lra.
Qed.

(* ---------------------------------------------------------------- C98 *)
(** One correlation for all pairs can be induced in every sample that allows it at all,
    if it exceeds -1/(k-1). *)
Theorem C98_scalar_partial :
  forall ppf q cols m, increasing_quantile ppf -> (1 <= length cols)%nat -> (-1 < q)%Q -> (q < 1)%Q ->
  (forall c, In c cols -> length c = m /\ varied c) ->
  real_definite (length cols) (fun i j => pearson (score_column ppf (nth i cols [])) (score_column ppf (nth j cols []))) ->
  (- (1) < (inject_Z (Z.of_nat (length cols)) - 1) * q)%Q ->
  exists news, new_scores ppf (full_matrix (length cols) q) (map rank_min cols) = Ok news.
Proof.
  intros ppf q cols m Q K Q0 Q1 V D H. pose proof (scalar_outcome ppf _ q cols m Q eq_refl K Q0 Q1 V D) as S.
  apply clt_true in H. now rewrite H in S.
Qed.
Print Assumptions C98_scalar_partial.

(** For three or more variables -1/(k-1) is accepted and cannot be induced. *)
Theorem C98_scalar_refuted :
  forall eig_ok h vs t u, eigen_test eig_ok -> (3 <= length vs)%nat ->
  (forall v, In v vs -> (v < length (vars h))%nat) -> (forall v, In v vs -> uncorrelated h v) ->
  exists q, (exists r, correlate eig_ok h vs (CScalar q) t u = Ok r) /\
  forall ppf cols m, increasing_quantile ppf -> length cols = length vs -> (forall c, In c cols -> length c = m /\ varied c) ->
    new_scores ppf (full_matrix (length cols) q) (map rank_min cols) = Err LinAlgError.
Proof. exact scalar_boundary. Qed.
Print Assumptions C98_scalar_refuted.

Example C98_scalar_sat :
  increasing_quantile flat_ppf /\ (forall c, In c untied_data -> length c = 5%nat /\ varied c) /\
  real_definite (length untied_data) (fun i j => pearson (score_column flat_ppf (nth i untied_data [])) (score_column flat_ppf (nth j untied_data []))).
Proof. split; [exact flat_increasing|]. split; [exact untied_varied|exact untied_scores_definite]. Qed.

(* ---------------------------------------------------------------- C153 *)
(** Columns without ties: the textbook formula for rank correlation. *)
Theorem C153_textbook_formula :
  forall cols m i j, (forall c, In c cols -> length c = m) -> (2 <= m)%nat -> (i < length cols)%nat -> (j < length cols)%nat ->
  tie_free (nth i cols []) -> tie_free (nth j cols []) ->
  spearman_stat cols i j = Q2R (rho (nth i cols []) (nth j cols [])).
Proof. exact spearman_free. Qed.
Print Assumptions C153_textbook_formula.

(** It is 1 exactly for the same order and -1 exactly for the opposite order. *)
Theorem C153_extremes :
  forall cols m i j, (forall c, In c cols -> length c = m) -> (2 <= m)%nat -> (i < length cols)%nat -> (j < length cols)%nat ->
  tie_free (nth i cols []) -> tie_free (nth j cols []) ->
  (spearman_stat cols i j = 1 <-> same_order (nth i cols []) (nth j cols [])) /\
  (spearman_stat cols i j = -1 <-> opposite_order (nth i cols []) (nth j cols [])).
Proof.
  intros cols m i j L M I J Ti Tj. rewrite (spearman_free cols m i j L M I J Ti Tj).
  apply (spearman_extremes _ _ m); auto; apply L, nth_In; assumption.
Qed.
Print Assumptions C153_extremes.

(** Ties or not, it lies between -1 and 1, is 1 for a column and itself, and does not
    depend on units. *)
Theorem C153_range :
  forall cols m i j, (forall c, In c cols -> length c = m /\ varied c) -> (i < length cols)%nat -> (j < length cols)%nat ->
  -1 <= spearman_stat cols i j <= 1 /\ spearman_stat cols i i = 1 /\ spearman_stat cols i j = spearman_stat cols j i.
Proof.
  intros cols m i j V I J. split; [now apply (spearman_range cols m)|]. split; [now apply (spearman_diagonal cols m)|].
  unfold spearman_stat. apply (corrcoef_symmetric _ _ (length cols) i j I J).
Qed.
Print Assumptions C153_range.
Theorem C153_units :
  forall fs cols, conversions fs cols -> forall i j, spearman_stat (convert fs cols) i j = spearman_stat cols i j.
Proof. exact spearman_units. Qed.
Print Assumptions C153_units.

Example C153_sat :
  tie_free [3; 1; 2]%Q /\ tie_free [10; 20; 30]%Q /\ varied [3; 1; 2]%Q /\
  rank_avg [5; 5; 1]%Q = [2 + 1 / 2; 2 + 1 / 2; 1] /\ (rho [3; 1; 2] [10; 20; 30] == - (1 # 2))%Q /\
  conversions [fun x => 2 * x; fun x => x + 1]%Q [[3; 1; 2]; [10; 20; 30]]%Q.
Proof.
  assert (T : forall a b c : Q, ~ (a == b)%Q -> ~ (a == c)%Q -> ~ (b == c)%Q -> tie_free [a; b; c]).
  { intros a b c A B C i j I J. cbn in I, J. destruct i as [|[|[|i]]], j as [|[|[|j]]]; try lia; cbn; intros E; try reflexivity;
      exfalso; first [now apply A | now apply B | now apply C | apply A; now symmetry | apply B; now symmetry | apply C; now symmetry]. }
  split; [apply T; discriminate|]. split; [apply T; discriminate|].
  split; [exists 1%Q, 3%Q; cbn; repeat split; auto|].
  split; [unfold rank_avg; cbn; repeat (f_equal; try lra)|]. split; [vm_compute; reflexivity|].
  constructor; [|constructor; [|constructor]]; intros a b _ _; split; intros H; try (rewrite H; reflexivity).
  - apply Qmult_lt_l; [reflexivity|exact H].
  - apply Qplus_lt_l. exact H.
Qed.
