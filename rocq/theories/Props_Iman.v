(** Re-correlation of scores (C137, C138). *)
From Coq Require Import Reals Qreals Lra Permutation.
From Verif Require Import Base M_Values M_Sampler M_Corr M_Iman SpecCorr SpecIman P_Corr P_Induce P_CorrEx P_Iman P_ImanEx P_ImanRank.
Open Scope R_scope.

(* ---------------------------------------------------------------- C137 *)
(** With any quantile function: samples without ties get scores that have exactly
    the wanted correlations. *)
Theorem C137_exact_without_ties_partial :
  forall ppf w cols news, proper_matrix (length cols) w -> Forall tie_free cols ->
  new_scores ppf w (map rank_min cols) = Ok news ->
  length news = length cols /\
  forall i j, (i < length cols)%nat -> (j < length cols)%nat -> pearson (nth i news []) (nth j news []) = Q2R (entry w i j).
Proof. exact exact_correlation. Qed.
Print Assumptions C137_exact_without_ties_partial.

(** With ties they need not, even with enough different values. *)
Theorem C137_refuted :
  exists ppf w cols news, increasing_quantile ppf /\ proper_matrix 2 w /\ length cols = 2%nat /\
  (forall c, In c cols -> enough 4 c) /\ new_scores ppf w (map rank_min cols) = Ok news /\
  pearson (nth 0 news []) (nth 1 news []) <> Q2R (entry w 0 1).
Proof. exact ties_break. Qed.
Print Assumptions C137_refuted.

(** The returned columns are the samples in the order of those scores. *)
Theorem C137_order_of_exact_scores :
  forall ppf argsort spearman g cols out, sorts argsort -> proper_matrix (length cols) (wanted g) ->
  is_identity (wanted g) = false -> Forall tie_free cols ->
  induce_correlation argsort (vdw_scores ppf) spearman g cols = Ok out ->
  exists news : list (list R), new_scores ppf (wanted g) (map rank_min cols) = Ok news /\
    (forall i j, (i < length cols)%nat -> (j < length cols)%nat -> pearson (nth i news []) (nth j news []) = Q2R (entry (wanted g) i j)) /\
    forall i, (i < length cols)%nat -> length (nth i news []) = length (nth i cols []) /\
      (NoDup (nth i news []) -> Permutation (nth i out []) (nth i cols []) /\
         forall a b, (a < length (nth i cols []))%nat -> (b < length (nth i cols []))%nat ->
           (nth a (nth i news []) 0 <= nth b (nth i news []) 0)%R -> (nth a (nth i out []) 0 <= nth b (nth i out []) 0)%Q).
Proof. exact induced. Qed.
Print Assumptions C137_order_of_exact_scores.

Example C137_sat :
  proper_matrix 2 six /\ Forall tie_free untied_data /\ exists news, new_scores flat_ppf six (map rank_min untied_data) = Ok news.
Proof. split; [exact six_proper|]. split; [exact untied_free|exact untied_scores]. Qed.

(* ---------------------------------------------------------------- C138 *)
(** Triangular factors exist of definite matrices only, and multiply back. *)
Theorem C138_factor_iff_definite :
  forall k a, (forall i j, (i < k)%nat -> (j < k)%nat -> a i j = a j i) ->
  ((exists l, cholesky a k = Some l) <-> real_definite k a) /\
  forall l, cholesky a k = Some l ->
    (forall i j, (i < j)%nat -> (j < k)%nat -> l i j = 0) /\ (forall i, (i < k)%nat -> 0 < l i i) /\
    forall i j, (i < k)%nat -> (j < k)%nat -> total (map (fun t => l i t * l j t) (seq 0 k)) = a i j.
Proof.
  intros k a Sy. split; [split; [intros (l & H); now apply (cholesky_definite a k l)|intros D; now apply definite_cholesky]|].
  intros l H. destruct (cholesky_factor a k l Sy H) as ((Z & P) & E).
  split; [exact Z|]. split; [exact P|].
  intros i j I J. rewrite total_sum. symmetry. now apply E.
Qed.
Print Assumptions C138_factor_iff_definite.

(** Samples with at least two values each: re-correlation succeeds exactly if the
    wanted matrix and the correlations of the scores before are definite. *)
Theorem C138_succeeds_exactly :
  forall ppf w cols m, increasing_quantile ppf -> proper_matrix (length cols) w -> cols <> [] ->
  (forall c, In c cols -> length c = m /\ varied c) ->
  let definite_wanted := real_definite (length cols) (fun i j => Q2R (entry w i j)) in
  let definite_scores := real_definite (length cols)
    (fun i j => pearson (score_column ppf (nth i cols [])) (score_column ppf (nth j cols []))) in
  (definite_wanted -> definite_scores -> exists news, new_scores ppf w (map rank_min cols) = Ok news) /\
  (~ (definite_wanted /\ definite_scores) -> new_scores ppf w (map rank_min cols) = Err LinAlgError).
Proof. exact outcome. Qed.
Print Assumptions C138_succeeds_exactly.

(** Two variables whose samples are in the same order cannot be re-correlated. *)
Theorem C138_same_order_fails :
  forall ppf w cols m i j, increasing_quantile ppf -> proper_matrix (length cols) w ->
  (forall c, In c cols -> length c = m /\ varied c) ->
  (i < length cols)%nat -> (j < length cols)%nat -> i <> j -> rank_min (nth i cols []) = rank_min (nth j cols []) ->
  new_scores ppf w (map rank_min cols) = Err LinAlgError.
Proof. exact same_order_fails. Qed.
Print Assumptions C138_same_order_fails.

(** Nor can single samples. *)
Theorem C138_one_sample_fails :
  forall ppf w cols, proper_matrix (length cols) w -> cols <> [] -> (forall c, In c cols -> length c = 1%nat) ->
  real_definite (length cols) (fun i j => Q2R (entry w i j)) ->
  new_scores ppf w (map rank_min cols) = Err (ValueError "array must not contain infs or NaNs").
Proof.
  intros ppf w cols PM NE L D. destruct (definite_cholesky _ _ (proper_symmetric w _ PM) D) as (p & P).
  destruct PM as (Lw & _). apply (one_row ppf w cols p); auto. now rewrite Lw.
Qed.
Print Assumptions C138_one_sample_fails.

(** Nor can fewer samples than variables, or as many, whatever their values. *)
Theorem C138_too_few_samples_fail :
  forall ppf w cols m, increasing_quantile ppf -> proper_matrix (length cols) w -> cols <> [] ->
  (forall c, In c cols -> length c = m /\ varied c) -> (m <= length cols)%nat ->
  new_scores ppf w (map rank_min cols) = Err LinAlgError.
Proof. exact too_few. Qed.
Print Assumptions C138_too_few_samples_fail.
Example C138_few_sat :
  increasing_quantile flat_ppf /\ proper_matrix 2 six /\ forall c, In c [[1; 2]; [3; 1]]%Q -> length c = 2%nat /\ varied c.
Proof.
  split; [exact flat_increasing|]. split; [exact six_proper|].
  intros c [<-|[<-|[]]]; (split; [reflexivity|]).
  - exists 1%Q, 2%Q. cbn. repeat split; auto.
  - exists 1%Q, 3%Q. cbn. repeat split; auto.
Qed.

(** What other theorems assume of scores (C53, C54, C98) holds of these. *)
Theorem C138_contracts :
  forall ppf, well_shaped (vdw_scores ppf) /\ cholesky_test (vdw_scores ppf) /\
  (increasing_quantile ppf -> first_kept (vdw_scores ppf)) /\ (forall m r, vdw_scores ppf m r <> Err diversity_error).
Proof. intros ppf. split; [apply vdw_shaped|]. split; [apply vdw_cholesky|]. split; [apply vdw_first|apply vdw_no_diversity]. Qed.
Print Assumptions C138_contracts.

Example C138_sat :
  increasing_quantile flat_ppf /\ proper_matrix 2 six /\ real_definite 2 (fun i j => Q2R (entry six i j)) /\
  (forall c, In c untied_data -> length c = 5%nat /\ varied c) /\
  (exists news, new_scores flat_ppf six (map rank_min untied_data) = Ok news) /\
  rank_min [1; 5; 2]%Q = rank_min [10; 30; 20]%Q.
Proof.
  split; [exact flat_increasing|]. split; [exact six_proper|]. split; [exact six_definite|]. split; [exact untied_varied|].
  split; [exact untied_scores|reflexivity].
Qed.
