(** More variables than samples: scores are linearly dependent (C138). *)
From Coq Require Import Reals Qreals Lra Lia.
From Verif Require Import Base M_Values M_Sampler M_Corr M_Iman SpecCorr SpecIman P_Corr P_Induce P_Iman.
Open Scope R_scope.

Definition skip (p j : nat) : nat := if Nat.ltb j p then j else S j.
Lemma sum_skip n p f : (p <= n)%nat -> sum (S n) f = f p + sum n (fun j => f (skip p j)).
Proof.
  induction n as [|n IH]; intros L.
  - replace p with 0%nat by lia. cbn. lra.
  - change (sum (S (S n)) f) with (sum (S n) f + f (S n)). destruct (Nat.eq_dec p (S n)) as [-> |N].
    + rewrite (sum_ext (S n) (fun j => f (skip (S n) j)) f); [lra|].
      intros i I. unfold skip. destruct (Nat.ltb_spec i (S n)); [reflexivity|lia].
    + rewrite IH by lia. cbn [sum]. replace (skip p n) with (S n); [lra|].
      unfold skip. destruct (Nat.ltb_spec n p); [lia|reflexivity].
Qed.
Lemma pivot k (v : nat -> R) : (forall j, (j < k)%nat -> v j = 0) \/ exists p, (p < k)%nat /\ v p <> 0.
Proof.
  induction k as [|k [H|(p & P & N)]].
  - left. intros; lia.
  - destruct (Req_dec (v k) 0) as [Z|N]; [left|right; exists k; auto].
    intros j J. destruct (Nat.eq_dec j k) as [-> |]; [exact Z|apply H; lia].
  - right. exists p. auto.
Qed.
(** More vectors than coordinates are linearly dependent. *)
Lemma dependent : forall d k (v : nat -> nat -> R), (d < k)%nat ->
  exists c : nat -> R, (exists j, (j < k)%nat /\ c j <> 0) /\ forall i, (i < d)%nat -> sum k (fun j => c j * v j i) = 0.
Proof.
  induction d as [|d IH]; intros k v L.
  - exists (fun _ => 1). split; [exists 0%nat; split; [exact L|lra]|intros; lia].
  - destruct (pivot k (fun j => v j d)) as [Z|(p & P & N)].
    + destruct (IH k v ltac:(lia)) as (c & NZ & E). exists c. split; [exact NZ|]. intros i I.
      destruct (Nat.eq_dec i d) as [-> |]; [|apply E; lia]. apply sum_zero. intros j J. rewrite (Z j J). lra.
    + destruct k as [|n]; [lia|].
      destruct (IH n (fun j i => v (skip p j) i - v (skip p j) d / v p d * v p i) ltac:(lia)) as (c & (j0 & J0 & NZ) & E).
      set (s := sum n (fun j => c j * v (skip p j) d)).
      set (c' := fun j => if Nat.eqb j p then - s / v p d else c (if Nat.ltb j p then j else pred j)).
      assert (Cp : c' p = - s / v p d) by (unfold c'; now rewrite Nat.eqb_refl).
      assert (Cs : forall j, c' (skip p j) = c j).
      { intros j. unfold c', skip. destruct (Nat.ltb_spec j p) as [A|A].
        - destruct (Nat.eqb_spec j p); [lia|]. destruct (Nat.ltb_spec j p); [reflexivity|lia].
        - destruct (Nat.eqb_spec (S j) p); [lia|]. destruct (Nat.ltb_spec (S j) p); [lia|reflexivity]. }
      exists c'. split.
      { exists (skip p j0). split; [unfold skip; destruct (Nat.ltb_spec j0 p); lia|now rewrite Cs]. }
      intros i I. rewrite (sum_skip n p) by lia. rewrite Cp.
      rewrite (sum_ext n (fun j => c' (skip p j) * v (skip p j) i) (fun j => c j * v (skip p j) i)) by (intros; now rewrite Cs).
      destruct (Nat.eq_dec i d) as [-> |].
      * fold s. field. exact N.
      * specialize (E i ltac:(lia)). cbn beta in E.
        rewrite (sum_ext n _ (fun j => c j * v (skip p j) i - (c j * v (skip p j) d) * (v p i / v p d))) in E by (intros; field; exact N).
        rewrite sum_minus, sum_scal_r in E. fold s in E.
        replace (sum n (fun j => c j * v (skip p j) i)) with (s * (v p i / v p d)) by lra. field. exact N.
Qed.

(** Vectors whose coordinates add up to zero. *)
Lemma dependent_balanced m k (v : nat -> nat -> R) : (m <= k)%nat -> (0 < m)%nat ->
  (forall j, (j < k)%nat -> sum m (v j) = 0) ->
  exists c : nat -> R, (exists j, (j < k)%nat /\ c j <> 0) /\ forall i, (i < m)%nat -> sum k (fun j => c j * v j i) = 0.
Proof.
  intros L P B. destruct m as [|m]; [lia|]. destruct (dependent m k v ltac:(lia)) as (c & NZ & E).
  exists c. split; [exact NZ|]. intros i I. destruct (Nat.eq_dec i m) as [-> |]; [|apply E; lia].
  assert (T : sum (S m) (fun i => sum k (fun j => c j * v j i)) = 0).
  { rewrite sum_swap. apply sum_zero. intros j J. rewrite sum_scal, B by exact J. lra. }
  cbn [sum] in T. rewrite (sum_zero m) in T by (intros; now apply E). lra.
Qed.

Lemma list_seq (l : list R) : l = map (fun t => nth t l 0) (seq 0 (length l)).
Proof.
  apply nth_ext with 0 0; [now rewrite map_length, seq_length|]. intros n N. rewrite nth_map_seq' by exact N. reflexivity.
Qed.
Definition away (l : list R) (t : nat) : R := nth t l 0 - average l.
Lemma away_balanced l : (0 < length l)%nat -> sum (length l) (away l) = 0.
Proof.
  intros P. unfold away. rewrite sum_minus. assert (T : total l = sum (length l) (fun t => nth t l 0)).
  { rewrite (list_seq l) at 1. apply total_sum. }
  assert (C : forall n c, sum n (fun _ => c) = INR n * c).
  { induction n; intros c; cbn [sum]; [cbn; lra|]. rewrite IHn, S_INR. lra. }
  rewrite C. unfold average. rewrite T. field. apply not_0_INR. lia.
Qed.
Lemma average_nth l : average l = sum (length l) (fun t => nth t l 0) / INR (length l).
Proof. unfold average. rewrite (list_seq l) at 1. now rewrite total_sum. Qed.
Lemma co_deviation_away a b m : length a = m -> length b = m -> co_deviation a b = sum m (fun t => away a t * away b t).
Proof.
  intros A B. rewrite (list_seq a), (list_seq b) at 1. rewrite A, B, co_deviation_sum. apply sum_ext. intros t _.
  unfold away. now rewrite !average_nth, A, B.
Qed.
Lemma singular k m (cols : nat -> list R) : (m <= k)%nat -> (0 < m)%nat ->
  (forall j, (j < k)%nat -> length (cols j) = m /\ co_deviation (cols j) (cols j) <> 0) ->
  ~ real_definite k (fun i j => pearson (cols i) (cols j)).
Proof.
  intros L P V D.
  destruct (dependent_balanced m k (fun j => away (cols j)) L P) as (c & (j0 & J0 & NZ) & E).
  { intros j J. rewrite <- (proj1 (V j J)). apply away_balanced. rewrite (proj1 (V j J)). exact P. }
  set (s := fun j => co_deviation (cols j) (cols j)).
  assert (Sp : forall j, (j < k)%nat -> 0 < s j).
  { intros j J. destruct (V j J) as (Lj & Nj). assert (0 <= s j); [|unfold s in *; lra].
    unfold s. rewrite (co_deviation_away _ _ m Lj Lj). apply sum_nonneg. intros t _. apply Rle_0_sqr. }
  assert (Q : 0 < real_quad k (fun i j => pearson (cols i) (cols j)) (fun j => c j * sqrt (s j))).
  { apply D. exists j0. split; [exact J0|]. apply Rmult_integral_contrapositive. split; [exact NZ|].
    pose proof (sqrt_lt_R0 _ (Sp j0 J0)). lra. }
  rewrite quad_sum in Q.
  rewrite (sum_ext k _ (fun i => sum k (fun j => sum m (fun t => (c i * away (cols i) t) * (c j * away (cols j) t))))) in Q.
  2:{ intros i I. apply sum_ext. intros j J. unfold pearson. fold (s i) (s j).
      rewrite sqrt_mult by (apply Rlt_le; auto).
      rewrite (co_deviation_away _ _ m (proj1 (V i I)) (proj1 (V j J))).
      pose proof (sqrt_lt_R0 _ (Sp i I)). pose proof (sqrt_lt_R0 _ (Sp j J)).
      rewrite (sum_ext m (fun t => c i * away (cols i) t * (c j * away (cols j) t)) (fun t => c i * c j * (away (cols i) t * away (cols j) t)))
        by (intros; lra).
      rewrite sum_scal. field. lra. }
  rewrite (sum_ext k _ (fun i => sum m (fun t => (c i * away (cols i) t) * sum k (fun j => c j * away (cols j) t)))) in Q.
  2:{ intros i I. rewrite sum_swap. apply sum_ext. intros t _. now rewrite sum_scal. }
  rewrite (sum_zero k) in Q; [lra|]. intros i I. apply sum_zero. intros t T. rewrite E by exact T. lra.
Qed.

Lemma too_few ppf w cols m : increasing_quantile ppf -> proper_matrix (length cols) w -> cols <> [] ->
  (forall c, In c cols -> length c = m /\ varied c) -> (m <= length cols)%nat ->
  new_scores ppf w (map rank_min cols) = Err LinAlgError.
Proof.
  intros Q PM NE V L. destruct (outcome ppf w cols m Q PM NE V) as (_ & H). apply H. intros (_ & D). revert D.
  apply (singular (length cols) m (fun i => score_column ppf (nth i cols []))); [exact L| |].
  - destruct cols as [|c cols]; [contradiction|]. destruct (V c (or_introl eq_refl)) as (<- & a & b & A & _).
    destruct c; [contradiction|cbn; lia].
  - intros j J. destruct (V _ (nth_In cols [] J)) as (Lj & Vj). split.
    + unfold score_column. now rewrite map_length, rank_length.
    + pose proof (varied_spread ppf m cols j Q J Lj Vj) as N. rewrite <- co_deviation_dev in N.
      rewrite vdw_column in N.
      * rewrite (nth_map2 rank_min cols _ [] []) in N by exact J. unfold score_column. rewrite Lj. exact N.
      * rewrite (nth_map2 rank_min cols _ [] []) by exact J. now rewrite rank_length.
Qed.
