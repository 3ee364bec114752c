(** Inducing correlation in other units, and the ranks of the result. *)
From Verif Require Import Base M_Corr SpecCorr P_Corr P_Induce.
From Coq Require Import Lqa Permutation.
Open Scope Q_scope.

Lemma conv_lt f c a b : increasing_on f c -> In a c -> In b c -> Qlt_bool (f a) (f b) = Qlt_bool a b.
Proof.
  intros I A B. destruct (Qlt_bool a b) eqn:E.
  - apply clt_true. apply clt_true in E. now apply I.
  - apply Bool.not_true_is_false. intros H. apply clt_true in H.
    assert (N : ~ a < b) by (intros L; apply clt_true in L; congruence). apply Qnot_lt_le in N.
    apply Qle_lteq in N as [N|N].
    + apply (I b a B A) in N. lra.
    + apply (I b a B A) in N. lra.
Qed.
Lemma conv_rank f c : increasing_on f c -> rank_min (map f c) = rank_min c.
Proof.
  intros I. unfold rank_min. rewrite map_map. apply map_ext_in. intros x X. f_equal. rewrite filter_map_len.
  f_equal. apply filter_ext_in. intros y Y. now apply conv_lt with c.
Qed.
Lemma uinsert_incl x l y : In y (uinsert x l) -> y = x \/ In y l.
Proof.
  induction l as [|z l IH]; cbn; [intuition|]. destruct (Qlt_bool x z); [cbn; intuition|].
  destruct (Qlt_bool z x); cbn; intuition.
Qed.
Lemma conv_uinsert f c x l : increasing_on f c -> In x c -> (forall y, In y l -> In y c) ->
  uinsert (f x) (map f l) = map f (uinsert x l).
Proof.
  intros I X. induction l as [|z l IH]; intros L; [reflexivity|]. cbn.
  rewrite (conv_lt f c x z), (conv_lt f c z x) by (auto; apply L; now left).
  destruct (Qlt_bool x z); [reflexivity|]. destruct (Qlt_bool z x); [|reflexivity]. cbn. f_equal. apply IH. intros y Y. apply L. now right.
Qed.
Lemma np_unique_incl l y : In y (np_unique l) -> In y l.
Proof. induction l as [|x l IH]; cbn; [tauto|]. intros H. apply uinsert_incl in H as [->|H]; auto. Qed.
Lemma conv_unique f c : increasing_on f c -> np_unique (map f c) = map f (np_unique c).
Proof.
  intros I. assert (H : forall l, (forall y, In y l -> In y c) -> np_unique (map f l) = map f (np_unique l)).
  { induction l as [|x l IH]; intros L; [reflexivity|]. cbn. change (fold_right uinsert [] (map f l)) with (np_unique (map f l)).
    rewrite IH by (intros y Y; apply L; now right). apply (conv_uinsert f c); auto; [apply L; now left|].
    intros y Y. apply L. right. now apply np_unique_incl. }
  now apply H.
Qed.
Lemma conv_diverse f c u : increasing_on f c -> diverse u (map f c) = diverse u c.
Proof. intros I. unfold diverse. now rewrite (conv_unique f c I), !map_length. Qed.

Lemma resort_convert argsort f col s : sorts argsort -> length s = length col ->
  resort argsort (map f col) (rank_min col) (rank_min s) = map f (resort argsort col (rank_min col) (rank_min s)).
Proof.
  intros SO L. unfold resort. cbn zeta.
  assert (E : map (fun k => nth k (map f col) 0) (argsort (inverse (rank_min col ++ rank_min s) (rank_min col))) =
              map f (map (fun k => nth k col 0) (argsort (inverse (rank_min col ++ rank_min s) (rank_min col))))).
  { rewrite map_map. apply map_ext_in. intros k K. apply nth_map2.
    destruct (SO (inverse (rank_min col ++ rank_min s) (rank_min col))) as [P _]. apply (Permutation_in _ P), in_seq in K.
    unfold inverse in K. rewrite map_length, rank_length in K. lia. }
  rewrite E. set (t := map (fun k => nth k col 0) _).
  assert (Lt : length t = length col).
  { unfold t. rewrite map_length. destruct (SO (inverse (rank_min col ++ rank_min s) (rank_min col))) as [P _].
    rewrite (Permutation_length P), seq_length. unfold inverse. now rewrite map_length, rank_length. }
  rewrite map_map. apply map_ext_in. intros k K. apply nth_map2. rewrite Lt.
  unfold inverse in K. apply in_map_iff in K as (r & <- & I).
  assert (IU : In r (n_unique (rank_min col ++ rank_min s))) by (apply n_unique_in, in_or_app; auto).
  apply index_of_lt in IU. eapply Nat.lt_le_trans; [exact IU|]. apply unique_bound.
  intros q Q. apply in_app_or in Q as [Q|Q]; apply ranks_range in Q; lia.
Qed.

Definition conv_res fs (r : res (list (list Q))) : res (list (list Q)) := match r with Ok out => Ok (convert fs out) | Err e => Err e end.
Lemma convert_cons f fs c cols : convert (f :: fs) (c :: cols) = map f c :: convert fs cols.
Proof. reflexivity. Qed.
Lemma convert_ranks fs cols : conversions fs cols -> map rank_min (convert fs cols) = map rank_min cols.
Proof. induction 1 as [|f c fs cols I F IH]; [reflexivity|]. rewrite convert_cons. cbn [map]. rewrite (conv_rank f c I). f_equal. exact IH. Qed.
Lemma convert_rows fs cols : conversions fs cols -> no_rows (convert fs cols) = no_rows cols.
Proof. intros [|f [|x c] fs' cols' I F]; reflexivity. Qed.
Lemma convert_diverse fs cols u : conversions fs cols -> forallb (diverse u) (convert fs cols) = forallb (diverse u) cols.
Proof. induction 1 as [|f c fs cols I F IH]; [reflexivity|]. rewrite convert_cons. cbn [forallb]. rewrite (conv_diverse f c u I). f_equal. exact IH. Qed.
Lemma convert_map3 argsort fs cols news : sorts argsort -> conversions fs cols -> Forall2 (fun a b => length a = length b) cols news ->
  map3 (resort argsort) (convert fs cols) (map rank_min cols) (map rank_min news) =
  convert fs (map3 (resort argsort) cols (map rank_min cols) (map rank_min news)).
Proof.
  intros SO C. revert news. induction C as [|f c fs cols I F IH]; intros news L; inversion L; subst; [reflexivity|].
  rewrite convert_cons. cbn [map map3]. rewrite convert_cons, (resort_convert argsort f c y SO) by congruence. f_equal. apply IH. assumption.
Qed.
Lemma map3_conversions argsort fs cols news : sorts argsort -> conversions fs cols -> Forall2 (fun a b => length a = length b) cols news ->
  conversions fs (map3 (resort argsort) cols (map rank_min cols) (map rank_min news)).
Proof.
  intros SO C. revert news. induction C as [|f c fs cols I F IH]; intros news L; inversion L; subst; [constructor|].
  cbn [map map3]. constructor; [|now apply IH]. intros a b A B. apply I; apply (resort_incl argsort SO c y); auto; congruence.
Qed.
Lemma convert_length fs cols : conversions fs cols -> length (convert fs cols) = length cols.
Proof. induction 1; [reflexivity|]. cbn. f_equal. assumption. Qed.

Lemma induce_converts argsort scores spearman g fs cols : sorts argsort -> well_shaped scores -> rank_based spearman ->
  conversions fs cols ->
  induce_correlation argsort scores spearman g (convert fs cols) =
  conv_res fs (induce_correlation argsort scores spearman g cols).
Proof.
  intros SO W RB C. unfold induce_correlation. rewrite convert_rows, convert_diverse by exact C.
  destruct (no_rows cols); [reflexivity|]. destruct (forallb _ cols); [|reflexivity]. cbn [negb].
  destruct (is_identity (wanted g)); [reflexivity|]. rewrite convert_ranks by exact C.
  destruct (scores (wanted g) (map rank_min cols)) as [news|e] eqn:S; [|reflexivity]. cbn [bind].
  assert (L : Forall2 (fun a b => length a = length b) cols news).
  { apply W in S. clear - S. revert news S. induction cols as [|c cols IH]; intros news S; inversion S; subst; constructor; auto.
    now rewrite rank_length in H1. }
  rewrite (convert_map3 argsort fs cols news SO C L). set (out := map3 _ _ _ _).
  assert (Co : conversions fs out) by (now apply map3_conversions).
  destruct (tol g) as [t|]; [|reflexivity]. destruct (Qeq_bool t 0); [reflexivity|].
  unfold well_correlated. rewrite (RB fs out Co), (convert_length fs out Co).
  destruct (if Nat.eqb (length out) 2 then _ else _); reflexivity.
Qed.

(** Two columns in the same order have the same ranks. *)
Lemma same_order_ranks a b : same_order a b -> rank_min a = rank_min b.
Proof.
  intros (L & O). apply (nth_ext _ _ 0%nat 0%nat); rewrite !rank_length; [exact L|]. intros i I.
  rewrite !rank_nth by lia. f_equal. unfold below.
  assert (H : forall k, (k <= length a)%nat ->
    length (filter (fun y => Qlt_bool y (nth i a 0)) (firstn k a)) = length (filter (fun y => Qlt_bool y (nth i b 0)) (firstn k b))).
  { induction k as [|k IH]; intros K; [reflexivity|].
    assert (FS : forall l, (k < length l)%nat -> firstn (S k) l = firstn k l ++ [nth k l 0]).
    { intros l. clear. revert k. induction l as [|x l IHl]; intros [|k] H; cbn in *; try lia; [reflexivity|]. f_equal. rewrite <- IHl by lia. reflexivity. }
    rewrite !FS by lia. rewrite !filter_app, !app_length, IH by lia. f_equal. cbn [filter].
    replace (Qlt_bool (nth k b 0) (nth i b 0)) with (Qlt_bool (nth k a 0) (nth i a 0)); [now destruct (Qlt_bool _ _)|].
    specialize (O k i ltac:(lia) I). destruct (Qlt_bool (nth k a 0) (nth i a 0)) eqn:E; symmetry.
    - apply clt_true. apply O. now apply clt_true.
    - apply Bool.not_true_is_false. intros X. apply clt_true in X. apply O in X. apply clt_true in X. congruence. }
  specialize (H (length a) (Nat.le_refl _)). rewrite firstn_all in H. rewrite L, firstn_all in H. exact H.
Qed.
Lemma perm_tie_free a b : Permutation a b -> tie_free a -> tie_free b.
Proof.
  intros P T. assert (R : forall l, tie_free l <-> NoDup (map Qred l)).
  { intros l. split.
    - intros F. apply (NoDup_nth _ 0). intros i j I J E. rewrite map_length in I, J. rewrite !(nth_map2 Qred l _ 0 0) in E by assumption.
      apply F; auto. rewrite <- (Qred_correct (nth i l 0)), <- (Qred_correct (nth j l 0)), E. reflexivity.
    - intros N i j I J E. apply (proj1 (NoDup_nth (map Qred l) 0) N); rewrite ?map_length; auto.
      rewrite !(nth_map2 Qred l _ 0 0) by assumption. now apply Qred_complete. }
  apply R. apply R in T. eapply Permutation_NoDup; [apply Permutation_map, P|exact T].
Qed.
Lemma ordered_same_order s out : tie_free out -> ordered_as s out -> tie_free s -> same_order s out.
Proof.
  intros T (L & O) Ts. split; [auto|]. intros i j I J. split; intros H.
  - assert (K : nth i out 0 <= nth j out 0) by (apply O; auto; now apply Qlt_le_weak).
    apply Qle_lteq in K as [K|K]; [exact K|]. apply T in K; [|lia|lia]. subst. lra.
  - apply Qnot_le_lt. intros K. apply O in K; auto. lra.
Qed.
Lemma induced_ranks argsort scores spearman g cols out news i : sorts argsort -> well_shaped scores ->
  induce_correlation argsort scores spearman g cols = Ok out -> is_identity (wanted g) = false ->
  scores (wanted g) (map rank_min cols) = Ok news -> (i < length cols)%nat ->
  tie_free (nth i cols []) -> tie_free (nth i news []) -> rank_min (nth i out []) = rank_min (nth i news []).
Proof.
  intros SO W H NI S I Tc Tn. destruct (induce_columns argsort scores spearman g cols out i SO W H I) as (_ & _ & _ & K).
  destruct (K news S Tn) as (P & O). symmetry. apply same_order_ranks, ordered_same_order; auto.
  eapply perm_tie_free; [symmetry; exact P|exact Tc].
Qed.
