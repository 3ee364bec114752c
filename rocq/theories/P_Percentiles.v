(** Lemmas about unweighted percentiles. *)
From Coq Require Import Lqa Setoid Permutation Sorted.
From Verif Require Import Base M_Values M_Ops M_Percentiles SpecPercentiles P_Support P_Ctor P_Round.
Open Scope Q_scope.

(* ------------------------------------------------- sorting *)
Lemma insert_perm x l : Permutation (insert x l) (x :: l).
Proof.
  induction l as [|y l IH]; simpl; [reflexivity|]. destruct (Qle_bool x y); [reflexivity|].
  rewrite IH. apply perm_swap.
Qed.
Lemma qsort_perm l : Permutation (qsort l) l.
Proof. induction l as [|x l IH]; simpl; [reflexivity|]. rewrite insert_perm. now rewrite IH. Qed.
Lemma insert_sorted x l : StronglySorted Qle l -> StronglySorted Qle (insert x l).
Proof.
  induction 1 as [|y l H IH F]; simpl; [repeat constructor|].
  destruct (Qle_bool x y) eqn:E.
  - apply Qle_bool_iff in E. constructor; [now constructor|]. constructor; auto.
    rewrite Forall_forall in *. intros z I. apply Qle_trans with y; auto.
  - apply qle_false in E. constructor; auto. rewrite Forall_forall in *. intros z I.
    apply (Permutation_in z (insert_perm x l)) in I. destruct I as [<-|I]; [now apply Qlt_le_weak|auto].
Qed.
Lemma qsort_sorted l : StronglySorted Qle (qsort l).
Proof. induction l; simpl; [constructor|now apply insert_sorted]. Qed.
Lemma qsort_length l : length (qsort l) = length l.
Proof. apply Permutation_length, qsort_perm. Qed.

(* ------------------------------------------------- order statistics *)
Lemma filter_len_perm {A} (f : A -> bool) l m : Permutation l m -> length (filter f l) = length (filter f m).
Proof.
  induction 1; simpl; auto.
  - destruct (f x); simpl; congruence.
  - destruct (f x), (f y); simpl; congruence.
  - congruence.
Qed.
Lemma order_stat_perm l m i v : Permutation l m -> order_stat l i v -> order_stat m i v.
Proof.
  intros P [I C]. split; [eapply Permutation_in; eauto|]. unfold count_below, count_upto in *.
  now rewrite <- !(filter_len_perm _ _ _ P).
Qed.
Lemma counts_le l v w : v < w -> (count_upto l v <= count_below l w)%nat.
Proof.
  intros L. unfold count_upto, count_below. induction l as [|y l IH]; simpl; [lia|].
  destruct (Qle_bool y v) eqn:E; simpl.
  - apply Qle_bool_iff in E. assert (Qlt_bool y w = true) as -> by (apply qlt_true; lra). simpl. lia.
  - destruct (Qlt_bool y w); simpl; lia.
Qed.
Lemma order_stat_mono l i j a b : (i <= j)%nat -> order_stat l i a -> order_stat l j b -> a <= b.
Proof.
  intros L [_ A] [_ B]. apply Qnot_lt_le. intros C. pose proof (counts_le l b a C). lia.
Qed.
Lemma order_stat_unique l i a b : order_stat l i a -> order_stat l i b -> a == b.
Proof. intros A B. apply Qle_antisym; eapply order_stat_mono; eauto. Qed.

Lemma filter_nil {A} (f : A -> bool) l : (forall x, In x l -> f x = false) -> filter f l = [].
Proof. induction l as [|x l IH]; intros H; simpl; auto. rewrite H by (now left). apply IH. intros; apply H; now right. Qed.
Lemma filter_all {A} (f : A -> bool) l : (forall x, In x l -> f x = true) -> filter f l = l.
Proof. induction l as [|x l IH]; intros H; simpl; auto. rewrite H by (now left). f_equal. apply IH. intros; apply H; now right. Qed.
Lemma filter_len {A} (f : A -> bool) l : (length (filter f l) <= length l)%nat.
Proof. induction l; simpl; [lia|]. destruct (f a); simpl; lia. Qed.
Lemma sorted_parts s i : StronglySorted Qle s -> (i < length s)%nat ->
  (forall x, In x (firstn i s) -> x <= nth i s 0) /\ (forall x, In x (skipn i s) -> nth i s 0 <= x).
Proof.
  intros H. revert i. induction H as [|y s H IH F]; intros i L; simpl in L; [lia|]. rewrite Forall_forall in F.
  destruct i as [|i]; simpl.
  - split; [contradiction|]. intros x [<-|I]; [lra|auto].
  - destruct (IH i ltac:(lia)) as [A B]. split; auto. intros x [<-|I]; auto. apply F. apply nth_In. lia.
Qed.
Lemma in_skipn_nth (s : list Q) i : (i < length s)%nat -> In (nth i s 0) (skipn i s).
Proof. revert i. induction s as [|x s IH]; intros [|i] L; simpl in *; try lia; auto. apply IH. lia. Qed.
Lemma sorted_order_stat s i : StronglySorted Qle s -> (i < length s)%nat -> order_stat s i (nth i s 0).
Proof.
  intros S L. destruct (sorted_parts s i S L) as [A B]. split; [now apply nth_In|].
  assert (SP : forall f, length (filter f s) = (length (filter f (firstn i s)) + length (filter f (skipn i s)))%nat).
  { intros f. rewrite <- (firstn_skipn i s) at 1. now rewrite filter_app, app_length. }
  unfold count_below, count_upto. rewrite !SP. split.
  - rewrite (filter_nil _ (skipn i s)).
    + simpl. pose proof (filter_len (fun y => Qlt_bool y (nth i s 0)) (firstn i s)). rewrite firstn_length in H. lia.
    + intros x I. apply qlt_false. auto.
  - rewrite (filter_all _ (firstn i s)).
    + rewrite firstn_length. assert (In (nth i s 0) (filter (fun y => Qle_bool y (nth i s 0)) (skipn i s))).
      { apply filter_In. split; [|apply Qle_bool_iff; lra].
        now apply in_skipn_nth. }
      destruct (filter _ (skipn i s)); [contradiction|]. simpl. lia.
    + intros x I. apply Qle_bool_iff. auto.
Qed.
Lemma qsort_order_stat l i : (i < length l)%nat -> order_stat l i (nth i (qsort l) 0).
Proof.
  intros L. apply (order_stat_perm (qsort l)); [apply qsort_perm|].
  apply sorted_order_stat; [apply qsort_sorted|now rewrite qsort_length].
Qed.

(* ------------------------------------------------- percentiles by the specification *)
Lemma inject_nat_le a b : (a <= b)%nat <-> inject_Z (Z.of_nat a) <= inject_Z (Z.of_nat b).
Proof. unfold Qle. simpl. lia. Qed.
Lemma inject_nat_lt a b : (a < b)%nat <-> inject_Z (Z.of_nat a) < inject_Z (Z.of_nat b).
Proof. unfold Qlt. simpl. lia. Qed.
Lemma inject_S a : inject_Z (Z.of_nat (S a)) == inject_Z (Z.of_nat a) + 1.
Proof. rewrite Nat2Z.inj_succ, <- Z.add_1_r, inject_Z_plus. reflexivity. Qed.

Lemma position_mono n p q : p <= q -> inject_Z (Z.of_nat n) * (p / 100) <= inject_Z (Z.of_nat n) * (q / 100).
Proof.
  intros L. rewrite (Qmult_comm _ (p / 100)), (Qmult_comm _ (q / 100)). apply Qmult_le_compat_r.
  - unfold Qdiv. apply Qmult_le_compat_r; auto. discriminate.
  - unfold Qle. simpl. lia.
Qed.
Lemma step_value a b t : a <= b -> 0 <= t -> t <= 1 -> a <= a + (b - a) * t /\ a + (b - a) * t <= b.
Proof.
  intros L T U. pose proof (Qmult_le_0_compat (b - a) t ltac:(lra) T).
  pose proof (Qmult_le_0_compat (b - a) (1 - t) ltac:(lra) ltac:(lra)). split; lra.
Qed.
Lemma percentile_mono l p q r s : p <= q -> percentile_of l p r -> percentile_of l q s -> r <= s.
Proof.
  intros L (i & a & b & V1 & V2 & A & B & E) (j & c & d & W1 & W2 & C & D & F).
  cbv zeta in *. pose proof (position_mono (length l - 1) p q L) as M.
  set (v := inject_Z (Z.of_nat (length l - 1)) * (p / 100)) in *.
  set (w := inject_Z (Z.of_nat (length l - 1)) * (q / 100)) in *. rewrite E, F.
  assert (IJ : (i <= j)%nat).
  { assert (i < S j)%nat; [|lia]. apply inject_nat_lt. rewrite inject_S. lra. }
  assert (AB : a <= b \/ (i >= length l)%nat).
  { destruct (Nat.lt_ge_cases i (length l)); [left|now right]. eapply order_stat_mono; [|exact A|exact B]. lia. }
  assert (SZ : forall k x, order_stat l k x -> (k < length l)%nat).
  { intros k x [_ [_ X]]. unfold count_upto in X. pose proof (filter_len (fun y => Qle_bool y x) l). lia. }
  pose proof (SZ _ _ A). pose proof (SZ _ _ C).
  assert (AB' : a <= b) by (destruct AB; [auto|lia]). clear AB.
  assert (CD : c <= d) by (eapply order_stat_mono; [|exact C|exact D]; lia).
  destruct (step_value a b (v - inject_Z (Z.of_nat i)) AB' ltac:(lra) ltac:(lra)) as [S1 S2].
  destruct (step_value c d (w - inject_Z (Z.of_nat j)) CD ltac:(lra) ltac:(lra)) as [S3 S4].
  destruct (Nat.eq_dec i j) as [->|N].
  - pose proof (order_stat_unique _ _ _ _ A C) as EA. pose proof (order_stat_unique _ _ _ _ B D) as EB.
    rewrite <- EA, <- EB. pose proof (Qmult_le_0_compat (b - a) (w - v) ltac:(lra) ltac:(lra)). lra.
  - assert (b <= c) by (eapply order_stat_mono; [|exact B|exact C]; lia). lra.
Qed.
Lemma percentile_unique l p r s : percentile_of l p r -> percentile_of l p s -> r == s.
Proof. intros A B. apply Qle_antisym; eapply percentile_mono; eauto; apply Qle_refl. Qed.
Lemma percentile_perm l m p r : Permutation l m -> percentile_of l p r -> percentile_of m p r.
Proof.
  intros P (i & a & b & H). exists i, a, b. cbv zeta in *. rewrite <- (Permutation_length P).
  destruct H as (V1 & V2 & A & B & E). repeat split; auto; eapply order_stat_perm; eauto.
Qed.
Lemma percentile_compat l p p' r r' : p == p' -> r == r' -> percentile_of l p r -> percentile_of l p' r'.
Proof.
  intros Ep Er (i & a & b & V1 & V2 & A & B & E). exists i, a, b. cbv zeta in *.
  rewrite <- Ep, <- Er. auto 10.
Qed.
Lemma percentile_between l p r lo hi : all_between lo hi l -> percentile_of l p r -> lo <= r /\ r <= hi.
Proof.
  intros H (i & a & b & V1 & V2 & A & B & E). cbv zeta in *. rewrite E.
  destruct (H a (proj1 A)), (H b (proj1 B)).
  assert (SZ : (i < length l)%nat).
  { destruct A as [_ [_ X]]. unfold count_upto in X. pose proof (filter_len (fun y => Qle_bool y a) l). lia. }
  assert (AB : a <= b) by (eapply order_stat_mono; [|exact A|exact B]; lia).
  destruct (step_value a b (inject_Z (Z.of_nat (length l - 1)) * (p / 100) - inject_Z (Z.of_nat i)) AB ltac:(lra) ltac:(lra)). split; lra.
Qed.

(* ------------------------------------------------- what numpy computes *)
Lemma np_percentile_spec data p : data <> [] -> percent p -> percentile_of data p (np_percentile data p).
Proof.
  intros N [P0 P1].
  assert (LN : (1 <= length data)%nat) by (destruct data; simpl; [congruence|lia]).
  assert (QN : qlen data - 1 == inject_Z (Z.of_nat (length data - 1))).
  { unfold qlen. rewrite Nat2Z.inj_sub by lia. unfold Z.sub. rewrite inject_Z_plus. reflexivity. }
  set (v := inject_Z (Z.of_nat (length data - 1)) * (p / 100)).
  assert (NP : 0 <= inject_Z (Z.of_nat (length data - 1))) by (unfold Qle; simpl; lia).
  assert (Hv : 0 <= v).
  { apply Qmult_le_0_compat; auto. unfold Qdiv. apply Qmult_le_0_compat; auto. discriminate. }
  assert (Hu : v <= inject_Z (Z.of_nat (length data - 1))).
  { unfold v. pose proof (Qmult_le_0_compat _ (1 - p / 100) NP) as X. 
    assert (p / 100 <= 1) by (unfold Qdiv; apply Qle_shift_div_r; [reflexivity|lra]). lra. }
  assert (EF : Qfloor ((qlen data - 1) * (p / 100)) = Qfloor v) by (apply Qfloor_comp; unfold v; now rewrite QN).
  assert (F0 : (0 <= Qfloor v)%Z).
  { change 0%Z with (Qfloor 0). now apply Qfloor_resp_le. }
  set (i := Z.to_nat (Qfloor v)). assert (Ei : Z.of_nat i = Qfloor v) by (unfold i; lia).
  pose proof (Qfloor_le v) as L1. pose proof (Qlt_floor v) as L2. rewrite inject_Z_plus in L2. change (inject_Z 1) with 1 in L2.
  assert (SZ : (i < length data)%nat).
  { assert (i <= length data - 1)%nat; [|lia]. apply inject_nat_le. rewrite Ei. lra. }
  exists i, (nth i (qsort data) 0), (nth (Nat.min (S i) (length data - 1)) (qsort data) 0). cbv zeta. fold v. rewrite Ei.
  split; auto. split; auto. split; [now apply qsort_order_stat|]. split; [apply qsort_order_stat; lia|].
  unfold np_percentile. rewrite EF. fold i. setoid_replace ((qlen data - 1) * (p / 100)) with v by (unfold v; now rewrite QN).
  reflexivity.
Qed.

Lemma forallb_percent ps : forallb (fun p => Qle_bool 0 p && Qle_bool p 100) ps = true <-> forall p, In p ps -> percent p.
Proof.
  rewrite forallb_forall. split; intros H p I; specialize (H p I).
  - apply andb_prop in H as [A B]. split; now apply Qle_bool_iff.
  - destruct H. apply andb_true_intro. split; now apply Qle_bool_iff.
Qed.
Lemma np_percentiles_rejects data ps p : In p ps -> ~ percent p ->
  np_percentiles data ps = Err (ValueError "Percentiles must be in the range [0, 100]").
Proof.
  intros I N. unfold np_percentiles. destruct (forallb _ ps) eqn:E; auto. exfalso. apply N.
  apply (proj1 (forallb_percent ps) E p I).
Qed.
