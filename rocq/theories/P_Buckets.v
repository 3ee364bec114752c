From Coq Require Import Lqa Setoid.
From Verif Require Import Base M_Percentiles M_Buckets SpecBuckets P_Support.
Open Scope Q_scope.

Lemma lt_edge_iff x e : lt_edge x e = true <-> edge_above e x.
Proof.
  destruct e; simpl; [split; [discriminate|tauto]| |split; auto]. unfold Qlt_bool. rewrite negb_true_iff.
  split; intros H.
  - apply Qnot_le_lt. intros C. apply Qle_bool_iff in C. congruence.
  - destruct (Qle_bool q x) eqn:E; auto. apply Qle_bool_iff in E. lra.
Qed.
Lemma le_edge_iff x e : le_edge x e = true <-> edge_upto e x.
Proof. destruct e; simpl; [split; [discriminate|tauto]|apply Qle_bool_iff|split; auto]. Qed.
Lemma nlt_edge_iff x e : negb (lt_edge x e) = true <-> edge_below e x.
Proof.
  rewrite negb_true_iff. destruct e; simpl; [split; auto| |split; [discriminate|tauto]]. unfold Qlt_bool.
  rewrite negb_false_iff. apply Qle_bool_iff.
Qed.
Lemma edge_gt_false a b : edge_gt a b = false <-> edge_le a b.
Proof.
  destruct a, b; simpl; try tauto; try (split; [discriminate|tauto]). unfold Qlt_bool. rewrite negb_false_iff. apply Qle_bool_iff.
Qed.
Lemma falls_rising e : falls e = false <-> rising e.
Proof.
  induction e as [|a e IH]; [simpl; split; auto; intros _ i L; simpl in L; lia|]. destruct e as [|b e].
  - split; auto. intros _ i L. simpl in L. lia.
  - change (falls (a :: b :: e)) with (edge_gt a b || falls (b :: e)). rewrite orb_false_iff, edge_gt_false, IH. split.
    + intros [A B] [|i] L; auto. apply (B i). simpl in *. lia.
    + intros H. split; [apply (H 0%nat); simpl; lia|]. intros i L. apply (H (S i)). simpl in *. lia.
Qed.

(* ------------------------------------------------- counting *)
Lemma how_many_count P f data : (forall x, f x = true <-> P x) -> how_many P data (length (filter f data)).
Proof.
  intros H. induction data as [|x data IH]; simpl; [constructor|]. destruct (f x) eqn:E; simpl.
  - apply hm_yes; auto. now apply H.
  - apply hm_no; auto. intros C. apply H in C. congruence.
Qed.
Lemma count_sub f g data : (forall x, f x = true -> g x = true) ->
  (count g data - count f data = count (fun x => negb (f x) && g x) data)%Z.
Proof.
  intros H. unfold count. induction data as [|x data IH]; [reflexivity|]. cbn [filter]. specialize (H x).
  destruct (f x), (g x); cbn [negb andb length] in *; try (specialize (H eq_refl); discriminate); lia.
Qed.

(** The counts of a histogram, bucket by bucket. *)
Definition bucketb (edges : list edge) (i : nat) (x : Q) : bool :=
  negb (lt_edge x (edge_at edges i)) &&
  (if Nat.eqb (S (S i)) (length edges) then le_edge x (edge_at edges (S i)) else lt_edge x (edge_at edges (S i))).
Lemma bucketb_iff edges i x : bucketb edges i x = true <-> in_bucket edges i x.
Proof.
  unfold bucketb, in_bucket. rewrite andb_true_iff, nlt_edge_iff. destruct (Nat.eqb _ _); [rewrite le_edge_iff|rewrite lt_edge_iff]; tauto.
Qed.
Lemma edge_lt_mono a b x : edge_le a b -> lt_edge x a = true -> lt_edge x b = true.
Proof. intros L H. apply lt_edge_iff. apply lt_edge_iff in H. destruct a, b; simpl in *; try tauto. lra. Qed.
Lemma edge_lt_le_mono a b x : edge_le a b -> lt_edge x a = true -> le_edge x b = true.
Proof. intros L H. apply le_edge_iff. apply lt_edge_iff in H. destruct a, b; simpl in *; try tauto. lra. Qed.
Lemma rising_tail a e : rising (a :: e) -> rising e.
Proof. intros H i L. apply (H (S i)). simpl. lia. Qed.
Lemma map_seq_S {A} (f : nat -> A) n : map f (seq 1 n) = map (fun i => f (S i)) (seq 0 n).
Proof. rewrite <- seq_shift, map_map. reflexivity. Qed.
Lemma hist_counts data edges : rising edges ->
  diff (cumulative data edges) = map (fun i => count (bucketb edges i) data) (seq 0 (length edges - 1)).
Proof.
  induction edges as [|a e IH]; intros R; [reflexivity|]. destruct e as [|b e]; [reflexivity|].
  specialize (IH (rising_tail _ _ R)).
  assert (AB : edge_le a b) by (apply (R 0%nat); simpl; lia).
  cbn [length]. replace (S (S (length e)) - 1)%nat with (S (length e)) by lia. cbn [seq map]. rewrite map_seq_S.
  assert (T : map (fun i => count (bucketb (a :: b :: e) (S i)) data) (seq 0 (length e)) = diff (cumulative data (b :: e))).
  { rewrite IH. cbn [length]. replace (S (length e) - 1)%nat with (length e) by lia. apply map_ext. intros i. reflexivity. }
  rewrite T. destruct e as [|c e].
  - cbn [cumulative diff]. f_equal. rewrite count_sub; [reflexivity|]. intros x. now apply edge_lt_le_mono.
  - change (cumulative data (a :: b :: c :: e)) with (count (fun x => lt_edge x a) data :: cumulative data (b :: c :: e)).
    change (cumulative data (b :: c :: e)) with (count (fun x => lt_edge x b) data :: cumulative data (c :: e)).
    cbn [diff]. f_equal. rewrite count_sub; [reflexivity|]. intros x. now apply edge_lt_mono.
Qed.

(** Each datum within the edges is in exactly one bucket. *)
Lemma edge_le_trans a b c : edge_le a b -> edge_le b c -> edge_le a c.
Proof. destruct a, b, c; simpl; try tauto. intros. lra. Qed.
Lemma edge_le_refl a : edge_le a a.
Proof. destruct a; simpl; auto. apply Qle_refl. Qed.
Lemma rising_le edges i j : rising edges -> (i <= j < length edges)%nat -> edge_le (edge_at edges i) (edge_at edges j).
Proof.
  intros R [L1 L2]. induction L1 as [|j L1 IH]; [apply edge_le_refl|]. eapply edge_le_trans; [apply IH; lia|]. apply R. lia.
Qed.
Lemma edge_dec a x : edge_below a x \/ edge_above a x.
Proof. destruct a; simpl; auto. destruct (Qlt_le_dec x q); auto. Qed.
Lemma below_above a b x : edge_le b a -> edge_below a x -> edge_above b x -> False.
Proof. destruct a, b; simpl; try tauto. intros. lra. Qed.
Lemma bucket_exists edges x : (2 <= length edges)%nat -> covered edges x -> exists i, (S i < length edges)%nat /\ in_bucket edges i x.
Proof.
  induction edges as [|a e IH]; simpl; [lia|]. destruct e as [|b e]; simpl; [lia|]. intros _ [C1 C2].
  destruct (Nat.eq_dec (length e) 0) as [Z|NZ].
  - exists 0%nat. simpl. split; [lia|]. split; auto. simpl. destruct e; [exact C2|discriminate].
  - destruct (edge_dec b x) as [B|B].
    + destruct IH as (i & Li & I); [simpl; lia| |].
      * split; [exact B|]. simpl in *. replace (length e - 0)%nat with (length e) in * by lia. exact C2.
      * exists (S i). simpl in *. split; [lia|]. exact I.
    + exists 0%nat. split; [lia|]. split; [exact C1|]. simpl. destruct e; [simpl in NZ; lia|]. exact B.
Qed.
Lemma bucket_unique_lt edges i j x : rising edges -> (i < j)%nat -> (S j < length edges)%nat ->
  in_bucket edges i x -> in_bucket edges j x -> False.
Proof.
  intros R L Lj [_ I] [J _]. assert (Nat.eqb (S (S i)) (length edges) = false) as E by (apply Nat.eqb_neq; lia). rewrite E in I.
  eapply below_above; [|exact J|exact I]. apply rising_le; auto. lia.
Qed.
Lemma bucket_one edges x : rising edges -> (2 <= length edges)%nat -> covered edges x ->
  exists! i, (S i < length edges)%nat /\ in_bucket edges i x.
Proof.
  intros R L C. destruct (bucket_exists edges x L C) as (i & Li & I). exists i. split; auto. intros j [Lj J].
  destruct (Nat.lt_trichotomy i j) as [K|[K|K]]; auto; exfalso; eapply bucket_unique_lt; eauto.
Qed.
Lemma upto_mono a b x : edge_le a b -> edge_upto a x -> edge_upto b x.
Proof. destruct a, b; simpl; try tauto. intros; lra. Qed.
Lemma below_mono a b x : edge_le a b -> edge_below b x -> edge_below a x.
Proof. destruct a, b; simpl; try tauto. intros; lra. Qed.
Lemma above_upto a x : edge_above a x -> edge_upto a x.
Proof. destruct a; simpl; auto. intros; lra. Qed.
Lemma bucket_covered edges i x : rising edges -> (S i < length edges)%nat -> in_bucket edges i x -> covered edges x.
Proof.
  intros R L [A B]. split.
  - eapply below_mono; [|exact A]. apply rising_le; auto. lia.
  - apply upto_mono with (edge_at edges (S i)); [apply rising_le; auto; lia|].
    destruct (Nat.eqb _ _); auto. now apply above_upto.
Qed.

(* ------------------------------------------------- double counting *)
Fixpoint zsum (l : list Z) : Z := match l with [] => 0%Z | x :: r => (x + zsum r)%Z end.
Lemma zsum_cons {A} (f : A -> Q -> bool) x data (is_ : list A) :
  zsum (map (fun i => count (f i) (x :: data)) is_) = (Z.of_nat (length (filter (fun i => f i x) is_)) + zsum (map (fun i => count (f i) data) is_))%Z.
Proof.
  induction is_ as [|i is_ IH]; [reflexivity|]. cbn [map zsum filter]. rewrite IH. unfold count. cbn [filter]. destruct (f i x); cbn [length]; lia.
Qed.
Lemma double_count {A} (f : A -> Q -> bool) (g : Q -> bool) data (is_ : list A) :
  (forall x, In x data -> length (filter (fun i => f i x) is_) = if g x then 1%nat else 0%nat) ->
  zsum (map (fun i => count (f i) data) is_) = count g data.
Proof.
  induction data as [|x data IH]; intros H.
  - clear. induction is_; simpl; auto.
  - rewrite zsum_cons, IH by (intros; apply H; now right). rewrite (H x) by now left. unfold count. cbn [filter]. destruct (g x); cbn [length]; lia.
Qed.
Lemma double_count_le {A} (f : A -> Q -> bool) data (is_ : list A) :
  (forall x, In x data -> (length (filter (fun i => f i x) is_) <= 1)%nat) ->
  (zsum (map (fun i => count (f i) data) is_) <= Z.of_nat (length data))%Z.
Proof.
  induction data as [|x data IH]; intros H.
  - assert (zsum (map (fun i => count (f i) []) is_) = 0%Z) as ->; [|simpl; lia]. clear. induction is_; simpl; auto.
  - rewrite zsum_cons. specialize (IH (fun y I => H y (or_intror I))). specialize (H x (or_introl eq_refl)). cbn [length]. lia.
Qed.
Lemma filter_at_most_one (f : nat -> bool) n : (forall i j, (i < n)%nat -> (j < n)%nat -> f i = true -> f j = true -> i = j) ->
  (length (filter f (seq 0 n)) <= 1)%nat.
Proof.
  intros H. destruct (filter f (seq 0 n)) as [|a [|b l]] eqn:E; simpl; try lia. exfalso.
  assert (ND : NoDup (filter f (seq 0 n))) by apply NoDup_filter, seq_NoDup.
  assert (A : In a (filter f (seq 0 n))) by (rewrite E; now left). assert (B : In b (filter f (seq 0 n))) by (rewrite E; right; now left).
  apply filter_In in A as [A1 A2]. apply filter_In in B as [B1 B2]. apply in_seq in A1. apply in_seq in B1.
  rewrite E in ND. inversion ND as [|? ? N _]; subst. apply N. left. symmetry. apply H; auto; lia.
Qed.
Lemma filter_one (f : nat -> bool) n i : (forall i j, (i < n)%nat -> (j < n)%nat -> f i = true -> f j = true -> i = j) ->
  (i < n)%nat -> f i = true -> length (filter f (seq 0 n)) = 1%nat.
Proof.
  intros H L E. pose proof (filter_at_most_one f n H). assert (I : In i (filter f (seq 0 n))) by (apply filter_In; split; auto; apply in_seq; lia).
  destruct (filter f (seq 0 n)) as [|a l]; [contradiction|]. simpl in *. lia.
Qed.
Definition coveredb (edges : list edge) (x : Q) : bool :=
  negb (lt_edge x (edge_at edges 0)) && le_edge x (edge_at edges (length edges - 1)).
Lemma coveredb_iff edges x : coveredb edges x = true <-> covered edges x.
Proof. unfold coveredb, covered. rewrite andb_true_iff, nlt_edge_iff, le_edge_iff. tauto. Qed.
Lemma hist_total data edges : rising edges -> (2 <= length edges)%nat ->
  zsum (diff (cumulative data edges)) = count (coveredb edges) data.
Proof.
  intros R L. rewrite hist_counts by auto. apply double_count. intros x _. set (n := (length edges - 1)%nat).
  assert (U : forall i j, (i < n)%nat -> (j < n)%nat -> bucketb edges i x = true -> bucketb edges j x = true -> i = j).
  { intros i j Li Lj A B. apply bucketb_iff in A. apply bucketb_iff in B.
    destruct (Nat.lt_trichotomy i j) as [K|[K|K]]; auto; exfalso; eapply bucket_unique_lt; eauto; lia. }
  destruct (coveredb edges x) eqn:E.
  - apply coveredb_iff in E. destruct (bucket_exists edges x L E) as (i & Li & I). apply (filter_one _ n i); auto; [unfold n; lia|].
    now apply bucketb_iff.
  - destruct (filter (fun i => bucketb edges i x) (seq 0 n)) as [|a l] eqn:F; auto. exfalso.
    assert (I : In a (filter (fun i => bucketb edges i x) (seq 0 n))) by (rewrite F; now left).
    apply filter_In in I as [I1 I2]. apply in_seq in I1. apply bucketb_iff in I2.
    apply bucket_covered in I2; auto; [|unfold n in I1; lia]. apply coveredb_iff in I2. congruence.
Qed.

(* ------------------------------------------------- the dict *)
Lemma bset_new d k v : (forall k', In k' (map fst d) -> label_eqb k' k = false) -> bset d k v = d ++ [(k, v)].
Proof.
  induction d as [|[k' v'] d IH]; simpl; intros H; auto. rewrite (H k') by auto. f_equal. apply IH. auto.
Qed.
Lemma bdict_distinct_from ls : forall vs d, distinct ls -> (forall k l, In k (map fst d) -> In l ls -> label_eqb k l = false) ->
  fold_left (fun d kv => bset d (fst kv) (snd kv)) (combine ls vs) d = d ++ combine ls vs.
Proof.
  induction ls as [|l ls IH]; intros vs d D H; simpl; [now rewrite app_nil_r|]. destruct vs as [|v vs]; simpl; [now rewrite app_nil_r|].
  destruct D as [D1 D2]. rewrite bset_new; [|intros; apply H; auto; now left].
  rewrite IH; auto.
  - rewrite <- app_assoc. reflexivity.
  - intros k m I J. rewrite map_app in I. apply in_app_or in I as [I|[<-|[]]]; [apply H; auto; now right|]. simpl. auto.
Qed.
Lemma bdict_distinct ls vs : distinct ls -> bdict (combine ls vs) = combine ls vs.
Proof. intros D. unfold bdict. rewrite bdict_distinct_from; auto. intros k l []. Qed.

Lemma auto_labels_length e : length (auto_labels e) = (length e - 1)%nat.
Proof. induction e as [|a e IH]; auto. destruct e as [|b e]; auto. change (auto_labels (a :: b :: e)) with (Auto (edge_eqb a ENeg) a b :: auto_labels (b :: e)). cbn [length] in *. rewrite IH. lia. Qed.
Lemma auto_labels_nth e i d : (S i < length e)%nat -> nth i (auto_labels e) d = Auto (edge_eqb (edge_at e i) ENeg) (edge_at e i) (edge_at e (S i)).
Proof.
  revert i. induction e as [|a e IH]; intros i L; [simpl in L; lia|]. destruct e as [|b e]; [simpl in L; lia|].
  destruct i as [|i]; [reflexivity|]. change (auto_labels (a :: b :: e)) with (Auto (edge_eqb a ENeg) a b :: auto_labels (b :: e)).
  cbn [nth]. rewrite IH by (simpl in *; lia). reflexivity.
Qed.
Lemma diff_length l : length (diff l) = (length l - 1)%nat.
Proof. induction l as [|a l IH]; auto. destruct l as [|b l]; auto. change (diff (a :: b :: l)) with ((b - a)%Z :: diff (b :: l)). cbn [length] in *. rewrite IH. lia. Qed.
Lemma cumulative_length data e : length (cumulative data e) = length e.
Proof. induction e as [|a e IH]; auto. destruct e as [|b e]; auto. change (cumulative data (a :: b :: e)) with (count (fun x => lt_edge x a) data :: cumulative data (b :: e)). cbn [length]. f_equal. exact IH. Qed.
