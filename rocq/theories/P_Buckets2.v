From Coq Require Import Lqa Setoid.
From Verif Require Import Base M_Percentiles M_Buckets SpecBuckets P_Support P_Ctor P_Buckets.
Open Scope Q_scope.

Lemma nth_map_in {A B} (f : A -> B) l i d d' : (i < length l)%nat -> nth i (map f l) d = f (nth i l d').
Proof. intros L. rewrite (nth_indep _ d (f d')) by now rewrite map_length. apply map_nth. Qed.
Definition rep (data : list Q) (normalize as_percentage : bool) (z : Z) : Q :=
  if normalize then share_of data as_percentage z else inject_Z z.
Lemma rep_reported data nm pc n : rep data nm pc (Z.of_nat n) = reported nm pc (length data) n.
Proof. reflexivity. Qed.
Lemma rep_sum data nm pc zs : add_up (map (rep data nm pc) zs) == rep data nm pc (zsum zs).
Proof.
  induction zs as [|z zs IH]; simpl.
  - unfold rep, share_of. destruct nm; [unfold Qdiv|]; change (inject_Z 0) with 0; ring.
  - rewrite IH. unfold rep, share_of. destruct nm; rewrite inject_Z_plus; [unfold Qdiv|]; ring.
Qed.
Lemma reported_whole (data : list Q) nm pc : (nm = true -> data <> []) -> reported nm pc (length data) (length data) == whole nm pc (length data).
Proof.
  intros H. unfold reported, whole. destruct nm; [|reflexivity]. specialize (H eq_refl).
  assert (~ inject_Z (Z.of_nat (length data)) == 0).
  { intros E. change 0 with (inject_Z 0) in E. apply (proj1 (inject_Z_injective _ _)) in E. destruct data; [congruence|cbn [length] in E; lia]. }
  destruct pc; field; auto.
Qed.

(** The part of the call after the counting. *)
Lemma finish data counts edges nm pc labels : (nm = true -> data <> []) -> length counts = (length edges - 1)%nat -> (1 <= length edges)%nat ->
  length (names edges labels) = (length edges - 1)%nat -> distinct (names edges labels) ->
  (let (counts, edges) := (counts, edges) : list Z * list edge in
   let bin_count := (Z.of_nat (length edges) - 1)%Z in
   do values <- (if nm then match data, counts with
                     | [], _ :: _ => Err Unmodelled
                     | _, _ => Ok (map (share_of data pc) counts)
                     end
                else Ok (map inject_Z counts));
   let labels := match labels with None => auto_labels edges | Some l => map Given l end in
   if negb (Z.of_nat (length labels) =? bin_count)%Z
   then Err (ValueError "Number of labels must match number of bins")
   else Ok (bdict (combine labels values))) = Ok (combine (names edges labels) (map (rep data nm pc) counts)).
Proof.
  intros N Lc Le Ln D. cbv beta iota zeta.
  assert (E : (if nm then match data, counts with [], _ :: _ => Err Unmodelled | _, _ => Ok (map (share_of data pc) counts) end
          else Ok (map inject_Z counts)) = Ok (map (rep data nm pc) counts)).
  { unfold rep. destruct nm; auto. specialize (N eq_refl). destruct data; [congruence|]. reflexivity. }
  rewrite E. cbn [bind]. change (match labels with None => auto_labels edges | Some l => map Given l end) with (names edges labels).
  rewrite Ln, (proj2 (Z.eqb_eq (Z.of_nat (length edges - 1)) (Z.of_nat (length edges) - 1))) by lia.
  cbn [negb]. now rewrite bdict_distinct.
Qed.
Lemma combine_fst {A B} (a : list A) (b : list B) : length a = length b -> map fst (combine a b) = a.
Proof. revert b. induction a as [|x a IH]; intros [|y b] E; simpl in *; try discriminate; auto. f_equal. auto. Qed.
Lemma combine_snd {A B} (a : list A) (b : list B) : length a = length b -> map snd (combine a b) = b.
Proof. revert b. induction a as [|x a IH]; intros [|y b] E; simpl in *; try discriminate; auto. f_equal. auto. Qed.

Lemma hist_run data bins edges nm pc labels :
  np_histogram data bins = Ok (diff (cumulative data edges), edges) -> rising edges -> (2 <= length edges)%nat ->
  (nm = true -> data <> []) -> length (names edges labels) = (length edges - 1)%nat -> distinct (names edges labels) ->
  exists d m, bucket_percentages data bins None nm pc labels = Ok d /\ map fst d = names edges labels /\
    (forall i, (S i < length edges)%nat -> exists n, how_many (in_bucket edges i) data n /\
       nth i (map snd d) 0 = reported nm pc (length data) n) /\
    how_many (covered edges) data m /\ add_up (map snd d) == reported nm pc (length data) m.
Proof.
  intros E R L N Ln D. unfold bucket_percentages. rewrite E. cbn [bind].
  assert (Lc : length (diff (cumulative data edges)) = (length edges - 1)%nat) by now rewrite diff_length, cumulative_length.
  rewrite finish; auto; [|lia].
  exists (combine (names edges labels) (map (rep data nm pc) (diff (cumulative data edges)))), (length (filter (coveredb edges) data)).
  split; auto. rewrite combine_fst, combine_snd by (rewrite map_length; lia). split; auto. split; [|split].
  - intros i Li. exists (length (filter (bucketb edges i) data)). split; [apply how_many_count; intros; apply bucketb_iff|].
    rewrite hist_counts by auto. rewrite map_map, (nth_map_in _ _ _ _ 0%nat) by (rewrite seq_length; lia).
    rewrite seq_nth by lia. apply rep_reported.
  - apply how_many_count. intros; apply coveredb_iff.
  - rewrite rep_sum, hist_total by auto. rewrite <- rep_reported. reflexivity.
Qed.
Lemma all_how_many (P : Q -> Prop) data n : (forall x, In x data -> P x) -> how_many P data n -> n = length data.
Proof.
  intros H C. induction C; simpl; auto.
  - f_equal. apply IHC. intros; apply H; now right.
  - exfalso. apply H0. apply H. now left.
Qed.
Lemma edges_hist data edges : rising edges -> np_histogram data (BinEdges edges) = Ok (diff (cumulative data edges), edges).
Proof. intros R. unfold np_histogram. now rewrite (proj2 (falls_rising edges) R). Qed.

(* ------------------------------------------------- a number of bins *)
Lemma equal_length data k : (1 <= k)%Z -> length (equal_edges data k) = S (Z.to_nat k).
Proof. intros K. unfold equal_edges. destruct (if Qeq_bool _ _ then _ else _). now rewrite map_length, seq_length. Qed.
Lemma fold_min l : forall x, fold_left qmin l x <= x /\ forall y, In y l -> fold_left qmin l x <= y.
Proof.
  induction l as [|a l IH]; intros x; simpl; [split; [apply Qle_refl|intros y []]|]. destruct (IH (qmin x a)) as [A B].
  assert (qmin x a <= x /\ qmin x a <= a) as [C D].
  { unfold qmin. destruct (Qle_bool x a) eqn:E; [apply Qle_bool_iff in E; split; auto; apply Qle_refl|].
    assert (a < x). { apply Qnot_le_lt. intros H. apply Qle_bool_iff in H. congruence. } split; [lra|apply Qle_refl]. }
  split; [lra|]. intros y [<-|I]; [lra|auto].
Qed.
Lemma fold_max l : forall x, x <= fold_left qmax l x /\ forall y, In y l -> y <= fold_left qmax l x.
Proof.
  induction l as [|a l IH]; intros x; simpl; [split; [apply Qle_refl|intros y []]|]. destruct (IH (qmax x a)) as [A B].
  assert (x <= qmax x a /\ a <= qmax x a) as [C D].
  { unfold qmax. destruct (Qle_bool x a) eqn:E; [apply Qle_bool_iff in E; split; auto; apply Qle_refl|].
    assert (a < x). { apply Qnot_le_lt. intros H. apply Qle_bool_iff in H. congruence. } split; [apply Qle_refl|lra]. }
  split; [lra|]. intros y [<-|I]; [lra|auto].
Qed.
Lemma equal_edges_form data k : exists lo hi, lo < hi /\ (forall x, In x data -> lo <= x /\ x <= hi) /\
  equal_edges data k = map (fun i => EFin (lo + (hi - lo) * (inject_Z (Z.of_nat i) / inject_Z k))) (seq 0 (S (Z.to_nat k))).
Proof.
  unfold equal_edges. set (lo := match data with [] => 0 | x :: r => fold_left qmin r x end).
  set (hi := match data with [] => 1 | x :: r => fold_left qmax r x end).
  assert (B : forall x, In x data -> lo <= x /\ x <= hi).
  { unfold lo, hi. intros x I. destruct data as [|a l]; [contradiction|]. destruct (fold_min l a), (fold_max l a).
    destruct I as [<-|I]; auto. }
  assert (LH : lo <= hi).
  { unfold lo, hi. destruct data as [|a l]; [discriminate|]. destruct (fold_min l a), (fold_max l a). lra. }
  destruct (Qeq_bool lo hi) eqn:E.
  - exists (lo - (1#2)), (hi + (1#2)). split; [lra|]. split; [|reflexivity]. intros x I. destruct (B x I). split; lra.
  - exists lo, hi. apply Qeq_bool_neq in E. split; [|split; auto]. apply Qnot_le_lt. intros H. apply E. now apply Qle_antisym.
Qed.
Lemma equal_at lo hi k i : (1 <= k)%Z -> (i <= Z.to_nat k)%nat ->
  edge_at (map (fun i => EFin (lo + (hi - lo) * (inject_Z (Z.of_nat i) / inject_Z k))) (seq 0 (S (Z.to_nat k)))) i =
  EFin (lo + (hi - lo) * (inject_Z (Z.of_nat i) / inject_Z k)).
Proof.
  intros K L. unfold edge_at. rewrite (nth_map_in _ _ _ _ 0%nat) by (rewrite seq_length; lia). now rewrite seq_nth by lia.
Qed.
Lemma equal_rising data k : (1 <= k)%Z -> rising (equal_edges data k).
Proof.
  intros K. destruct (equal_edges_form data k) as (lo & hi & LH & _ & E). intros i L. rewrite (equal_length data k K) in L.
  rewrite E, !equal_at by (auto; lia). simpl.
  assert (inject_Z (Z.of_nat i) / inject_Z k <= inject_Z (Z.of_nat (S i)) / inject_Z k).
  { assert (0 < inject_Z k) by (unfold Qlt; simpl; lia). unfold Qdiv. apply Qmult_le_compat_r; [unfold Qle; simpl; lia|].
    apply Qlt_le_weak, Qinv_lt_0_compat; auto. }
  change (Z.pos (Pos.of_succ_nat i)) with (Z.of_nat (S i)).
  pose proof (Qmult_le_0_compat (hi - lo) (inject_Z (Z.of_nat (S i)) / inject_Z k - inject_Z (Z.of_nat i) / inject_Z k)). lra.
Qed.
Lemma equal_covers data k x : (1 <= k)%Z -> In x data -> covered (equal_edges data k) x.
Proof.
  intros K I. destruct (equal_edges_form data k) as (lo & hi & LH & B & E). destruct (B x I) as [B1 B2]. unfold covered.
  rewrite (equal_length data k K), E, !equal_at by (auto; lia). simpl.
  replace (Z.to_nat k - 0)%nat with (Z.to_nat k) by lia. rewrite Z2Nat.id by lia.
  assert (~ inject_Z k == 0). { intros H. change 0 with (inject_Z 0) in H. apply (proj1 (inject_Z_injective _ _)) in H. lia. }
  split.
  - change (inject_Z 0) with 0. assert (0 / inject_Z k == 0) as -> by (field; auto). lra.
  - assert (inject_Z k / inject_Z k == 1) as -> by (field; auto). lra.
Qed.
(** Their labels are all different. *)
Lemma nth_distinct ls : (forall i j d, (i < j < length ls)%nat -> label_eqb (nth i ls d) (nth j ls d) = false) -> distinct ls.
Proof.
  induction ls as [|l ls IH]; simpl; intros H; auto. split.
  - intros y I. apply In_nth with (d := l) in I as (j & Lj & <-). apply (H 0%nat (S j) l). lia.
  - apply IH. intros i j d L. apply (H (S i) (S j) d). lia.
Qed.
Lemma auto_distinct edges : (forall i j, (i < j)%nat -> (S j < length edges)%nat -> edge_eqb (edge_at edges i) (edge_at edges j) = false) ->
  distinct (auto_labels edges).
Proof.
  intros H. apply nth_distinct. intros i j d [L1 L2]. rewrite auto_labels_length in L2. rewrite !auto_labels_nth by lia. simpl.
  rewrite H by lia. rewrite andb_false_r. reflexivity.
Qed.
Lemma equal_distinct data k : (1 <= k)%Z -> distinct (auto_labels (equal_edges data k)).
Proof.
  intros K. apply auto_distinct. intros i j L1 L2. destruct (equal_edges_form data k) as (lo & hi & LH & _ & E).
  rewrite (equal_length data k K) in L2. rewrite E, !equal_at by (auto; lia). simpl.
  destruct (Qeq_bool _ _) eqn:Q; auto. apply Qeq_bool_iff in Q. exfalso.
  assert (P : 0 < inject_Z k) by (unfold Qlt; simpl; lia).
  assert (X : inject_Z (Z.of_nat i) / inject_Z k < inject_Z (Z.of_nat j) / inject_Z k).
  { unfold Qdiv. apply Qmult_lt_compat_r; [now apply Qinv_lt_0_compat|]. unfold Qlt; simpl; lia. }
  pose proof (Qmult_lt_0_compat (hi - lo) (inject_Z (Z.of_nat j) / inject_Z k - inject_Z (Z.of_nat i) / inject_Z k)). lra.
Qed.
Lemma bin_count_run data k nm pc : (1 <= k)%Z -> (nm = true -> data <> []) ->
  exists d, bucket_percentages data (BinCount k) None nm pc None = Ok d /\ length d = Z.to_nat k /\
    map fst d = auto_labels (equal_edges data k) /\
    (forall i, (i < Z.to_nat k)%nat -> exists n, how_many (in_bucket (equal_edges data k) i) data n /\
       nth i (map snd d) 0 = reported nm pc (length data) n) /\
    add_up (map snd d) == whole nm pc (length data).
Proof.
  intros K N. destruct (hist_run data (BinCount k) (equal_edges data k) nm pc None) as (d & m & E & F & C & M & A); auto.
  - unfold np_histogram. destruct (k <? 1)%Z eqn:X; [apply Z.ltb_lt in X; lia|]. reflexivity.
  - now apply equal_rising.
  - rewrite (equal_length data k K). lia.
  - simpl. now rewrite auto_labels_length.
  - now apply equal_distinct.
  - exists d. split; auto. split; [|split; [exact F|split]].
    + rewrite <- (map_length fst), F. simpl. rewrite auto_labels_length, (equal_length data k K). lia.
    + intros i L. apply C. rewrite (equal_length data k K). lia.
    + apply all_how_many in M; [|intros; now apply equal_covers]. subst m. rewrite A. now apply reported_whole.
Qed.

(* ------------------------------------------------- custom ranges *)
Definition rangeb (r : edge * edge) (x : Q) : bool := negb (lt_edge x (fst r)) && lt_edge x (snd r).
Lemma rangeb_iff r x : rangeb r x = true <-> in_range r x.
Proof. unfold rangeb, in_range. rewrite andb_true_iff, nlt_edge_iff, lt_edge_iff. tauto. Qed.
Lemma rev_last {A} (l : list A) b r d : rev l = b :: r -> last l d = b.
Proof. intros E. rewrite <- (rev_involutive l), E. simpl. apply last_last. Qed.
Lemma custom_run data bins cb nm pc labels : cb <> [] -> (nm = true -> data <> []) ->
  length (names (label_edges cb) labels) = length cb -> distinct (names (label_edges cb) labels) ->
  exists d, bucket_percentages data bins (Some cb) nm pc labels = Ok d /\ map fst d = names (label_edges cb) labels /\
    (forall i, (i < length cb)%nat -> exists n, how_many (in_range (nth i cb (ENeg, ENeg))) data n /\
       nth i (map snd d) 0 = reported nm pc (length data) n) /\
    map snd d = map (rep data nm pc) (map (fun b => count (rangeb b) data) cb).
Proof.
  intros NE N Ln D. unfold bucket_percentages. destruct (rev cb) as [|b r] eqn:Er.
  { exfalso. apply NE. rewrite <- (rev_involutive cb), Er. reflexivity. }
  assert (El : map fst cb ++ [snd b] = label_edges cb) by (unfold label_edges; now rewrite (rev_last cb b r _ Er)).
  rewrite El. cbn [bind].
  assert (Ll : length (label_edges cb) = S (length cb)) by (unfold label_edges; rewrite app_length, map_length; simpl; lia).
  rewrite finish; auto; [|rewrite map_length; lia|lia|lia].
  fold (rangeb). exists (combine (names (label_edges cb) labels) (map (rep data nm pc) (map (fun b => count (rangeb b) data) cb))).
  split; [reflexivity|]. rewrite combine_fst, combine_snd by (rewrite !map_length; lia). split; auto. split; auto.
  intros i L. exists (length (filter (rangeb (nth i cb (ENeg, ENeg))) data)). split; [apply how_many_count; intros; apply rangeb_iff|].
  rewrite map_map, (nth_map_in _ _ _ _ (ENeg, ENeg)) by auto. apply rep_reported.
Qed.
Lemma map_nth_seq {A B} (f : A -> B) l d : map f l = map (fun i => f (nth i l d)) (seq 0 (length l)).
Proof.
  induction l as [|x l IH]; [reflexivity|]. cbn [length seq map]. f_equal. rewrite map_seq_S. exact IH.
Qed.
Lemma custom_counts_once data cb : disjoint_ranges cb ->
  (zsum (map (fun b => count (rangeb b) data) cb) <= Z.of_nat (length data))%Z.
Proof.
  intros Dj. rewrite (map_nth_seq (fun b => count (rangeb b) data) cb (ENeg, ENeg)).
  apply (double_count_le (fun i x => rangeb (nth i cb (ENeg, ENeg)) x)). intros x _. apply filter_at_most_one.
  intros i j Li Lj A B. apply rangeb_iff in A. apply rangeb_iff in B. eapply Dj; eauto.
Qed.
Lemma custom_counts_all data cb : disjoint_ranges cb ->
  (forall x, In x data -> exists i, (i < length cb)%nat /\ in_range (nth i cb (ENeg, ENeg)) x) ->
  zsum (map (fun b => count (rangeb b) data) cb) = Z.of_nat (length data).
Proof.
  intros Dj C. rewrite (map_nth_seq (fun b => count (rangeb b) data) cb (ENeg, ENeg)).
  rewrite (double_count (fun i x => rangeb (nth i cb (ENeg, ENeg)) x) (fun _ => true)).
  - unfold count. f_equal. clear. induction data; simpl; auto.
  - intros x I. destruct (C x I) as (i & Li & R). apply (filter_one _ (length cb) i); auto; [|now apply rangeb_iff].
    intros a b La Lb A B. apply rangeb_iff in A. apply rangeb_iff in B. eapply Dj; eauto.
Qed.
Lemma inject_div_le a b t : (a <= b)%Z -> 0 < t -> inject_Z a / t <= inject_Z b / t.
Proof. intros L T. unfold Qdiv. apply Qmult_le_compat_r; [now rewrite <- Zle_Qle|]. apply Qlt_le_weak, Qinv_lt_0_compat; auto. Qed.
Lemma custom_total data bins cb nm pc labels : cb <> [] -> (nm = true -> data <> []) ->
  length (names (label_edges cb) labels) = length cb -> distinct (names (label_edges cb) labels) -> disjoint_ranges cb ->
  exists d, bucket_percentages data bins (Some cb) nm pc labels = Ok d /\
    add_up (map snd d) <= whole nm pc (length data) /\
    ((forall x, In x data -> exists i, (i < length cb)%nat /\ in_range (nth i cb (ENeg, ENeg)) x) ->
     add_up (map snd d) == whole nm pc (length data)).
Proof.
  intros NE N Ln D Dj. destruct (custom_run data bins cb nm pc labels) as (d & E & _ & _ & V); auto.
  exists d. split; auto. rewrite V, rep_sum. rewrite <- (reported_whole data nm pc N), <- rep_reported. split.
  - pose proof (custom_counts_once data cb Dj) as L. unfold rep, share_of. destruct nm; [|now rewrite <- Zle_Qle].
    assert (0 < qlen data). { unfold qlen, Qlt. specialize (N eq_refl). destruct data; [congruence|]. simpl. lia. }
    apply Qmult_le_compat_r; [now apply inject_div_le|]. destruct pc; discriminate.
  - intros C. now rewrite (custom_counts_all data cb Dj C).
Qed.

(* ------------------------------------------------- custom labels *)
Lemma label_edges_length cb : length (label_edges cb) = S (length cb).
Proof. unfold label_edges. rewrite app_length, map_length. simpl. lia. Qed.
Lemma label_edges_low cb i : (i < length cb)%nat -> edge_at (label_edges cb) i = fst (nth i cb (ENeg, ENeg)).
Proof.
  intros L. unfold edge_at, label_edges. rewrite app_nth1 by (now rewrite map_length). now rewrite (nth_map_in _ _ _ _ (ENeg, ENeg)).
Qed.
Lemma label_edges_last cb : cb <> [] -> edge_at (label_edges cb) (length cb) = snd (nth (length cb - 1) cb (ENeg, ENeg)).
Proof.
  intros N. unfold edge_at, label_edges. rewrite app_nth2; rewrite map_length; [|lia]. rewrite Nat.sub_diag. simpl. f_equal.
  destruct (rev cb) as [|b r] eqn:Er.
  { exfalso. apply N. rewrite <- (rev_involutive cb), Er. reflexivity. }
  rewrite (rev_last _ _ _ _ Er). assert (cb = rev r ++ [b]) as -> by (rewrite <- (rev_involutive cb), Er; reflexivity).
  rewrite app_length. simpl. rewrite app_nth2 by lia. replace (length (rev r) + 1 - 1 - length (rev r))%nat with 0%nat by lia. reflexivity.
Qed.
Lemma edge_eqb_neg a : edge_eqb a ENeg = true <-> a = ENeg.
Proof. destruct a; simpl; split; intros; auto; discriminate. Qed.
Lemma custom_labels cb i : contiguous cb -> (i < length cb)%nat ->
  describes (nth i (names (label_edges cb) None) (Given "")) (nth i cb (ENeg, ENeg)).
Proof.
  intros C L. simpl. rewrite auto_labels_nth by (rewrite label_edges_length; lia). simpl. rewrite label_edges_low by auto.
  split; auto. split; [|apply edge_eqb_neg].
  destruct (Nat.eq_dec (S i) (length cb)) as [E|E].
  - rewrite E, label_edges_last by (destruct cb; simpl in *; [lia|congruence]). now replace (length cb - 1)%nat with i by lia.
  - rewrite label_edges_low by lia. symmetry. apply C. lia.
Qed.
Lemma low_distinct cb : (forall i j, (i < j < length cb)%nat -> edge_eqb (fst (nth i cb (ENeg, ENeg))) (fst (nth j cb (ENeg, ENeg))) = false) ->
  distinct (auto_labels (label_edges cb)).
Proof.
  intros H. apply auto_distinct. intros i j L1 L2. rewrite label_edges_length in L2. rewrite !label_edges_low by lia. apply H. lia.
Qed.

(* ------------------------------------------------- errors *)
Lemma hist_errors data nm pc labels :
  bucket_percentages data NoBins None nm pc labels = Err TypeError /\
  (forall k, (k < 1)%Z -> bucket_percentages data (BinCount k) None nm pc labels = Err (ValueError "`bins` must be positive, when an integer")) /\
  (forall e, ~ rising e -> bucket_percentages data (BinEdges e) None nm pc labels = Err (ValueError "`bins` must increase monotonically, when an array")) /\
  (forall bins, bucket_percentages data bins (Some []) nm pc labels = Err IndexError).
Proof.
  split; [reflexivity|]. split; [|split].
  - intros k K. unfold bucket_percentages, np_histogram. now rewrite (proj2 (Z.ltb_lt k 1) K).
  - intros e N. unfold bucket_percentages, np_histogram. destruct (falls e) eqn:F; auto. exfalso. apply N. now apply falls_rising.
  - reflexivity.
Qed.
Lemma label_mismatch data bins cb edges nm pc labels :
  match cb with Some c => c <> [] /\ edges = label_edges c | None => exists c, np_histogram data bins = Ok (c, edges) end ->
  (nm = true -> data <> []) -> (Z.of_nat (length labels) <> Z.of_nat (length edges) - 1)%Z ->
  bucket_percentages data bins cb nm pc (Some labels) = Err (ValueError "Number of labels must match number of bins").
Proof.
  intros H N L. unfold bucket_percentages.
  match goal with |- bind ?m _ = _ => assert (X : exists c, m = Ok (c, edges)) end.
  { destruct cb as [cb|]; auto. destruct H as [NE ->]. cbv zeta. destruct (rev cb) as [|b r] eqn:Er.
    { exfalso. apply NE. rewrite <- (rev_involutive cb), Er. reflexivity. }
    unfold label_edges. rewrite (rev_last cb b r _ Er). eauto. }
  destruct X as (c & ->). cbn [bind]. match goal with |- bind ?m _ = _ => assert (X : exists v, m = Ok v) end.
  { destruct nm; eauto. specialize (N eq_refl). destruct data; [congruence|]. eauto. }
  destruct X as (v & ->). cbn [bind]. rewrite map_length, (proj2 (Z.eqb_neq _ _) L). reflexivity.
Qed.

(* ------------------------------------------------- what the labels of edges say *)
Lemma how_many_split (P A B : Q -> Prop) data n : (forall x, P x <-> A x \/ B x) -> (forall x, A x -> ~ B x) ->
  (forall x, A x \/ ~ A x) -> (forall x, B x \/ ~ B x) ->
  how_many P data n -> exists a b, how_many A data a /\ how_many B data b /\ n = (a + b)%nat.
Proof.
  intros E X DA DB. induction 1 as [|x l n Px H (a & b & HA & HB & EN)|x l n Px H (a & b & HA & HB & EN)].
  - exists 0%nat, 0%nat. repeat split; constructor.
  - apply E in Px. destruct (DA x) as [Ax|Ax].
    + exists (S a), b. split; [now constructor|]. split; [|lia]. constructor; auto.
    + destruct Px as [Px|Px]; [contradiction|]. exists a, (S b). split; [now constructor|]. split; [now constructor|lia].
  - exists a, b. rewrite E in Px. split; [constructor; tauto|]. split; [constructor; tauto|auto].
Qed.
Lemma in_range_dec r x : in_range r x \/ ~ in_range r x.
Proof.
  unfold in_range. destruct r as [[|p|] [|q|]]; simpl; try tauto.
  - destruct (Qlt_le_dec x q); [tauto|]. right. intros [_ H]. lra.
  - destruct (Qlt_le_dec x p); [|destruct (Qlt_le_dec x q); [tauto|]]; right; intros [H1 H2]; lra.
  - destruct (Qlt_le_dec x p); [right; intros [H _]; lra|tauto].
Qed.
Lemma at_edge_dec b x : at_edge b x \/ ~ at_edge b x.
Proof. destruct b; simpl; try tauto. destruct (Qeq_dec x q); auto. Qed.
Lemma edges_labels data edges nm pc : rising edges -> (2 <= length edges)%nat -> (nm = true -> data <> []) ->
  distinct (auto_labels edges) ->
  exists d, bucket_percentages data (BinEdges edges) None nm pc None = Ok d /\
    forall i, (S i < length edges)%nat ->
      describes (nth i (map fst d) (Given "")) (edge_at edges i, edge_at edges (S i)) /\
      exists n m, how_many (in_range (edge_at edges i, edge_at edges (S i))) data n /\
        how_many (at_edge (edge_at edges (S i))) data m /\
        nth i (map snd d) 0 = reported nm pc (length data) (if Nat.eqb (S (S i)) (length edges) then n + m else n).
Proof.
  intros R L N D. destruct (hist_run data (BinEdges edges) edges nm pc None) as (d & m & B & F & C & _); auto.
  { now apply edges_hist. }
  { cbn [names]. apply auto_labels_length. }
  exists d. split; [exact B|]. intros i Li. split.
  - rewrite F. cbn [names]. rewrite auto_labels_nth by auto. cbn [describes fst snd]. split; [reflexivity|]. split; [reflexivity|].
    destruct (edge_at edges i); cbn; split; intros H; congruence || discriminate || auto.
  - destruct (C i Li) as (n & H & E). specialize (R i Li).
    unfold in_bucket in H. destruct (Nat.eqb (S (S i)) (length edges)) eqn:Z.
    + apply (how_many_split _ (in_range (edge_at edges i, edge_at edges (S i))) (at_edge (edge_at edges (S i)))) in H.
      * destruct H as (a & b & HA & HB & EN). exists a, b. subst n. auto.
      * intros x. unfold in_range. cbn [fst snd]. destruct (edge_at edges i), (edge_at edges (S i)); cbn in *; try tauto.
        -- split; [intros [_ H']; destruct (Qlt_le_dec x q); [left; auto|right; lra]|intros [[_ H']|H']; split; auto; lra].
        -- split; [intros [H0 H']; destruct (Qlt_le_dec x q0); [left; auto|right; lra]|intros [[H0 H']|H']; split; lra].
      * intros x. unfold in_range. cbn [fst snd]. destruct (edge_at edges (S i)); cbn; try tauto. intros [_ H'] H''. lra.
      * intros x. apply in_range_dec.
      * intros x. apply at_edge_dec.
    + exists n, (length (filter (fun x => match edge_at edges (S i) with EFin q => Qeq_bool x q | _ => false end) data)).
      split; [exact H|]. split; [|exact E]. apply how_many_count. intros x.
      destruct (edge_at edges (S i)); cbn; try (split; [discriminate|tauto]). apply Qeq_bool_iff.
Qed.
