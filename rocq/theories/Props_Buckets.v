(** C74-C76, C104-C106: buckets and "1 in X". *)
From Coq Require Import Qabs Ascii.
From Verif Require Import Base M_Values M_Ops SpecRound M_Buckets SpecBuckets P_Buckets P_Buckets2 M_OneIn SpecOneIn P_OneIn.
Open Scope Q_scope.

(* ---------------------------------------------------------------- C74 *)
(** Every datum within the edges lies in exactly one bucket. *)
Theorem C74_partition :
  forall edges x, rising edges -> (2 <= length edges)%nat -> covered edges x ->
  exists! i, (S i < length edges)%nat /\ in_bucket edges i x.
Proof. exact bucket_one. Qed.
Print Assumptions C74_partition.
(** With edges, each entry reports how many data are in its bucket and the entries add up
    to the number of data within the edges. *)
Theorem C74_edges :
  forall data edges nm pc labels, rising edges -> (2 <= length edges)%nat -> (nm = true -> data <> []) ->
  length (names edges labels) = (length edges - 1)%nat -> distinct (names edges labels) ->
  exists d m, bucket_percentages data (BinEdges edges) None nm pc labels = Ok d /\ map fst d = names edges labels /\
    (forall i, (S i < length edges)%nat -> exists n, how_many (in_bucket edges i) data n /\
       nth i (map snd d) 0 = reported nm pc (length data) n) /\
    how_many (covered edges) data m /\ add_up (map snd d) == reported nm pc (length data) m.
Proof. intros data edges nm pc labels R. apply hist_run; auto. now apply edges_hist. Qed.
Print Assumptions C74_edges.
(** Edges around all the data: the entries add up to 100, 1 or the number of data. *)
Theorem C74_covered_total :
  forall data edges nm pc labels, rising edges -> (2 <= length edges)%nat -> (nm = true -> data <> []) ->
  length (names edges labels) = (length edges - 1)%nat -> distinct (names edges labels) ->
  (forall x, In x data -> covered edges x) ->
  exists d, bucket_percentages data (BinEdges edges) None nm pc labels = Ok d /\
    add_up (map snd d) == whole nm pc (length data).
Proof.
  intros data edges nm pc labels R L N Ln D C.
  destruct (hist_run data (BinEdges edges) edges nm pc labels (edges_hist data edges R) R L N Ln D) as (d & m & E & _ & _ & M & A).
  exists d. split; auto. apply all_how_many in M; auto. subst m. rewrite A. now apply reported_whole.
Qed.
Print Assumptions C74_covered_total.
(** A number of bins: as many buckets, all data in them. *)
Theorem C74_bin_count :
  forall data k nm pc, (1 <= k)%Z -> (nm = true -> data <> []) ->
  exists d, bucket_percentages data (BinCount k) None nm pc None = Ok d /\ length d = Z.to_nat k /\
    map fst d = auto_labels (equal_edges data k) /\
    (forall i, (i < Z.to_nat k)%nat -> exists n, how_many (in_bucket (equal_edges data k) i) data n /\
       nth i (map snd d) 0 = reported nm pc (length data) n) /\
    add_up (map snd d) == whole nm pc (length data).
Proof. exact bin_count_run. Qed.
Print Assumptions C74_bin_count.
(** Custom ranges are half-open, in the order given. *)
Theorem C74_custom :
  forall data bins cb nm pc labels, cb <> [] -> (nm = true -> data <> []) ->
  length (names (label_edges cb) labels) = length cb -> distinct (names (label_edges cb) labels) ->
  exists d, bucket_percentages data bins (Some cb) nm pc labels = Ok d /\ map fst d = names (label_edges cb) labels /\
    (forall i, (i < length cb)%nat -> exists n, how_many (in_range (nth i cb (ENeg, ENeg))) data n /\
       nth i (map snd d) 0 = reported nm pc (length data) n).
Proof.
  intros data bins cb nm pc labels NE N Ln D. destruct (custom_run data bins cb nm pc labels NE N Ln D) as (d & A & B & C & _). eauto.
Qed.
Print Assumptions C74_custom.
Theorem C74_custom_total :
  forall data bins cb nm pc labels, cb <> [] -> (nm = true -> data <> []) ->
  length (names (label_edges cb) labels) = length cb -> distinct (names (label_edges cb) labels) -> disjoint_ranges cb ->
  exists d, bucket_percentages data bins (Some cb) nm pc labels = Ok d /\
    add_up (map snd d) <= whole nm pc (length data) /\
    ((forall x, In x data -> exists i, (i < length cb)%nat /\ in_range (nth i cb (ENeg, ENeg)) x) ->
     add_up (map snd d) == whole nm pc (length data)).
Proof. exact custom_total. Qed.
Print Assumptions C74_custom_total.
Theorem C74_rejects :
  forall data nm pc labels,
  bucket_percentages data NoBins None nm pc labels = Err TypeError /\
  (forall k, (k < 1)%Z -> bucket_percentages data (BinCount k) None nm pc labels = Err (ValueError "`bins` must be positive, when an integer")) /\
  (forall e, ~ rising e -> bucket_percentages data (BinEdges e) None nm pc labels = Err (ValueError "`bins` must increase monotonically, when an array")) /\
  (forall bins, bucket_percentages data bins (Some []) nm pc labels = Err IndexError).
Proof. exact hist_errors. Qed.
Print Assumptions C74_rejects.
Theorem C74_label_count :
  forall data bins cb edges nm pc labels,
  match cb with Some c => c <> [] /\ edges = label_edges c | None => exists c, np_histogram data bins = Ok (c, edges) end ->
  (nm = true -> data <> []) -> (Z.of_nat (length labels) <> Z.of_nat (length edges) - 1)%Z ->
  bucket_percentages data bins cb nm pc (Some labels) = Err (ValueError "Number of labels must match number of bins").
Proof. exact label_mismatch. Qed.
Print Assumptions C74_label_count.
Example C74_sat :
  rising [EFin 0; EFin 5; EFin 10] /\ distinct (names [EFin 0; EFin 5; EFin 10] None) /\ covered [EFin 0; EFin 5; EFin 10] 10 /\
  disjoint_ranges [(ENeg, EFin 5); (EFin 5, EPos)] /\
  bucket_percentages [1; 5; 10; 20] (BinEdges [EFin 0; EFin 5; EFin 10]) None false true None
    = Ok [(Auto false (EFin 0) (EFin 5), 1); (Auto false (EFin 5) (EFin 10), 2)] /\
  bucket_percentages [1; 5; 10; 20] NoBins (Some [(ENeg, EFin 5); (EFin 5, EPos)]) false true (Some ["Low"; "High"]%string)
    = Ok [(Given "Low", 1); (Given "High", 3)].
Proof.
  split. { intros [|[|i]] L; simpl in *; try discriminate. lia. }
  split. { simpl. repeat split. intros y [<-|[]]. reflexivity. intros y []. }
  split; [split; discriminate|]. split; [|split; reflexivity].
  intros [|[|i]] [|[|j]] x Li Lj [A B] [C D]; simpl in *; auto; try lia; exfalso; eapply Qlt_not_le; eauto.
Qed.

(* ---------------------------------------------------------------- C75 *)
(** Right for ranges that follow each other without gaps ... *)
Theorem C75_contiguous_partial :
  forall cb i, contiguous cb -> (i < length cb)%nat ->
  describes (nth i (names (label_edges cb) None) (Given "")) (nth i cb (ENeg, ENeg)).
Proof. exact custom_labels. Qed.
Print Assumptions C75_contiguous_partial.
(** ... wrong otherwise: (0, 1) is reported as "[0, 5)". *)
Theorem C75_gaps_refuted :
  exists data cb d, disjoint_ranges cb /\
  bucket_percentages data NoBins (Some cb) false false None = Ok d /\
  exists i v lo hi, (i < length cb)%nat /\ nth i d (Given "", 0) = (Auto false lo hi, v) /\
    ~ describes (Auto false lo hi) (nth i cb (ENeg, ENeg)) /\
    exists x, In x data /\ in_range (lo, hi) x /\ ~ in_range (nth i cb (ENeg, ENeg)) x.
Proof.
  exists [3], [(EFin 0, EFin 1); (EFin 5, EFin 6)]. eexists. split; [|split; [reflexivity|]].
  - intros [|[|i]] [|[|j]] x Li Lj [A B] [C D]; simpl in *; auto; try lia; exfalso.
    + apply (Qlt_not_le x 1); auto. apply Qle_trans with 5; auto. discriminate.
    + apply (Qlt_not_le x 1); auto. apply Qle_trans with 5; auto. discriminate.
  - exists 0%nat, 0, (EFin 0), (EFin 5). split; [simpl; auto with arith|]. split; [reflexivity|]. split.
    + simpl. intros (_ & H & _). discriminate.
    + exists 3. split; [now left|]. split; [split; [discriminate|reflexivity]|]. intros [_ H]. discriminate.
Qed.
Print Assumptions C75_gaps_refuted.
Example C75_sat : contiguous [(ENeg, EFin 5); (EFin 5, EPos)].
Proof. intros [|i] L; simpl in *; auto. lia. Qed.

(* ---------------------------------------------------------------- C76 *)
(** The number is the reciprocal rounded half to even; an int exactly for [digits <= 0]. *)
Theorem C76_number :
  forall p digits x, one_in_num p digits = Ok x ->
  ~ p == 0 /\
  match digits with
  | None => x = OFlt (1 / p)
  | Some d => exists r, rounds d (1 / p) r /\
      if (d <=? 0)%Z then exists z, x = OInt z /\ inject_Z z == r else x = OFlt r
  end.
Proof. exact one_in_number. Qed.
Print Assumptions C76_number.
Theorem C76_zero : forall p digits, p == 0 -> one_in_num p digits = Err ZeroDivisionError.
Proof. exact one_in_zero. Qed.
Print Assumptions C76_zero.
(** Of two chances, the larger is no larger a number to be one in. *)
Theorem C76_falls :
  forall p p' digits x x', 0 < p -> p <= p' -> one_in_num p digits = Ok x -> one_in_num p' digits = Ok x' ->
  one_value x' <= one_value x.
Proof. exact one_in_falls. Qed.
Print Assumptions C76_falls.
(** The text says that number. *)
Theorem C76_text :
  forall p d s, one_in_text p (Some d) = Ok s -> exists r, rounds d (1 / p) r /\ reads_one_in s r.
Proof. exact one_in_says. Qed.
Print Assumptions C76_text.
Theorem C76_text_exists :
  forall p d, (d <= 0)%Z -> ~ p == 0 -> exists s, one_in_text p (Some d) = Ok s.
Proof. exact one_in_defined. Qed.
Print Assumptions C76_text_exists.
(** Equal texts mean equal rounded numbers. *)
Theorem C76_determines :
  forall p p' d d' s, one_in_text p (Some d) = Ok s -> one_in_text p' (Some d') = Ok s ->
  exists r, rounds d (1 / p) r /\ rounds d' (1 / p') r.
Proof. exact one_in_determines. Qed.
Print Assumptions C76_determines.
Theorem C76_commas :
  forall p d z, one_in_num p (Some d) = Ok (OInt z) -> (0 <= z)%Z ->
  exists t, one_in_text p (Some d) = Ok (String.string_of_list_ascii (String.list_ascii_of_string "1 in " ++ t)) /\ comma_places t.
Proof. exact one_in_commas. Qed.
Print Assumptions C76_commas.
(** A number with decimals has at least one and no needless zeros at the end. *)
Theorem C76_shortest :
  forall p d q s, one_in_num p (Some d) = Ok (OFlt q) -> one_in_text p (Some d) = Ok s ->
  exists a f z, s = String.string_of_list_ascii (a ++ "."%char :: f ++ [z]) /\ (z <> "0"%char \/ f = []).
Proof. exact one_in_shortest. Qed.
Print Assumptions C76_shortest.
(** With decimals, which numbers the text is modelled for: at most 15 digits, and 0 or not
    below 0.0001 in size (Python prints the others with exponents). *)
Theorem C76_text_range :
  forall p d q, one_in_num p (Some d) = Ok (OFlt q) ->
  ((exists s, one_in_text p (Some d) = Ok s) <->
   Qabs q * pow10 d < inject_Z (10 ^ 15) /\ (q == 0 \/ 1 # 10000 <= Qabs q)).
Proof. exact one_in_float_defined. Qed.
Print Assumptions C76_text_range.
Example C76_sat :
  one_in_text (1 # 1234567) (Some 0%Z) = Ok "1 in 1,234,567"%string /\
  one_in_text (3 # 10) (Some 2%Z) = Ok "1 in 3.33"%string /\
  one_in_text (1 # 10) (Some 1%Z) = Ok "1 in 10.0"%string /\
  one_in_num (2 # 5) (Some 0%Z) = Ok (OInt 2).
Proof. repeat split. Qed.

(* ---------------------------------------------------------------- C104 *)
(** The last bucket of a list of edges contains its right end, its label "[5, 10)" says
    it does not. *)
Theorem C104_last_label_refuted :
  exists data edges d lo hi v, rising edges /\
  bucket_percentages data (BinEdges edges) None false false None = Ok d /\
  nth (length d - 1) d (Given "", 0) = (Auto false lo hi, v) /\
  ~ how_many (in_range (lo, hi)) data 1 /\ v == 1.
Proof.
  exists [10], [EFin 0; EFin 5; EFin 10]. eexists. exists (EFin 5), (EFin 10), 1. split; [|split; [reflexivity|split; [reflexivity|split; [|reflexivity]]]].
  - intros [|[|i]] L; simpl in *; try discriminate. lia.
  - intros H. inversion H as [|x l n P _|x l n P Q]; subst; [destruct P as [_ P]; discriminate|inversion Q].
Qed.
Print Assumptions C104_last_label_refuted.

(** The other buckets count what their labels say; the last one counts the data at its
    right end as well. *)
Theorem C104_labels_partial :
  forall data edges nm pc, rising edges -> (2 <= length edges)%nat -> (nm = true -> data <> []) ->
  distinct (auto_labels edges) ->
  exists d, bucket_percentages data (BinEdges edges) None nm pc None = Ok d /\
    forall i, (S i < length edges)%nat ->
      describes (nth i (map fst d) (Given "")) (edge_at edges i, edge_at edges (S i)) /\
      exists n m, how_many (in_range (edge_at edges i, edge_at edges (S i))) data n /\
        how_many (at_edge (edge_at edges (S i))) data m /\
        nth i (map snd d) 0 = reported nm pc (length data) (if Nat.eqb (S (S i)) (length edges) then n + m else n).
Proof. exact edges_labels. Qed.
Print Assumptions C104_labels_partial.

(* ---------------------------------------------------------------- C105 *)
(** The documented default for [bins] does not exist: leaving it out raises. *)
Theorem C105_default_bins_refuted :
  forall data nm pc labels, bucket_percentages data NoBins None nm pc labels = Err TypeError.
Proof. intros. apply hist_errors. Qed.
Print Assumptions C105_default_bins_refuted.

(* ---------------------------------------------------------------- C106 *)
(** Ranges that start differently all get their entry ... *)
Theorem C106_entries_partial :
  forall data bins cb nm pc, cb <> [] -> (nm = true -> data <> []) -> distinct_lows cb ->
  exists d, bucket_percentages data bins (Some cb) nm pc None = Ok d /\ length d = length cb.
Proof.
  intros data bins cb nm pc NE N H. destruct (custom_run data bins cb nm pc None NE N) as (d & E & F & _).
  - simpl. rewrite auto_labels_length, label_edges_length. apply PeanoNat.Nat.sub_0_r.
  - apply low_distinct. exact H.
  - exists d. split; auto. rewrite <- (map_length fst), F. simpl. rewrite auto_labels_length, label_edges_length. apply PeanoNat.Nat.sub_0_r.
Qed.
Print Assumptions C106_entries_partial.
(** ... but cumulative ranges overwrite each other. *)
Theorem C106_entries_refuted :
  exists data cb d, cb <> [] /\ bucket_percentages data NoBins (Some cb) false false None = Ok d /\ (length d < length cb)%nat.
Proof.
  exists [0], [(EFin 0, EFin 1); (EFin 0, EFin 2); (EFin 0, EFin 3)]. eexists. split; [discriminate|]. split; [reflexivity|]. simpl. auto.
Qed.
Print Assumptions C106_entries_refuted.
Example C106_sat : distinct_lows [(ENeg, EFin 5); (EFin 5, EPos)].
Proof. intros [|[|i]] [|[|j]] L; simpl in *; auto; lia. Qed.
