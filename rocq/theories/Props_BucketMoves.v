(** C176: buckets of reordered, pooled and rescaled data, and of merged ranges. *)
From Coq Require Import Permutation.
From Verif Require Import Base M_Buckets SpecBuckets SpecBucketMoves P_Buckets P_Buckets2 P_BucketMoves.
Open Scope Q_scope.

(* ---------------------------------------------------------------- C176 *)
(** The order of the data does not matter. *)
Theorem C176_reorder :
  forall data data' bins cb nm pc labels, Permutation data data' ->
  same_outcome (fun l => l) (bucket_percentages data bins cb nm pc labels) (bucket_percentages data' bins cb nm pc labels).
Proof. exact bucket_reorder. Qed.
Print Assumptions C176_reorder.
(** With given ranges, counts of data put together are the sums of the counts, and shares
    the averages of the shares, weighted by the numbers of data. *)
Theorem C176_pool :
  forall a b bins cb nm pc labels d, (nm = true -> a <> [] /\ b <> []) -> (cb = None -> exists e, bins = BinEdges e) ->
  bucket_percentages (a ++ b) bins cb nm pc labels = Ok d ->
  exists d1 d2, bucket_percentages a bins cb nm pc labels = Ok d1 /\ bucket_percentages b bins cb nm pc labels = Ok d2 /\
    map fst d1 = map fst d /\ map fst d2 = map fst d /\
    forall i, (i < length d)%nat ->
      size nm a * nth i (map snd d1) 0 + size nm b * nth i (map snd d2) 0 == size nm (a ++ b) * nth i (map snd d) 0.
Proof. exact bucket_pool. Qed.
Print Assumptions C176_pool.
(** Leaving out an edge adds up the two entries beside it and changes no other. *)
Theorem C176_merge :
  forall data l a r nm pc labels labels', l <> [] -> r <> [] -> rising (l ++ a :: r) -> (nm = true -> data <> []) ->
  length (names (l ++ a :: r) labels) = (length l + length r)%nat -> distinct (names (l ++ a :: r) labels) ->
  length (names (l ++ r) labels') = (length l + length r - 1)%nat -> distinct (names (l ++ r) labels') ->
  exists d d', bucket_percentages data (BinEdges (l ++ a :: r)) None nm pc labels = Ok d /\
    bucket_percentages data (BinEdges (l ++ r)) None nm pc labels' = Ok d' /\
    map fst d = names (l ++ a :: r) labels /\ map fst d' = names (l ++ r) labels' /\
    merged (length l - 1) (map snd d) (map snd d').
Proof. exact bucket_merge. Qed.
Print Assumptions C176_merge.
(** Data and ranges in other units give the same values under names in those units; so do a
    number of bins, unless all data are equal. *)
Theorem C176_units :
  forall k c data bins cb nm pc labels, 0 < k ->
  (cb = None -> (exists n, bins = BinCount n) -> exists x y, In x data /\ In y data /\ ~ x == y) ->
  same_outcome (move_label k c) (bucket_percentages data bins cb nm pc labels)
    (bucket_percentages (map (unit_change k c) data) (move_bins k c bins) (option_map (map (move_range k c)) cb) nm pc labels).
Proof. exact bucket_units. Qed.
Print Assumptions C176_units.
Example C176_sat :
  let e := map EFin [0; 1; 2; 4] in
  bucket_percentages [1; 3; 2] (BinEdges e) None false false (Some ["a"; "b"; "c"]%string) =
    Ok [(Given "a", 0); (Given "b", 1); (Given "c", 2)] /\
  bucket_percentages [0; 1; 5] (BinEdges e) None false false (Some ["a"; "b"; "c"]%string) =
    Ok [(Given "a", 1); (Given "b", 1); (Given "c", 0)] /\
  bucket_percentages ([1; 3; 2] ++ [0; 1; 5]) (BinEdges e) None false false (Some ["a"; "b"; "c"]%string) =
    Ok [(Given "a", 1); (Given "b", 2); (Given "c", 2)] /\
  rising e /\ e = [EFin 0; EFin 1] ++ EFin 2 :: [EFin 4] /\ distinct (names e None) /\
  bucket_percentages [1; 3; 2] (BinEdges ([EFin 0; EFin 1] ++ [EFin 4])) None false false (Some ["a"; "b"]%string) =
    Ok [(Given "a", 0); (Given "b", 3)] /\
  same_outcome (move_label 2 1) (bucket_percentages [1; 3; 2] (BinEdges e) None false false None)
    (bucket_percentages [3; 7; 5] (BinEdges (map EFin [1; 3; 5; 9])) None false false None).
Proof.
  cbv zeta. split; [reflexivity|]. split; [reflexivity|]. split; [reflexivity|].
  split. { intros [|[|[|i]]] L; simpl in *; try discriminate; lia. }
  split; [reflexivity|]. split. { simpl. intuition (subst; reflexivity). }
  split; [reflexivity|]. vm_compute. repeat constructor.
Qed.
