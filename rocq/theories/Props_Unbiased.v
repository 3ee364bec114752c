(** C200: the mean of samples is right on average, and how far off it is. *)
From Coq Require Import Qabs Lia Lqa.
From Verif Require Import Base M_Weights M_Values M_Sampler M_Ops M_SampleApi M_Bayesnet SpecSampler SpecWeights SpecOps SpecBayes SpecShare P_Program P_Unbiased Props_Program Props_Large Props_Indep Props_PctNear.
From Verif Require Import SpecProgram SpecLarge SpecIndep SpecColumns SpecUnbiased.
Open Scope Q_scope.

(** Averaged over all sequences of draws, any statistic of [n] samples is its expected value for
    [n] independent draws, to within a bound that vanishes as the draws get finer. *)
Theorem C200_statistic :
  forall Or N ahead, (0 < N)%nat -> right_length Or -> reads_all Or N ahead ->
  forall e n lo hi B F ss, sound e -> (1 <= n)%nat -> of_lists F -> ranges e lo hi -> 0 <= B -> at_most n lo hi B F ->
  each_once N (n * work e) (map (coming Or ahead (n * work e)) ss) ->
  Qabs (total (map (statistic Or (obj_of e) n F) ss) / qnat (N ^ (n * work e)) - expect (repeated n (prog_of e)) F) <= qnat (n * spread e) * B / qnat N.
Proof. exact @statistic_average. Qed.
Print Assumptions C200_statistic.

(** So the mean of the samples is on average the expected value, *)
Theorem C200_unbiased :
  forall Or N ahead, (0 < N)%nat -> right_length Or -> reads_all Or N ahead ->
  forall e n B ss, sound e -> (1 <= n)%nat -> 0 <= B -> ranges e (- B) B -> each_once N (n * work e) (map (coming Or ahead (n * work e)) ss) ->
  Qabs (total (map (statistic Or (obj_of e) n (mean n)) ss) / qnat (N ^ (n * work e)) - expected e) <= qnat (n * spread e) * B / qnat N.
Proof. exact @mean_unbiased. Qed.
Print Assumptions C200_unbiased.

(** and its mean squared error is the variance divided by the number of samples. *)
Theorem C200_error :
  forall Or N ahead, (0 < N)%nat -> right_length Or -> reads_all Or N ahead ->
  forall e n lo hi ss, sound e -> (1 <= n)%nat -> ranges e lo hi -> each_once N (n * work e) (map (coming Or ahead (n * work e)) ss) ->
  Qabs (total (map (statistic Or (obj_of e) n (error2 n (expected e))) ss) / qnat (N ^ (n * work e)) - variance e / qnat n) <= qnat (n * spread e) * square (hi - lo) / qnat N.
Proof. exact @mean_error. Qed.
Print Assumptions C200_error.

(** The variance of a product, *)
Theorem C200_product :
  forall a b, sound a -> sound b ->
  variance (XOp BProd a b) == variance a * variance b + variance a * square (expected b) + variance b * square (expected a).
Proof. exact product_variance. Qed.
Print Assumptions C200_product.

(** and of a mixture: the mean of the variances and the variance of the means. *)
Theorem C200_mixture :
  forall l, sound (XMix l) ->
  variance (XMix l) == total (map (fun e => fst e * variance (snd e)) l) + total (map (fun e => fst e * square (expected (snd e) - expected (XMix l))) l).
Proof. exact total_variance. Qed.
Print Assumptions C200_mixture.

(** [sq.mixture([a, b])] has the mean of [(a + b) / 2] but at least twice its variance. *)
Theorem C200_mixture_or_average :
  forall a b, sound a -> sound b -> let mix := XMix [(1#2, a); (1#2, b)] in let average := XOp BProd (XNum (1#2)) (XOp BSum a b) in
  expected mix == expected average /\ 2 * variance average <= variance mix.
Proof. exact mixture_or_average. Qed.
Print Assumptions C200_mixture_or_average.

(** Two throws of a die with four sides: over the 16 sequences the mean is 5/2 on average and
    its mean squared error is half of 5/4. *)
Definition pairs : list (state (G (tape_oracle 4))) := map (tape_state 4) (seqs 4 2).
Example C200_sat :
  sound die4 /\ ranges die4 (-(4)) 4 /\ ranges die4 1 4 /\ of_lists (mean 2) /\ at_most 2 1 4 4 (mean 2) /\ (2 * work die4 = 2)%nat /\
  each_once 4 2 (map (coming (tape_oracle 4) (tape_ahead 4) 2) pairs) /\
  total (map (statistic (tape_oracle 4) (obj_of die4) 2 (mean 2)) pairs) / qnat (4 ^ 2) == 5#2 /\ expected die4 == 5#2 /\
  total (map (statistic (tape_oracle 4) (obj_of die4) 2 (error2 2 (5#2))) pairs) / qnat (4 ^ 2) == 5#8 /\ variance die4 == 5#4 /\
  variance (XOp BProd die4 die4) == 275#16 /\ sound (XMix [(1#2, die4); (1#2, XNum 10)]) /\ variance (XMix [(1#2, die4); (1#2, XNum 10)]) == 235#16.
Proof.
  assert (S : sound die4).
  { split; [cbn; lia|]. split; [discriminate|]. intros w v I. vm_compute in I. repeat (destruct I as [I|I]; [inversion I; reflexivity|]). destruct I. }
  split; [exact S|].
  split. { intros w v I. vm_compute in I. repeat (destruct I as [I|I]; [inversion I; split; discriminate|]). destruct I. }
  split. { intros w v I. vm_compute in I. repeat (destruct I as [I|I]; [inversion I; split; discriminate|]). destruct I. }
  split; [apply mean_lists|].
  split. { intros xs L F. pose proof (mean_range 2 1 4 xs ltac:(lia) L F). lra. }
  split; [reflexivity|].
  split.
  { assert (E : map (coming (tape_oracle 4) (tape_ahead 4) 2) pairs = seqs 4 2) by (vm_compute; reflexivity).
    rewrite E. split; [apply seqs_nodup|]. intros l. apply seqs_in. }
  split; [vm_compute; reflexivity|]. split; [vm_compute; reflexivity|]. split; [vm_compute; reflexivity|]. split; [vm_compute; reflexivity|].
  split; [vm_compute; reflexivity|].
  split; [|vm_compute; reflexivity]. split; [cbn; lia|]. split; [repeat constructor|]. split; [reflexivity|]. cbn [fold_right snd]. split; [exact S|]. split; exact I.
Qed.
