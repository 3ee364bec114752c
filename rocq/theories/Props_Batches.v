(** C198: samples drawn in batches. *)
From Coq Require Import Qabs Lia Lqa.
From Verif Require Import Base M_Weights M_Values M_Sampler M_SampleApi M_Bayesnet SpecWeights SpecSampler SpecMixture SpecBayes SpecShare SpecBatches P_Batches P_Batches2 Props_Indep Props_PctNear.
From Verif Require Import SpecProgram SpecLarge SpecIndep SpecColumns.
Open Scope Q_scope.

(** [n + m] samples of a single distribution are [n] samples followed by [m] more, and leave the
    generator in the same state. *)
Theorem C198_single :
  forall Or, right_length Or -> steady Or ->
  forall k n m s, stepwise k -> (1 <= n)%nat -> (1 <= m)%nat -> continues Or (ODist (DLeaf k None None)) n m s.
Proof. exact leaf_continues. Qed.
Print Assumptions C198_single.

(** So are up to 100 samples of a mixture, before their type is unified. *)
Theorem C198_mixture :
  forall Or, right_length Or ->
  forall ws ds n m s v s1 w s2, (1 <= n)%nat -> (1 <= m)%nat -> (n + m <= 100)%nat -> ready ws ds -> (2 <= length ds)%nat ->
  smp Or (ODist (DMixture ws ds None None)) n None None s = (Ok v, s1) -> smp Or (ODist (DMixture ws ds None None)) m None None s1 = (Ok w, s2) ->
  exists xs ys, elems v = np_array (fmt Or) xs /\ elems w = np_array (fmt Or) ys /\
    smp Or (ODist (DMixture ws ds None None)) (n + m) None None s = (Ok (Arr (np_array (fmt Or) (xs ++ ys))), s2).
Proof. exact mixture_continues. Qed.
Print Assumptions C198_mixture.

(** For every expression the first [n] of [n + m] samples have the law of [n] samples. *)
Theorem C198_law :
  forall Or N ahead, (0 < N)%nat -> right_length Or -> reads_all Or N ahead ->
  forall e n m P ss, sound e -> (1 <= n)%nat -> of_number_lists P -> each_once N ((n + m) * work e) (map (coming Or ahead ((n + m) * work e)) ss) ->
  Qabs (qnat (count (samples_in Or (obj_of e) (n + m) (fun xs => P (firstn n xs))) ss) / qnat (N ^ ((n + m) * work e)) - chance (repeated n (prog_of e)) P) <= qnat ((n + m) * spread e) / qnat N.
Proof. exact @first_share. Qed.
Print Assumptions C198_law.

(** Not so for sums: the two operands are drawn one after the other. *)
Theorem C198_not_for_sums :
  exists Or e n m s, right_length Or /\ steady Or /\ sound e /\ ~ continues Or (obj_of e) n m s.
Proof. exact sums_differ. Qed.
Print Assumptions C198_not_for_sums.
(** Nor for mixtures beyond 100 samples: there all components are drawn first. *)
Theorem C198_not_beyond_100 :
  exists Or e n m s, right_length Or /\ steady Or /\ sound e /\ (n <= 100)%nat /\ (m <= 100)%nat /\ ~ continues Or (obj_of e) n m s.
Proof. exact beyond_differ. Qed.
Print Assumptions C198_not_beyond_100.

(** Two and then three samples of [sq.uniform(0, 1)]. *)
Example C198_sat :
  right_length (tape_oracle 4) /\ steady (tape_oracle 4) /\ stepwise (LUniform 0 1) /\
  (exists v s1 w s2, smp (tape_oracle 4) (ODist (DLeaf (LUniform 0 1) None None)) 2 None None (tape_state 4 [1; 2; 3; 0; 1]%nat) = (Ok v, s1) /\
     smp (tape_oracle 4) (ODist (DLeaf (LUniform 0 1) None None)) 3 None None s1 = (Ok w, s2) /\ length (elems v) = 2%nat /\ length (elems w) = 3%nat).
Proof.
  split; [apply tape_length|]. split; [apply tape_steady|]. split; [exact I|].
  destruct (smp (tape_oracle 4) (ODist (DLeaf (LUniform 0 1) None None)) 2 None None (tape_state 4 [1; 2; 3; 0; 1]%nat)) as [[v|e] s1] eqn:A; [|vm_compute in A; discriminate].
  destruct (smp (tape_oracle 4) (ODist (DLeaf (LUniform 0 1) None None)) 3 None None s1) as [[w|e] s2] eqn:B; [|vm_compute in A; inversion A; subst; vm_compute in B; discriminate].
  exists v, s1, w, s2. split; [reflexivity|]. split; [exact B|]. vm_compute in A. inversion A; subst. vm_compute in B. inversion B; subst. split; reflexivity.
Qed.
(** Four and then two samples of a mixture. *)
Example C198_mixture_sat :
  ready [1#2; 1#2] [obj_of (T := G (tape_oracle 4)) die4; obj_of (XNum 0)] /\
  (exists v s1 w s2, smp (tape_oracle 4) (obj_of die_or_zero) 4 None None (tape_state 4 (seq 0 20)) = (Ok v, s1) /\
     smp (tape_oracle 4) (obj_of die_or_zero) 2 None None s1 = (Ok w, s2) /\ length (elems v) = 4%nat /\ length (elems w) = 2%nat).
Proof.
  split; [split; [reflexivity|]; split; [repeat constructor|]; vm_compute; split; reflexivity|].
  destruct (smp (tape_oracle 4) (obj_of die_or_zero) 4 None None (tape_state 4 (seq 0 20))) as [[v|e] s1] eqn:A; [|vm_compute in A; discriminate].
  destruct (smp (tape_oracle 4) (obj_of die_or_zero) 2 None None s1) as [[w|e] s2] eqn:B; [|vm_compute in A; inversion A; subst; vm_compute in B; discriminate].
  exists v, s1, w, s2. split; [reflexivity|]. split; [exact B|]. vm_compute in A. inversion A; subst. vm_compute in B. inversion B; subst. split; reflexivity.
Qed.
