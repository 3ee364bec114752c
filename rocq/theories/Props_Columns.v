(** C193: [n] samples of an expression are [n] independent copies. *)
From Coq Require Import Qabs Lia Lqa.
From Verif Require Import Base M_Weights M_Values M_Sampler M_Ops M_SampleApi M_Bayesnet SpecSampler SpecWeights SpecOps SpecBayes SpecShare P_Program P_Program2 P_Indep P_Columns P_Columns2 Props_Program Props_Large Props_Indep.
From Verif Require Import SpecProgram SpecLarge SpecIndep SpecColumns.
Open Scope Q_scope.

(** Drawing operand by operand, or all components of a mixture and then which to take, gives
    lists of samples the same law as drawing the expression again and again. *)
Theorem C193_law :
  forall e, sound e -> forall n F, expect (columns n e) F == expect (repeated n (prog_of e)) F.
Proof. exact columns_law. Qed.
Print Assumptions C193_law.

(** So over all sequences of draws [n] samples of the expression have the joint property [P] as
    often as [n] independent samples do. *)
Theorem C193_share :
  forall Or N ahead, (0 < N)%nat -> right_length Or -> reads_all Or N ahead ->
  forall e n P ss, sound e -> (1 <= n)%nat -> of_number_lists P -> each_once N (n * work e) (map (coming Or ahead (n * work e)) ss) ->
  Qabs (qnat (count (samples_in Or (obj_of e) n P) ss) / qnat (N ^ (n * work e)) - chance (repeated n (prog_of e)) P) <= qnat (n * spread e) / qnat N.
Proof. exact @samples_share. Qed.
Print Assumptions C193_share.

(** And the mean of [n] samples is near the exact mean for all but few sequences of draws. *)
Theorem C193_mean :
  forall Or N ahead, (0 < N)%nat -> right_length Or -> reads_all Or N ahead ->
  forall e n lo hi d ss, sound e -> (1 <= n)%nat -> 0 < d -> returns (prog_of e) (fun x => lo <= x <= hi) ->
  each_once N (n * work e) (map (coming Or ahead (n * work e)) ss) ->
  1 - (hi - lo) * (hi - lo) / (4 * qnat n * (d * d)) - qnat (n * spread e) / qnat N <=
  qnat (count (samples_in Or (obj_of e) n (mean_near n d (expected e))) ss) / qnat (N ^ (n * work e)).
Proof. exact @samples_mean. Qed.
Print Assumptions C193_mean.

(** Two samples of [sq.die(4) * 10] rise for 150 of the 400 pairs of draws. *)
Definition die4_tens : dexp := XOp BProd (XNum 10) die4.
Definition rising2 (xs : list Q) : bool := match xs with [x; y] => Qlt_bool x y | _ => false end.
Example C193_sat :
  right_length pair_oracle /\ reads_all pair_oracle 20 pair_ahead /\ sound die4_tens /\ of_number_lists rising2 /\ (2 * work die4_tens = 2)%nat /\
  each_once 20 2 (map (coming pair_oracle pair_ahead 2) (map pair_state (seq 0 400))) /\ returns (prog_of die4_tens) (fun x => 10 <= x <= 40) /\
  count (samples_in pair_oracle (obj_of die4_tens) 2 rising2) (map pair_state (seq 0 400)) = 150%nat /\
  chance (repeated 2 (prog_of die4_tens)) rising2 == 3#8 /\
  count (samples_in pair_oracle (obj_of die4_tens) 2 (mean_near 2 12 (expected die4_tens))) (map pair_state (seq 0 400)) = 350%nat.
Proof.
  pose proof C189_sat as (RL & R & _). split; [exact RL|]. split; [split; [exact R|]|].
  { intros n g. exists (map (fun i => grid 20 (pair_at (g + i))) (seq 0 n)), (g + n)%nat. split; [reflexivity|]. split; [|intros i; unfold pair_ahead; f_equal; cbn; lia].
    generalize (seq 0 n). intros l. induction l; cbn [map]; constructor; [reflexivity|assumption]. }
  split; [split; [exact I|]; pose proof C192_sat as (S & _); apply S|].
  split. { intros xs ys F. destruct F as [|x1 y1 ? ? E1 [|x2 y2 ? ? E2 [|]]]; try reflexivity. cbn. apply Bool.eq_true_iff_eq. split; intros H; apply P_Support.qlt_true in H; apply P_Support.qlt_true; lra. }
  split; [reflexivity|]. split; [apply C192_sat|].
  split. { intros w v H. cbn in H. repeat (destruct H as [H|H]; [inversion H; split; vm_compute; discriminate|]). destruct H. }
  split; [vm_compute; reflexivity|]. split; [vm_compute; reflexivity|]. vm_compute; reflexivity.
Qed.
