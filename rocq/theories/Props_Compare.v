(** C197: comparisons of distributions hold as often as they should. *)
From Coq Require Import Qabs Lia Lqa.
From Verif Require Import Base M_Weights M_Values M_Sampler M_Ops M_SampleApi M_Bayesnet SpecSampler SpecWeights SpecOps SpecBayes SpecShare P_Program P_Compare Props_Program Props_Large Props_Indep Props_PctNear.
From Verif Require Import SpecProgram SpecLarge SpecIndep SpecColumns SpecCompare.
Open Scope Q_scope.

(** [n] samples of [a < b] are [n] truth values, and say of the samples of [a - b] drawn in the
    same state whether they are below 0; likewise for [<=], [>] and [>=]. *)
Theorem C197_difference :
  forall Or N ahead, (0 < N)%nat -> right_length Or -> reads_all Or N ahead ->
  forall o a b n s, comparison o -> sound a -> sound b -> (1 <= n)%nat ->
  exists v w s', smp Or (question o a b) n None None s = (Ok v, s') /\ smp Or (obj_of (XOp BDiff a b)) n None None s = (Ok w, s') /\
    length (elems v) = n /\ elems v = map (fun d => PBool (holds o (value d) 0)) (elems w).
Proof. exact @question_run. Qed.
Print Assumptions C197_difference.

(** They are independent answers of the program that draws both sides independently. *)
Theorem C197_law :
  forall Or N ahead, (0 < N)%nat -> right_length Or -> reads_all Or N ahead ->
  forall o a b n P ss, comparison o -> sound a -> sound b -> (1 <= n)%nat ->
  each_once N (n * (work a + work b)) (map (coming Or ahead (n * (work a + work b))) ss) ->
  Qabs (qnat (count (answers_in Or (question o a b) n P) ss) / qnat (N ^ (n * (work a + work b))) - chance (repeated n (duel o a b)) P) <= qnat (n * (spread a + spread b)) / qnat N.
Proof. exact @question_share. Qed.
Print Assumptions C197_law.
(** So the share of [True] among many samples is near the chance. *)
Theorem C197_share :
  forall Or N ahead, (0 < N)%nat -> right_length Or -> reads_all Or N ahead ->
  forall o a b n d ss, comparison o -> sound a -> sound b -> (1 <= n)%nat -> 0 < d ->
  each_once N (n * (work a + work b)) (map (coming Or ahead (n * (work a + work b))) ss) ->
  1 - 1 / (4 * qnat n * (d * d)) - qnat (n * (spread a + spread b)) / qnat N <=
  qnat (count (answers_in Or (question o a b) n (share_near n d (odds_of o a b))) ss) / qnat (N ^ (n * (work a + work b))).
Proof. exact @question_near. Qed.
Print Assumptions C197_share.

(** The chances of opposite comparisons add up to 1, and turning round changes nothing. *)
Theorem C197_opposite :
  forall o a b, comparison o -> sound a -> sound b -> odds_of o a b + odds_of (opposite o) a b == 1.
Proof. exact odds_opposite. Qed.
Print Assumptions C197_opposite.
Theorem C197_mirrored :
  forall o a b, comparison o -> odds_of o a b == odds_of (mirrored o) b a.
Proof. exact odds_mirrored. Qed.
Print Assumptions C197_mirrored.
(** [d < d] and [d > d] are equally likely, at most one half each. *)
Theorem C197_twice :
  forall e, sound e -> odds_of Lt e e == odds_of Gt e e /\ odds_of Le e e == 1 - odds_of Lt e e /\ odds_of Lt e e <= 1#2.
Proof. exact odds_twice. Qed.
Print Assumptions C197_twice.

(** [sq.die(4) < sq.die(4)]: 3/8; two samples are both [True] for 36 of the 256 sequences. *)
Definition both (hs : list bool) : bool := forallb (fun h => h) hs.
Example C197_sat :
  sound die4 /\ comparison Lt /\ odds_of Lt die4 die4 == 3#8 /\ odds_of Gt die4 die4 == 3#8 /\ odds_of Le die4 die4 == 5#8 /\
  (2 * (work die4 + work die4) = 4)%nat /\
  each_once 4 4 (map (coming (tape_oracle 4) (tape_ahead 4) 4) (map (tape_state 4) (seqs 4 4))) /\
  count (answers_in (tape_oracle 4) (question Lt die4 die4) 2 both) (map (tape_state 4) (seqs 4 4)) = 36%nat.
Proof.
  split.
  { split; [cbn; lia|]. split; [discriminate|]. intros w v I. vm_compute in I. repeat (destruct I as [I|I]; [inversion I; reflexivity|]). destruct I. }
  split; [left; reflexivity|]. split; [vm_compute; reflexivity|]. split; [vm_compute; reflexivity|]. split; [vm_compute; reflexivity|]. split; [reflexivity|].
  split.
  { assert (E : map (coming (tape_oracle 4) (tape_ahead 4) 4) (map (tape_state 4) (seqs 4 4)) = seqs 4 4) by (vm_compute; reflexivity).
    rewrite E. split; [apply seqs_nodup|]. intros l. apply seqs_in. }
  vm_compute; reflexivity.
Qed.
