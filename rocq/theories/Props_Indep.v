(** C192: operators on distributions combine independent draws. *)
From Coq Require Import Qabs Lia Lqa.
From Verif Require Import Base M_Weights M_Values M_Sampler M_Ops M_SampleApi M_Bayesnet SpecSampler SpecWeights SpecOps SpecBayes SpecShare P_Program P_Indep Props_Program Props_Large.
From Verif Require Import SpecProgram SpecLarge SpecIndep.
Open Scope Q_scope.

(** One sample of an expression is one run of its program: it succeeds, it is the number the
    program computes exactly, and the generator is left in the same state. *)
Theorem C192_run :
  forall Or N ahead, (0 < N)%nat -> right_length Or -> reads Or N ahead ->
  forall e, sound e -> forall s, exists v x s', smp Or (obj_of e) 1 None None s = (Ok (Scalar v), s') /\
    SpecProgram.run Or (prog_of e) s = (Ok x, s') /\ plain v x.
Proof. exact @expr_run. Qed.
Print Assumptions C192_run.

(** So over all sequences of draws a sample has the property [P] as often as the exact law of
    the expression says. *)
Theorem C192_share :
  forall Or N ahead, (0 < N)%nat -> right_length Or -> reads Or N ahead ->
  forall e P ss, sound e -> of_numbers P -> each_once N (draws e) (map (coming Or ahead (draws e)) ss) ->
  Qabs (qnat (count (sample_in Or (obj_of e) P) ss) / qnat (N ^ draws e) - chance (prog_of e) P) <= qnat (outcomes e) / qnat N.
Proof. exact @expr_share. Qed.
Print Assumptions C192_share.

(** That law: operands are independent, even if they are the same distribution; mixtures
    weigh their parts. *)
Theorem C192_combined :
  forall o a b P, chance (prog_of (XOp o a b)) P == expect (prog_of a) (fun x => chance (prog_of b) (fun y => P (exact o x y))).
Proof. exact combined. Qed.
Print Assumptions C192_combined.
Theorem C192_mixed :
  forall l, (forall P, chance (prog_of (XMix l)) P == total (map (fun e => fst e * chance (prog_of (snd e)) P) l)) /\
  expected (XMix l) == total (map (fun e => fst e * expected (snd e)) l).
Proof. exact (fun l => conj (mixed l) (mixed_mean l)). Qed.
Print Assumptions C192_mixed.

(** Means and variances of sums, differences and products. *)
Theorem C192_means :
  forall a b, sound a -> sound b -> expected (XOp BSum a b) == expected a + expected b /\
  expected (XOp BDiff a b) == expected a - expected b /\ expected (XOp BProd a b) == expected a * expected b.
Proof. exact means. Qed.
Print Assumptions C192_means.
Theorem C192_variances :
  forall a b, sound a -> sound b -> variance (XOp BSum a b) == variance a + variance b /\ variance (XOp BDiff a b) == variance a + variance b.
Proof. exact variances. Qed.
Print Assumptions C192_variances.
Theorem C192_constants :
  forall x e, sound e -> expected (XOp BProd (XNum x) e) == x * expected e /\ variance (XOp BProd (XNum x) e) == x * x * variance e /\
  variance (XOp BSum (XNum x) e) == variance e.
Proof. exact constant_parts. Qed.
Print Assumptions C192_constants.
(** [d - d] averages to 0 but is not 0; [d + d] spreads less than [2 * d]. *)
Theorem C192_same_twice :
  forall e, sound e -> expected (XOp BDiff e e) == 0 /\ variance (XOp BDiff e e) == 2 * variance e /\ variance (XOp BSum e e) == 2 * variance e.
Proof. exact same_twice. Qed.
Print Assumptions C192_same_twice.

(** [sq.die(4) - sq.die(4)] is 0 for 100 of the 400 pairs of draws. *)
Definition die4 : dexp := XChoice (CDie 4).
Definition is_zero (x : Q) : bool := Qeq_bool x 0.
Example C192_sat :
  sound (XOp BDiff die4 die4) /\ of_numbers is_zero /\ draws (XOp BDiff die4 die4) = 2%nat /\
  each_once 20 2 (map (coming pair_oracle pair_ahead 2) (map pair_state (seq 0 400))) /\
  count (sample_in pair_oracle (obj_of (XOp BDiff die4 die4)) is_zero) (map pair_state (seq 0 400)) = 100%nat /\
  chance (prog_of (XOp BDiff die4 die4)) is_zero == 1#4 /\ variance die4 == 5#4 /\ variance (XOp BDiff die4 die4) == 5#2.
Proof.
  split.
  { assert (S : sound die4); [|exact (conj S S)]. split; [cbn; lia|]. split; [discriminate|]. intros w v H. cbn in H.
    repeat (destruct H as [H|H]; [inversion H; reflexivity|]). destruct H. }
  split; [intros x y E; unfold is_zero; apply Bool.eq_true_iff_eq; rewrite !Qeq_bool_iff, E; reflexivity|]. split; [reflexivity|].
  split.
  { assert (E : map (coming pair_oracle pair_ahead 2) (map pair_state (seq 0 400)) = seqs 20 2) by (vm_compute; reflexivity).
    rewrite E. split; [apply seqs_nodup|]. intros l. apply seqs_in. }
  split; [vm_compute; reflexivity|]. split; [vm_compute; reflexivity|]. split; vm_compute; reflexivity.
Qed.
(** A mixture of a discrete distribution and a shifted bernoulli. *)
Definition mixed_bag : dexp :=
  XMix [(1#4, XChoice (CDiscrete [(1#2, PInt 1); (1#2, PFlt (Fin (5#2)))])); (3#4, XOp BSum (XNum 10) (XChoice (CBernoulli (1#5))))].
Example C192_mixed_sat :
  sound mixed_bag /\ draws mixed_bag = 2%nat /\ outcomes mixed_bag = 4%nat /\ expected mixed_bag == 647#80 /\
  count (sample_in pair_oracle (obj_of mixed_bag) (Qlt_bool 10)) (map pair_state (seq 0 400)) = 56%nat /\ chance (prog_of mixed_bag) (Qlt_bool 10) == 3#20.
Proof.
  split.
  { split; [cbn; lia|]. split; [repeat constructor|]. split; [reflexivity|]. cbn [fold_right snd sound]. split; [|split; [|exact I]].
    - split; [split; [discriminate|split; [repeat constructor|reflexivity]]|]. split; [discriminate|]. intros w v [H|[H|[]]]; inversion H; reflexivity.
    - split; [exact I|]. split; [cbn; lra|]. split; [discriminate|]. intros w v [H|[H|[]]]; inversion H; reflexivity. }
  split; [reflexivity|]. split; [reflexivity|]. split; [vm_compute; reflexivity|]. split; vm_compute; reflexivity.
Qed.
