(** C199: stochastically larger parts make stochastically larger expressions. *)
From Coq Require Import Qabs Lia Lqa.
From Verif Require Import Base M_Weights M_Values M_Sampler M_Ops M_SampleApi M_Bayesnet SpecSampler SpecWeights SpecOps SpecBayes SpecShare P_Program P_Stochastic Props_Program Props_Large Props_Indep Props_PctNear.
From Verif Require Import SpecProgram SpecLarge SpecIndep SpecColumns SpecCompare SpecStochastic.
Open Scope Q_scope.

(** If [b] exceeds every level at least as likely as [a], then [n] samples of [b] have every property
    that raising samples does not take away (a mean, a median, a maximum above some level)
    at least as often as [n] samples of [a]. *)
Theorem C199_samples :
  forall Or N ahead, (0 < N)%nat -> right_length Or -> reads_all Or N ahead ->
  forall a b n P sa sb, lower a b -> sound a -> sound b -> (1 <= n)%nat -> upward P ->
  each_once N (n * work a) (map (coming Or ahead (n * work a)) sa) -> each_once N (n * work b) (map (coming Or ahead (n * work b)) sb) ->
  qnat (count (samples_in Or (obj_of a) n P) sa) / qnat (N ^ (n * work a)) <=
  qnat (count (samples_in Or (obj_of b) n P) sb) / qnat (N ^ (n * work b)) + (qnat (n * spread a) + qnat (n * spread b)) / qnat N.
Proof. exact @lower_samples. Qed.
Print Assumptions C199_samples.

(** Sums, maxima and minima follow both operands, *)
Theorem C199_operators :
  forall o a a' b b', o = BSum \/ o = BMax \/ o = BMin -> sound a -> sound a' -> sound b -> sound b' ->
  lower a a' -> lower b b' -> lower (XOp o a b) (XOp o a' b').
Proof. exact lower_op. Qed.
Print Assumptions C199_operators.

(** differences fall with the second operand, *)
Theorem C199_differences :
  forall a a' b b', sound a -> sound a' -> sound b -> sound b' -> lower a a' -> lower b' b -> lower (XOp BDiff a b) (XOp BDiff a' b').
Proof. exact lower_diff. Qed.
Print Assumptions C199_differences.

(** products of what is never negative follow both, *)
Theorem C199_products :
  forall a a' b b', sound a -> sound a' -> sound b -> sound b' -> never_negative a -> never_negative a' -> never_negative b -> never_negative b' ->
  lower a a' -> lower b b' -> lower (XOp BProd a b) (XOp BProd a' b').
Proof. exact lower_prod. Qed.
Print Assumptions C199_products.

(** and mixtures follow their parts. *)
Theorem C199_mixtures :
  forall l l', nonneg (map fst l) -> Forall2 (fun e e' => fst e == fst e' /\ lower (snd e) (snd e')) l l' -> lower (XMix l) (XMix l').
Proof. exact lower_mix. Qed.
Print Assumptions C199_mixtures.

(** Dice with more sides, likelier events and larger numbers are larger. *)
Theorem C199_leaves :
  (forall n m, (1 <= n <= m)%nat -> lower (XChoice (CDie n)) (XChoice (CDie m))) /\
  (forall p q, p <= q -> lower (XChoice (CBernoulli p)) (XChoice (CBernoulli q))) /\
  (forall x y, x <= y -> lower (XNum x) (XNum y)).
Proof. exact (conj lower_dice (conj lower_bernoulli lower_numbers)). Qed.
Print Assumptions C199_leaves.

(** It is the same to say that the mean of every rising function is at most as large. *)
Theorem C199_rising :
  forall a b, sound a -> sound b -> (lower a b <-> forall f, rising f -> expect (prog_of a) f <= expect (prog_of b) f).
Proof. exact lower_iff. Qed.
Print Assumptions C199_rising.

(** The lower one beats a third less often, and the higher one at most half the time. *)
Theorem C199_contests :
  forall a b, sound a -> sound b -> lower a b ->
  (forall o c, o = Gt \/ o = Ge -> sound c -> odds_of o a c <= odds_of o b c) /\ odds_of Gt a b <= 1#2.
Proof. exact lower_contests. Qed.
Print Assumptions C199_contests.

(** A larger mean is not enough: 1 beats 10 * sq.bernoulli(0.2) four times out of five. *)
Theorem C199_not_from_means :
  exists a b, sound a /\ sound b /\ expected a < expected b /\ ~ lower a b /\ 1#2 < odds_of Gt a b.
Proof. exact means_not_enough. Qed.
Print Assumptions C199_not_from_means.

(** Two throws total more than 6 for 27 of 144 sequences with four sides, for 84 with six. *)
Definition die6 : dexp := XChoice (CDie 6).
Definition over_six (xs : list Q) : bool := Qlt_bool 6 (total xs).
Definition all_starts : list (state (G (tape_oracle 12))) := map (tape_state 12) (seqs 12 2).
Example C199_sat :
  lower die4 die6 /\ sound die4 /\ sound die6 /\ never_negative die4 /\ upward over_six /\ (2 * work die4 = 2)%nat /\ (2 * work die6 = 2)%nat /\
  each_once 12 2 (map (coming (tape_oracle 12) (tape_ahead 12) 2) all_starts) /\
  count (samples_in (tape_oracle 12) (obj_of die4) 2 over_six) all_starts = 27%nat /\
  count (samples_in (tape_oracle 12) (obj_of die6) 2 over_six) all_starts = 84%nat.
Proof.
  split; [apply lower_dice; lia|].
  assert (S : forall n, (2 <= n)%nat -> sound (XChoice (CDie n))).
  { intros n H. split; [exact H|]. split; [discriminate|]. intros w v I. cbn [law] in I. apply in_map_iff in I. destruct I as (i & E & _). inversion E; reflexivity. }
  split; [apply S; lia|]. split; [apply S; lia|].
  split. { intros w v I. vm_compute in I. repeat (destruct I as [I|I]; [inversion I; discriminate|]). destruct I. }
  split.
  { assert (T : forall xs ys, Forall2 Qle xs ys -> total xs <= total ys) by (intros xs ys F; unfold total; induction F; cbn [fold_right]; lra).
    intros xs ys F H. unfold over_six in *. apply P_Support.qlt_true in H. apply P_Support.qlt_true. pose proof (T xs ys F). lra. }
  split; [reflexivity|]. split; [reflexivity|].
  split.
  { assert (E : map (coming (tape_oracle 12) (tape_ahead 12) 2) all_starts = seqs 12 2) by (vm_compute; reflexivity).
    rewrite E. split; [apply seqs_nodup|]. intros l. apply seqs_in. }
  split; vm_compute; reflexivity.
Qed.
