(** C185: expressions with larger parts have larger samples. *)
From Coq Require Import Sorted Lqa.
From Verif Require Import Base M_Weights M_Values M_Sampler M_Ops SpecWeights SpecSampler SpecMixture SpecOps SpecDiscrete SpecDominance SpecRising
  P_Dominance P_Rising P_Example.
Open Scope Q_scope.

(* ---------------------------------------------------------------- C185 *)
(** Raising the parts that are added, scaled up or compared, and lowering those that are
    subtracted or negated, lowers no sample of the expression; the generator is left in the
    same state. *)
Theorem C185_rises : forall Or n d d', (1 <= n)%nat -> rises Or n d d' -> never_above Or n d d'.
Proof. exact rises_above. Qed.
Print Assumptions C185_rises.
(** Everywhere larger discrete distributions can be the parts. *)
Theorem C185_discrete :
  forall Or l l' n, right_length Or -> acceptable l -> acceptable l' -> ascending l -> ascending l' ->
  dominated l l' -> (1 <= n)%nat -> never_above Or n (ODist (DLeaf (written l) None None)) (ODist (DLeaf (written l') None None)).
Proof. exact dominated_below. Qed.
Print Assumptions C185_discrete.
(** Products of parts that both rise can fall. *)
Theorem C185_product_refuted :
  exists l l' r n, (1 <= n)%nat /\ never_above ex_oracle n l l' /\ never_above ex_oracle n r r /\
  ~ never_above ex_oracle n (ODist (DComplex l r (FOp Mul))) (ODist (DComplex l' r (FOp Mul))).
Proof. exact product_falls. Qed.
Print Assumptions C185_product_refuted.
Example C185_sat :
  let l := [(1#2, NI 1); (1#4, NF (3#2)); (1#4, NI 7)] in
  let l' := [(1#4, NI 1); (3#4, NI 8)] in
  let part := fun m => ODist (DLeaf (written m) None None) in
  let whole := fun a b => dist_max2 (ODist (DComplex (part b) (part a) (FOp Sub))) (ODist (DComplex (part b) (OLit (num_pv (NI 2))) (FOp Mul))) in
  rises ex_oracle 3 (whole l' l) (whole l l') /\ never_above ex_oracle 3 (whole l' l) (whole l l') /\
  exists v v' s, smp ex_oracle (whole l' l) 3 None None (ex_state 0) = (Ok v, s) /\
     smp ex_oracle (whole l l') 3 None None (ex_state 0) = (Ok v', s) /\ v <> v'.
Proof.
  intros l l' part whole.
  assert (P : never_above ex_oracle 3 (part l) (part l')).
  { apply dominated_below; [exact ex_right_length|..]; try lia.
  - split; [repeat constructor; discriminate|]. split; [reflexivity|]. split; [reflexivity|].
    exists (1#2, NI 1), (1#4, NF (3#2)), [], [], [(1#4, NI 7)]. repeat split.
  - split; [repeat constructor; discriminate|]. split; [reflexivity|]. split; [reflexivity|].
    exists (1#4, NI 1), (3#4, NI 8), [], [], []. repeat split.
  - repeat constructor; discriminate.
  - repeat constructor; discriminate.
  - split; [reflexivity|]. intros x. unfold weight_upto, worth, l, l'. cbn [filter snd num_q]. change (inject_Z 1) with 1. change (inject_Z 7) with 7. change (inject_Z 8) with 8.
    destruct (Qle_bool 1 x) eqn:A, (Qle_bool (3#2) x) eqn:B, (Qle_bool 7 x) eqn:C, (Qle_bool 8 x) eqn:D; cbn [map total fst]; try discriminate;
    repeat match goal with H : Qle_bool _ _ = true |- _ => apply Qle_bool_iff in H | H : Qle_bool ?a ?b = false |- _ =>
      assert (b < a) by (apply Qnot_le_lt; intros F; apply Qle_bool_iff in F; congruence); clear H end; lra. }
  assert (R : rises ex_oracle 3 (whole l' l) (whole l l')).
  { unfold whole. apply r_max; try discriminate.
    - apply r_difference; try discriminate; apply r_part; exact P.
    - apply r_scaled; [apply r_part; exact P|discriminate]. }
  split; [exact R|]. split; [apply rises_above; [lia|exact R]|].
  do 3 eexists. split; [vm_compute; reflexivity|]. split; [vm_compute; reflexivity|]. discriminate.
Qed.
