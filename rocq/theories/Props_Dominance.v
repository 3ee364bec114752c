(** C179: everywhere larger discrete distributions have larger samples. *)
From Coq Require Import Sorted Lqa.
From Verif Require Import Base M_Weights M_Values M_Sampler SpecWeights SpecSampler SpecMixture SpecDiscrete SpecDominance
  P_Dominance P_Example.
Open Scope Q_scope.

(* ---------------------------------------------------------------- C179 *)
(** From the same state of the generator, moving weight to larger numbers, raising numbers or
    adding larger ones lowers none of the samples, if the numbers are listed in rising order;
    the generator is left in the same state. *)
Theorem C179_larger :
  forall Or, right_length Or -> forall l l' n s v v' s1 s2, acceptable l -> acceptable l' -> ascending l -> ascending l' ->
  dominated l l' -> (1 <= n)%nat ->
  smp Or (ODist (DLeaf (written l) None None)) n None None s = (Ok v, s1) ->
  smp Or (ODist (DLeaf (written l') None None)) n None None s = (Ok v', s2) ->
  samples_le v v' /\ s1 = s2.
Proof. exact dominance. Qed.
Print Assumptions C179_larger.
(** Numbers that are raised one by one, keeping their weights, are such a case. *)
Theorem C179_raised :
  forall l l', nonneg (map fst l) -> Forall2 (fun e e' => fst e = fst e' /\ worth e <= worth e') l l' -> dominated l l'.
Proof. exact raised_dominated. Qed.
Print Assumptions C179_raised.
(** So is weight moved from one number to a larger one. *)
Theorem C179_moved :
  forall a b c w w' x y d, 0 <= d -> num_q x <= num_q y ->
  dominated (a ++ (w, x) :: b ++ (w', y) :: c) (a ++ (w - d, x) :: b ++ (w' + d, y) :: c).
Proof. exact moved_dominated. Qed.
Print Assumptions C179_moved.
Example C179_sat :
  let l := [(1#2, NI 1); (1#4, NF (3#2)); (1#4, NI 7)] in
  let l' := [(1#4, NI 1); (3#4, NI 8)] in
  right_length ex_oracle /\
  (exists v v' s, smp ex_oracle (ODist (DLeaf (written l) None None)) 3 None None (ex_state 0) = (Ok v, s) /\
     smp ex_oracle (ODist (DLeaf (written l') None None)) 3 None None (ex_state 0) = (Ok v', s) /\ v <> v') /\
  acceptable l /\ acceptable l' /\ ascending l /\ ascending l' /\ dominated l l' /\
  (* in another order the numbers can be the same and a sample smaller *)
  (let m := [(1#2, NI 7); (1#2, NI 1)] in let m' := [(1#2, NI 1); (1#2, NI 7)] in dominated m m' /\ dominated m' m /\ ~ ascending m).
Proof.
  cbv zeta. split; [exact ex_right_length|]. split.
  { do 3 eexists. split; [vm_compute; reflexivity|]. split; [vm_compute; reflexivity|]. discriminate. }
  split; [|split; [|split; [|split; [|split]]]].
  - split; [repeat constructor; discriminate|]. split; [reflexivity|]. split; [reflexivity|].
    exists (1#2, NI 1), (1#4, NF (3#2)), [], [], [(1#4, NI 7)]. repeat split.
  - split; [repeat constructor; discriminate|]. split; [reflexivity|]. split; [reflexivity|].
    exists (1#4, NI 1), (3#4, NI 8), [], [], []. repeat split.
  - repeat constructor; discriminate.
  - repeat constructor; discriminate.
  - split; [reflexivity|]. intros x. unfold weight_upto, worth. cbn [filter snd num_q]. change (inject_Z 1) with 1. change (inject_Z 7) with 7. change (inject_Z 8) with 8.
    destruct (Qle_bool 1 x) eqn:A, (Qle_bool (3#2) x) eqn:B, (Qle_bool 7 x) eqn:C, (Qle_bool 8 x) eqn:D; cbn [map total fst]; try discriminate;
    repeat match goal with H : Qle_bool _ _ = true |- _ => apply Qle_bool_iff in H | H : Qle_bool ?a ?b = false |- _ =>
      assert (b < a) by (apply Qnot_le_lt; intros F; apply Qle_bool_iff in F; congruence); clear H end; lra.
  - split; [|split].
    + split; [reflexivity|]. intros x. unfold weight_upto, worth. cbn [filter snd num_q]. destruct (Qle_bool (inject_Z 1) x), (Qle_bool (inject_Z 7) x); cbn [map total fst]; lra.
    + split; [reflexivity|]. intros x. unfold weight_upto, worth. cbn [filter snd num_q]. destruct (Qle_bool (inject_Z 1) x), (Qle_bool (inject_Z 7) x); cbn [map total fst]; lra.
    + intros H. inversion H as [|? ? _ F]; subst. inversion F as [|? ? G _]; subst. unfold worth in G. cbn in G. now apply G.
Qed.
