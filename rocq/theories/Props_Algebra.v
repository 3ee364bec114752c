(** C196: which laws of arithmetic hold for distributions. *)
From Coq Require Import Qabs Lia Lqa Permutation.
From Verif Require Import Base M_Weights M_Values M_Sampler M_Ops M_SampleApi M_Bayesnet SpecSampler SpecWeights SpecOps SpecBayes SpecShare P_Program P_Program2 P_Indep P_Columns2 P_Algebra Props_Program Props_Large Props_Indep Props_Columns.
From Verif Require Import SpecProgram SpecLarge SpecIndep SpecColumns SpecAlgebra.
Open Scope Q_scope.

(** Expressions with the same law give lists of samples with the same properties equally often. *)
Theorem C196_samples :
  forall Or N ahead, (0 < N)%nat -> right_length Or -> reads_all Or N ahead ->
  forall a b n P sa sb, same_law a b -> sound a -> sound b -> (1 <= n)%nat -> of_number_lists P ->
  each_once N (n * work a) (map (coming Or ahead (n * work a)) sa) -> each_once N (n * work b) (map (coming Or ahead (n * work b)) sb) ->
  Qabs (qnat (count (samples_in Or (obj_of a) n P) sa) / qnat (N ^ (n * work a)) - qnat (count (samples_in Or (obj_of b) n P) sb) / qnat (N ^ (n * work b))) <=
    (qnat (n * spread a) + qnat (n * spread b)) / qnat N.
Proof. exact @same_samples. Qed.
Print Assumptions C196_samples.
(** Parts may be replaced by parts with the same law. *)
Theorem C196_congruence :
  (forall o a a' b b', same_law a a' -> same_law b b' -> same_law (XOp o a b) (XOp o a' b')) /\
  (forall l l', Forall2 (fun e e' => fst e == fst e' /\ same_law (snd e) (snd e')) l l' -> same_law (XMix l) (XMix l')) /\
  (forall a, same_law a a) /\ (forall a b, same_law a b -> same_law b a) /\ (forall a b c, same_law a b -> same_law b c -> same_law a c).
Proof. exact (conj same_op (conj same_mix (conj same_refl (conj same_sym same_trans)))). Qed.
Print Assumptions C196_congruence.
(** [+], [*], [dist_max] and [dist_min] may be reordered and regrouped. *)
Theorem C196_reorder :
  forall o a b c, o <> BDiff -> same_law (XOp o a b) (XOp o b a) /\ same_law (XOp o (XOp o a b) c) (XOp o a (XOp o b c)).
Proof. exact (fun o a b c H => conj (op_comm o a b H) (op_assoc o a b c H)). Qed.
Print Assumptions C196_reorder.
(** Numbers: [0 + d], [1 * d] and [d - 0] are [d], [0 * d] is 0, [a - b] is [a + -1 * b], numbers
    are computed with as numbers and may be multiplied out. *)
Theorem C196_numbers :
  (forall a, same_law (XOp BSum (XNum 0) a) a /\ same_law (XOp BProd (XNum 1) a) a /\ same_law (XOp BDiff a (XNum 0)) a) /\
  (forall a, sound a -> same_law (XOp BProd (XNum 0) a) (XNum 0)) /\
  (forall o x y, same_law (XOp o (XNum x) (XNum y)) (XNum (exact o x y))) /\
  (forall a b, same_law (XOp BDiff a b) (XOp BSum a (XOp BProd (XNum (-(1))) b))) /\
  (forall x a b, same_law (XOp BProd (XNum x) (XOp BSum a b)) (XOp BSum (XOp BProd (XNum x) a) (XOp BProd (XNum x) b)) /\
     same_law (XOp BProd (XNum x) (XOp BDiff a b)) (XOp BDiff (XOp BProd (XNum x) a) (XOp BProd (XNum x) b))).
Proof. exact (conj op_units (conj op_zero (conj op_numbers (conj op_difference op_factor)))). Qed.
Print Assumptions C196_numbers.
(** Operators go through mixtures, mixtures in mixtures can be flattened, the order of the parts
    does not matter, and a mixture of parts with one law has that law. *)
Theorem C196_mixtures :
  (forall o l b, same_law (XOp o (XMix l) b) (XMix (each_with o l b))) /\
  (forall w l l', same_law (XMix ((w, XMix l) :: l')) (XMix (each_scaled w l ++ l'))) /\
  (forall l l', Permutation l l' -> same_law (XMix l) (XMix l')) /\
  (forall l a, total (map fst l) == 1 -> (forall e, In e l -> same_law (snd e) a) -> same_law (XMix l) a).
Proof. exact (conj mix_op (conj mix_nested (conj mix_order mix_same))). Qed.
Print Assumptions C196_mixtures.
(** The larger and the smaller of two draws add up on average. *)
Theorem C196_max_min :
  forall a b, sound a -> sound b -> expected (XOp BMax a b) + expected (XOp BMin a b) == expected a + expected b.
Proof. exact max_min. Qed.
Print Assumptions C196_max_min.
(** But a distribution that occurs twice is drawn twice: products cannot be multiplied out, [d + d]
    is not [2 * d], [d - d] is not 0, and the larger of [d] and [d] is not [d]. *)
Theorem C196_not_distributive :
  exists a b c, sound a /\ sound b /\ sound c /\ ~ same_law (XOp BProd a (XOp BSum b c)) (XOp BSum (XOp BProd a b) (XOp BProd a c)).
Proof. exact no_distribution. Qed.
Print Assumptions C196_not_distributive.
Theorem C196_drawn_twice :
  exists a, sound a /\ ~ same_law (XOp BSum a a) (XOp BProd (XNum 2) a) /\ ~ same_law (XOp BDiff a a) (XNum 0) /\ ~ same_law (XOp BMax a a) a /\ ~ same_law (XOp BMin a a) a.
Proof. exact no_doubling. Qed.
Print Assumptions C196_drawn_twice.

(** [10 * sq.die(4)] and [sq.die(4) * 10]: two samples rise equally often. *)
Example C196_sat :
  let a := XOp BProd (XNum 10) die4 in let b := XOp BProd die4 (XNum 10) in
  same_law a b /\ sound a /\ sound b /\ of_number_lists rising2 /\ (2 * work a = 2)%nat /\ (2 * work b = 2)%nat /\
  each_once 20 2 (map (coming pair_oracle pair_ahead 2) (map pair_state (seq 0 400))) /\
  count (samples_in pair_oracle (obj_of a) 2 rising2) (map pair_state (seq 0 400)) = 150%nat /\
  count (samples_in pair_oracle (obj_of b) 2 rising2) (map pair_state (seq 0 400)) = 150%nat.
Proof.
  cbv zeta. pose proof C193_sat as (_ & _ & S & R & _ & E & _ & A & _). split; [apply op_comm; discriminate|]. split; [exact S|]. split; [split; [apply S|exact I]|].
  split; [exact R|]. split; [reflexivity|]. split; [reflexivity|]. split; [exact E|]. split; [exact A|]. vm_compute. reflexivity.
Qed.
Example C196_mixtures_sat :
  same_law (XMix [(1#2, die4); (1#2, die4)]) die4 /\ total (map fst [(1#2, die4); (1#2, die4)]) == 1 /\
  expected (XOp BMax die4 die4) == 25#8 /\ expected (XOp BMin die4 die4) == 15#8.
Proof.
  split; [apply mix_same; [reflexivity|]; intros e [<-|[<-|[]]]; apply same_refl|]. split; [reflexivity|]. split; vm_compute; reflexivity.
Qed.
