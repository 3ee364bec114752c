(** C186: mixtures of larger parts have larger samples. *)
From Coq Require Import Lqa.
From Verif Require Import Base M_Values M_Sampler M_Ops SpecWeights SpecSampler SpecOps SpecMixture SpecRising SpecStandard
  P_RisingMix P_Standard.
Open Scope Q_scope.

(* ---------------------------------------------------------------- C186 *)
(** Raising the components of a mixture and keeping their weights lowers no sample, in small and
    in large samples; the generator is left in the same state. *)
Theorem C186_mixture :
  forall Or ws ds ds' n, right_length Or -> (1 <= n)%nat -> ready ws ds -> ready ws ds' ->
  Forall2 (never_above Or 1) ds ds' -> Forall2 (never_above Or n) ds ds' ->
  never_above Or n (ODist (DMixture ws ds None None)) (ODist (DMixture ws ds' None None)).
Proof. exact mixture_rises. Qed.
Print Assumptions C186_mixture.
Example C186_sat :
  let mix := fun d => ODist (DMixture [1#4; 3#4] [OLit (PInt 0); plain_leaf std_oracle d] None None) in
  let d := LUniform 1 2 in let d' := LUniform 2 4 in
  right_length std_oracle /\
  ready [1#4; 3#4] [OLit (PInt 0); plain_leaf std_oracle d] /\
  Forall2 (never_above std_oracle 2) [OLit (PInt 0); plain_leaf std_oracle d] [OLit (PInt 0); plain_leaf std_oracle d'] /\
  never_above std_oracle 2 (mix d) (mix d') /\
  exists v v' s, smp std_oracle (mix d) 2 None None (std_state 0) = (Ok v, s) /\ smp std_oracle (mix d') 2 None None (std_state 0) = (Ok v', s) /\ v <> v'.
Proof.
  intros mix d d'.
  assert (R : forall x, ready [1#4; 3#4] [OLit (PInt 0); plain_leaf std_oracle x]).
  { intros x. split; [reflexivity|]. split; [repeat constructor|]. split; reflexivity. }
  assert (F : forall n, (1 <= n)%nat -> Forall2 (never_above std_oracle n) [OLit (PInt 0); plain_leaf std_oracle d] [OLit (PInt 0); plain_leaf std_oracle d']).
  { intros n Hn. constructor; [apply (P_Rising.number_self std_oracle n (NI 0) Hn)|]. constructor; [|constructor].
    apply (uniform_rise std_oracle std_length std_standard std_support); auto; discriminate. }
  split; [exact std_length|]. split; [apply R|]. split; [apply F; lia|]. split.
  - apply mixture_rises; auto using std_length.
  - do 3 eexists. split; [vm_compute; reflexivity|]. split; [vm_compute; reflexivity|]. discriminate.
Qed.
