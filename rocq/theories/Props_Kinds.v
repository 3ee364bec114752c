(** C107-C112: class tests, the correlation flag, [@] and [~], seeding, number names. *)
From Verif Require Import Base M_IntText SpecIntText P_IntText M_Weights M_Values M_Sampler M_Kinds SpecSampler SpecSampler2 SpecKinds
  P_Kinds P_Example.
From Coq Require Import Qabs.
Open Scope Q_scope.
Notation leaf_dist k := (ODist (DLeaf k None None)).

(** Exactly distributions, functions, and Python's own scalars are accepted. *)
Theorem C107_sampleable :
  forall T (a : anything T), is_sampleable a = true <->
  (exists v, a = APython v) \/ (exists x, a = AFloat64 x) \/ (exists f, a = AFunction f) \/ (exists d, a = ADist d).
Proof. exact @sampleable_iff. Qed.
Print Assumptions C107_sampleable.

Theorem C107_others_rejected :
  forall Or (a : anything (G Or)) n s, (1 <= n)%nat -> is_sampleable a = false ->
  sample_any Or a n s = (Err (ValueError "input to sample is malformed"), s).
Proof. exact unsampleable_raises. Qed.
Print Assumptions C107_others_rejected.

(** A single value samples to copies of itself without using the generator. *)
Theorem C107_value_samples_to_itself :
  forall Or (a : anything (G Or)) n s, (1 <= n)%nat -> one_value a -> is_sampleable a = true ->
  exists x, sample_any Or a n s = (Ok (finish_list Or (simplify (repeat x n))), s) /\
    (a = APython x \/ exists y, a = AFloat64 y /\ x = PFlt y).
Proof. exact one_value_sampled. Qed.
Print Assumptions C107_value_samples_to_itself.

(** Numpy's integers, bools and short floats are numbers too, but are rejected. *)
Theorem C107_every_number_sampleable_refuted :
  exists a : anything (G ex_oracle), one_value a /\ foreign_number a /\
    sample_any ex_oracle a 3 (ex_state 0) = (Err (ValueError "input to sample is malformed"), ex_state 0).
Proof. exists (ANpInt 3). repeat split. Qed.
Print Assumptions C107_every_number_sampleable_refuted.

Example C107_sat :
  fst (sample_any ex_oracle (AFloat64 (Fin (1#2))) 3 (ex_state 0)) = Ok (Arr (repeat (PFlt (Fin (1#2))) 3)) /\
  fst (sample_any ex_oracle (APython (PStr "a")) 1 (ex_state 0)) = Ok (Scalar (PStr "a")) /\
  fst (sample_any ex_oracle AContainer 1 (ex_state 0)) = Err (ValueError "input to sample is malformed") /\
  @one_value (G ex_oracle) (AFloat64 (Fin (1#2))).
Proof. repeat split. Qed.

(** A distribution counts as continuous iff everything it is made of is. *)
Theorem C108_continuous :
  forall T (o : obj T), is_continuous o = true <-> made_of_continuous o.
Proof. exact @continuous_iff. Qed.
Print Assumptions C108_continuous.

(** Continuous and built by arithmetic: every sample is a float. *)
Theorem C108_continuous_gives_floats :
  forall Or (o : obj (G Or)), is_continuous o = true -> arithmetic o ->
  forall n lc rc s v s', float_bound lc -> float_bound rc ->
  smp Or o n lc rc s = (Ok v, s') -> floats (elems v).
Proof. exact continuous_floats. Qed.
Print Assumptions C108_continuous_gives_floats.

(** A comparison of two continuous distributions counts as continuous although
    it only produces True and False. *)
Theorem C108_continuous_always_floats_refuted :
  exists (o : obj (G ex_oracle)) b, is_continuous o = true /\
    fst (smp ex_oracle o 1 None None (ex_state 0)) = Ok (Scalar (PBool b)).
Proof.
  exists (ODist (DComplex (leaf_dist (LNormal 0 (Some 1))) (leaf_dist (LUniform 0 1)) (FOp Gt))).
  eexists. split; [reflexivity|]. vm_compute. reflexivity.
Qed.
Print Assumptions C108_continuous_always_floats_refuted.

(** The negation and the shift of a continuous distribution do not count ... *)
Theorem C108_negation_and_shift_excluded :
  forall T k,
  @is_continuous T (ODist (DComplex (leaf_dist k) (OLit PNone) FNeg)) = false /\
  forall x, @is_continuous T (ODist (DComplex (leaf_dist k) (OLit x) (FOp Add))) = false.
Proof. intros T k. split; [|intros x]; cbn; apply andb_false_r. Qed.
Print Assumptions C108_negation_and_shift_excluded.

(** ... although they too only produce floats. *)
Theorem C108_float_distributions_refuted :
  exists o : obj (G ex_oracle), is_continuous o = false /\
    forall n s v s', smp ex_oracle o n None None s = (Ok v, s') -> floats (elems v).
Proof. exact negation_floats. Qed.
Print Assumptions C108_float_distributions_refuted.

Example C108_sat :
  let o := ODist (DMixture [1#2; 1#2] [leaf_dist (LUniform 0 1);
             ODist (DComplex (leaf_dist (LNormal 0 (Some 1))) (leaf_dist (LGamma 1 1)) (FOp Mul))] (Some (NF 0)) None) in
  @is_continuous (G ex_oracle) o = true /\ @arithmetic (G ex_oracle) o /\
  exists l, fst (smp ex_oracle o 2 None None (ex_state 0)) = Ok (Arr l).
Proof. repeat split. eexists. vm_compute. reflexivity. Qed.

(** The flag of a composite is set iff some part, at any depth, is correlated. *)
Theorem C109_flag_set :
  forall t, contains_correlated t = Some true <-> exists p, part_of p t /\ grouped_dist p.
Proof. exact correlated_flag_spec. Qed.
Print Assumptions C109_flag_set.

(** Otherwise it keeps its initial value None (it is never set to False). *)
Theorem C109_flag_unset :
  forall t, contains_correlated t = None <-> ~ exists p, part_of p t /\ grouped_dist p.
Proof. exact correlated_flag_none_spec. Qed.
Print Assumptions C109_flag_unset.

Example C109_sat :
  contains_correlated (TComposite false [TOther; TComposite false [TSimple false; TSimple true]]) = Some true /\
  contains_correlated (TComposite true [TSimple false; TOther]) = None.
Proof. split; reflexivity. Qed.

(** [d @ n] returns int(n) samples, whatever [n] was given as. *)
Theorem C110_matmul_count :
  forall Or, right_length Or -> forall d, covered_dist d -> forall n k s v s',
  int_of n = Ok k -> matmul Or d n s = (Ok v, s') -> (1 <= k)%Z /\ n_samples (Z.to_nat k) v.
Proof. exact matmul_count. Qed.
Print Assumptions C110_matmul_count.

Theorem C110_matmul_is_sample :
  forall Or d n k s, int_of n = Ok k -> (1 <= k)%Z ->
  matmul Or d n s = smp Or (ODist d) (Z.to_nat k) None None s.
Proof. exact matmul_is_sample. Qed.
Print Assumptions C110_matmul_is_sample.

Theorem C110_matmul_too_few :
  forall Or d n k s, int_of n = Ok k -> (k <= 0)%Z ->
  matmul Or d n s = (Err (ValueError "n must be >= 1"), s).
Proof. exact matmul_too_few. Qed.
Print Assumptions C110_matmul_too_few.

(** [~d] is one sample, the same as [d @ 1]. *)
Theorem C110_invert_is_one :
  forall Or d s, invert Or d s = smp Or (ODist d) 1 None None s /\ invert Or d s = matmul Or d (PInt 1) s.
Proof. intros Or d s. split; [reflexivity|exact (invert_one Or d s)]. Qed.
Print Assumptions C110_invert_is_one.

(** Fractions are cut off towards zero, not rounded. *)
Theorem C110_fraction_cut :
  forall q k, int_of (PFlt (Fin q)) = Ok k -> (Z.abs k = Qfloor (Qabs.Qabs q))%Z /\ 0 <= q * inject_Z k.
Proof. exact fraction_cut. Qed.
Print Assumptions C110_fraction_cut.

Theorem C110_invert_is_one_sample :
  forall Or d s, invert Or d s = matmul Or d (PInt 1) s /\ invert Or d s = smp Or (ODist d) 1 None None s.
Proof. intros Or d s. split; reflexivity. Qed.
Print Assumptions C110_invert_is_one_sample.

(** Texts count as the integers they denote. *)
Theorem C110_text_counts :
  forall s, ascii_text s ->
  (forall k, int_of (PStr s) = Ok k <-> denotes s k) /\
  ((forall k, ~ denotes s k) -> forall Or d st,
     matmul Or d (PStr s) st = (Err (ValueError "number of samples must be an integer"), st)).
Proof.
  intros s A. split; [intros k; exact (int_text_iff s k A)|]. intros N Or d st.
  unfold matmul. cbn [int_of]. rewrite int_text_fails by assumption. reflexivity.
Qed.
Print Assumptions C110_text_counts.
Example C110_text_sat : int_of (PStr " +1_000 ") = Ok 1000%Z /\ int_of (PStr "-07") = Ok (-7)%Z /\ ascii_text "2.5" /\
  int_of (PStr "2.5") = Err (ValueError "number of samples must be an integer").
Proof. repeat split; try reflexivity. repeat constructor. Qed.

(** How each kind of bad count is reported. *)
Theorem C110_bad_counts :
  forall Or d s,
  matmul Or d (PFlt NaN) s = (Err (ValueError "number of samples must be an integer"), s) /\
  matmul Or d (PFlt PInf) s = (Err OverflowError, s) /\ matmul Or d (PFlt NInf) s = (Err OverflowError, s) /\
  matmul Or d PNone s = (Err TypeError, s).
Proof. intros Or d s. repeat split. Qed.
Print Assumptions C110_bad_counts.

(** Not every bad count is reported as "number of samples must be an integer". *)
Theorem C110_bad_count_message_refuted :
  exists n, (forall k, int_of n <> Ok k) /\
    fst (matmul ex_oracle (DLeaf LCoin None None) n (ex_state 0)) <>
    Err (ValueError "number of samples must be an integer").
Proof. exists PNone. split; [discriminate|]. vm_compute. discriminate. Qed.
Print Assumptions C110_bad_count_message_refuted.

Example C110_sat :
  right_length ex_oracle /\ @covered_dist (G ex_oracle) (DLeaf LCoin None None) /\
  int_of (PFlt (Fin (27#10))) = Ok 2%Z /\ int_of (PFlt (Fin (-(27#10)))) = Ok (-2)%Z /\
  exists a b, fst (matmul ex_oracle (DLeaf LCoin None None) (PFlt (Fin (27#10))) (ex_state 0)) = Ok (Arr [a; b]).
Proof. repeat split; try apply ex_right_length. eexists; eexists. vm_compute. reflexivity. Qed.

(** After [set_seed z] sampling depends on [z] only. *)
Theorem C111_seed_reproducible :
  forall Or (seeded : Z -> G Or) o n lc rc z s1 s2, self_contained o ->
  let r1 := smp Or o n lc rc (set_seed seeded z s1) in
  let r2 := smp Or o n lc rc (set_seed seeded z s2) in
  fst r1 = fst r2 /\ rng (snd r1) = rng (snd r2).
Proof. exact seed_self_contained. Qed.
Print Assumptions C111_seed_reproducible.

(** It is sampling with the generator [np.random.default_rng(z)] ... *)
Theorem C111_seed_generator :
  forall Or (seeded : Z -> G Or) o n lc rc z s s0, self_contained o -> rng s0 = seeded z ->
  let r := smp Or o n lc rc (set_seed seeded z s) in let r0 := smp Or o n lc rc s0 in
  fst r = fst r0 /\ rng (snd r) = rng (snd r0).
Proof. exact seed_generator. Qed.
Print Assumptions C111_seed_generator.

(** ... for correlated distributions too, if the same samples are pending. *)
Theorem C111_seed_same_pending :
  forall Or (seeded : Z -> G Or) o n lc rc z s1 s2, corr s1 = corr s2 ->
  smp Or o n lc rc (set_seed seeded z s1) = smp Or o n lc rc (set_seed seeded z s2).
Proof. intros Or seeded o n lc rc z s1 s2 H. unfold set_seed. now rewrite H. Qed.
Print Assumptions C111_seed_same_pending.

(** Seeding does not forget pending correlated samples, so a seeded run can
    differ from the same run in a fresh process. *)
Theorem C111_seed_correlated_refuted :
  exists (o : obj (G ex_oracle)) n s0 v,
    fst (smp ex_oracle o n None None (set_seed Z.to_nat 7 (ex_state 0))) = Ok v /\
    (exists other, s0 = snd (smp ex_oracle other n None None (ex_state 0))) /\
    fst (smp ex_oracle o n None None (set_seed Z.to_nat 7 s0)) <> Ok v.
Proof. exact seed_pending. Qed.
Print Assumptions C111_seed_correlated_refuted.

Example C111_sat :
  let o := leaf_dist (LUniform 0 1) in
  @self_contained (G ex_oracle) o /\
  fst (smp ex_oracle o 2 None None (set_seed Z.to_nat 0 (ex_state 5))) <>
  fst (smp ex_oracle o 2 None None (set_seed Z.to_nat 1 (ex_state 5))).
Proof. split; [exact I|]. vm_compute. discriminate. Qed.

(** The i-th named number is 1000^(i+1). *)
Theorem C112_named_numbers :
  forall i, (i < length named_numbers)%nat ->
  nth i named_numbers 0%Z = (1000 ^ Z.of_nat (i + 1))%Z.
Proof. exact named_powers. Qed.
Print Assumptions C112_named_numbers.

Theorem C112_letters : (K = 1000 /\ M_ = 1000 * K /\ B = 1000 * M_ /\ T_ = 1000 * B)%Z.
Proof. repeat split. Qed.
Print Assumptions C112_letters.

Example C112_sat : nth 10 named_numbers 0%Z = decillion /\ length named_numbers = 11%nat.
Proof. split; reflexivity. Qed.
