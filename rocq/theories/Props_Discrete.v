(** C99: a discrete distribution returns each value with its probability. *)
From Verif Require Import Base M_Weights SpecWeights M_Values M_Sampler SpecSampler SpecMixture SpecDiscrete
  P_Discrete P_Discrete2 P_Example.
Open Scope Q_scope.

(** Each of the n values is the one selected by its own uniform draw. *)
Theorem C99_discrete_values :
  forall Or, right_length Or -> forall k ws its n s v s',
  (exists items, k = LCatList items /\ cat_list items = Ok (ws, its)) \/
  (exists items, k = LCatDict items /\ cat_dict items = Ok (ws, its)) ->
  (1 <= n)%nat -> (2 <= length its)%nat ->
  (smp Or (ODist (DLeaf k None None)) n None None s = (Ok v, s') <->
   exists us xs, uniform_draws Or n s us s' /\ Forall2 (selects n ws its) us xs /\
     v = simplify (np_array (fmt Or) xs)).
Proof. exact discrete_values. Qed.
Print Assumptions C99_discrete_values.

(** A single possible value needs no draw. *)
Theorem C99_single_value :
  forall Or k ws it n s,
  (exists items, k = LCatList items /\ cat_list items = Ok (ws, [it])) \/
  (exists items, k = LCatDict items /\ cat_dict items = Ok (ws, [it])) ->
  (1 <= n)%nat ->
  smp Or (ODist (DLeaf k None None)) n None None s = (Ok (simplify (repeat (item_pv it) n)), s).
Proof. exact discrete_single. Qed.
Print Assumptions C99_single_value.

(** Explicit probabilities, as pairs or as a dict, are used as given: every value
    keeps the weight written next to it and values of weight 0 disappear. *)
Theorem C99_weights_stay_with_values :
  forall l : list (Q * pv), l <> [] -> nonneg (map fst l) -> 99#100 < total (map fst l) -> total (map fst l) < 101#100 ->
  let kept := filter (fun e => Qlt_bool 0 (fst e)) l in
  let r := Ok (map fst kept, map (fun e => IPlain (snd e)) kept) in
  cat_list (map (fun e => IPair (Num (fst e)) (snd e)) l) = r /\
  cat_dict (map (fun e => (snd e, Num (fst e))) l) = r.
Proof. intros l A B C D. split; [now apply pairs_processed|now apply dict_processed]. Qed.
Print Assumptions C99_weights_stay_with_values.

(** A plain list: each value with its share of the list. *)
Theorem C99_plain_values :
  forall vs, vs <> [] ->
  exists ws its, cat_list (map IPlain vs) = Ok (ws, its) /\ length ws = length its /\ positive ws /\
    (forall x, mass item_eqb (IPlain x) ws its ==
      inject_Z (Z.of_nat (occurrences pv_eqb x vs)) / inject_Z (Z.of_nat (length vs))) /\
    ((100 <= length vs)%nat -> ForallOrdPairs (fun a b => item_eqb a b = false) its) /\
    ((length vs < 100)%nat -> its = map IPlain vs).
Proof. exact plain_values. Qed.
Print Assumptions C99_plain_values.
(** Values are the same if they are the same number or the same text. *)
(** Several samples always have one type: texts if there is a text, else floats if there is a
    float, else ints if there is an int. *)
Theorem C99_samples_have_one_type :
  forall f l, ~ In PNone l -> one_type (np_array f l) /\
  (existsb is_str l = false -> existsb is_flt l = false -> existsb is_int l = true ->
   Forall (fun v => exists z, v = PInt z) (np_array f l)) /\
  (existsb is_str l = false -> existsb is_flt l = true -> Forall (fun v => exists x, v = PFlt x) (np_array f l)).
Proof. exact np_array_one_type. Qed.
Print Assumptions C99_samples_have_one_type.
Theorem C99_same_value :
  forall a b, pv_eqb a b = true <-> same_number a b /\ as_x a <> Some NaN.
Proof. exact pv_eqb_spec. Qed.
Print Assumptions C99_same_value.

Example C99_sat :
  right_length ex_oracle /\
  cat_list [IPair (Num (1#4)) (PInt 10); IPair (Num 0) (PInt 15); IPair (Num (3#4)) (PInt 20)] =
    Ok ([1#4; 3#4], [IPlain (PInt 10); IPlain (PInt 20)]) /\
  cat_dict [(PInt 10, Num 1)] = Ok ([1], [IPlain (PInt 10)]) /\
  falls [1#4; 3#4] (1#5) 0 /\ falls [1#4; 3#4] (1#2) 1 /\
  (exists v s', smp ex_oracle (ODist (DLeaf (LCatList [IPair (Num (1#4)) (PInt 10); IPair (Num (3#4)) (PInt 20)]) None None))
     3 None None (ex_state 0) = (Ok v, s')).
Proof.
  split; [exact ex_right_length|]. split; [vm_compute; reflexivity|]. split; [vm_compute; reflexivity|].
  split; [|split].
  - unfold falls; repeat split; simpl; auto. right. vm_compute. discriminate.
  - unfold falls; repeat split; simpl; auto. right. vm_compute. reflexivity.
  - do 2 eexists. vm_compute. reflexivity.
Qed.

(** C114: the samples of a discrete distribution are values it lists: for a
    single sample always, for an array if the values have one type ... *)
Theorem C114_samples_are_listed :
  forall Or, right_length Or -> forall k n s v s',
  (exists items, k = LCatList items) \/ (exists items, k = LCatDict items) ->
  n = 1%nat \/ one_type (listed k) ->
  smp Or (ODist (DLeaf k None None)) n None None s = (Ok v, s') ->
  Forall (fun x => In x (listed k)) (elems v).
Proof. exact discrete_one_type. Qed.
Print Assumptions C114_samples_are_listed.

(** ... and up to int/float conversion if all values are numbers. *)
Theorem C114_numbers_are_listed :
  forall Or, right_length Or -> forall k n s v s',
  (exists items, k = LCatList items) \/ (exists items, k = LCatDict items) ->
  all_numbers (listed k) ->
  smp Or (ODist (DLeaf k None None)) n None None s = (Ok v, s') ->
  Forall (fun x => exists y, In y (listed k) /\ same_number y x) (elems v).
Proof. exact discrete_numbers. Qed.
Print Assumptions C114_numbers_are_listed.

(** With numbers and texts together the numbers come back as texts. *)
Theorem C114_mixed_types_refuted :
  exists items n v x, fst (smp ex_oracle (ODist (DLeaf (LCatList items) None None)) n None None (ex_state 0)) = Ok v /\
    In x (elems v) /\ forall y, In y (listed (LCatList items)) -> ~ same_number y x.
Proof.
  exists [IPlain (PInt 1); IPlain (PStr "a")], 3%nat. do 2 eexists.
  split; [vm_compute; reflexivity|]. split; [left; reflexivity|].
  intros y [<-|[<-|[]]] H; vm_compute in H; [destruct H|discriminate].
Qed.
Print Assumptions C114_mixed_types_refuted.

Example C114_sat :
  let k := LCatList [IPair (Num (1#4)) (PStr "x"); IPair (Num (3#4)) (PStr "y")] in
  one_type (listed k) /\ all_numbers (listed (LCatList [IPlain (PInt 1); IPlain (PFlt (Fin (1#2)))])) /\
  exists v s', smp ex_oracle (ODist (DLeaf k None None)) 3 None None (ex_state 0) = (Ok v, s').
Proof.
  split; [left; repeat (apply Forall_cons; [eexists; reflexivity|]); constructor|].
  split; [repeat (apply Forall_cons; [eexists; reflexivity|]); constructor|].
  do 2 eexists. vm_compute. reflexivity.
Qed.
