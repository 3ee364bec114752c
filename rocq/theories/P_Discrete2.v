(** Samples of a discrete distribution are listed values (C114). *)
From Verif Require Import Base M_Weights SpecWeights P_Weights P_Weights2 M_Pick P_Pick M_Values M_Sampler M_Ops
  SpecSampler SpecSampler2 SpecOps SpecMixture SpecDiscrete P_Sampler P_Count P_Clip P_Ops P_Sampler2 P_Support P_Pure P_Mixture P_Ctor P_Discrete.
From Coq Require Import Lqa.
Open Scope Q_scope.

Lemma counter_add_in {A} (eqb : A -> A -> bool) x c y n :
  In (y, n) (counter_add eqb x c) -> y = x \/ exists m, In (y, m) c.
Proof.
  induction c as [|[z m] c IH]; simpl.
  - intros [H|[]]. inversion H; auto.
  - destruct (eqb z x).
    + intros [H|H]; [inversion H; subst; eauto|eauto].
    + intros [H|H]; [inversion H; subst; eauto|]. apply IH in H as [->|(k & H)]; eauto.
Qed.
Lemma counter_in {A} (eqb : A -> A -> bool) l y n : In (y, n) (counter eqb l) -> In y l.
Proof.
  unfold counter.
  enough (K : forall c, In (y, n) (fold_left (fun c x => counter_add eqb x c) l c) -> In y l \/ exists m, In (y, m) c).
  { intros H. apply K in H as [H|(m & [])]; auto. }
  induction l as [|x l IH]; simpl; intros c H; [eauto|].
  apply IH in H as [H|(m & H)]; auto. apply counter_add_in in H as [->|H]; auto.
Qed.
Lemma given_in {A} (as_pair : A -> option (cell * A)) na drop (v : varg A) k gw vals (f : A -> pv) :
  given as_pair na drop WNone WNone v k gw vals ->
  (forall x w y, as_pair x = Some (w, y) -> f y = f x) ->
  forall x, In x vals -> exists y, f y = f x /\
    match v with
    | VList l | VArray l | VSeries l | VTuple l => In y l
    | VDict l => In y (map fst l)
    | _ => False
    end.
Proof.
  intros G Hf x Hx. inversion G; subst.
  - exists x. split; auto. unfold kept in Hx. inversion H; subst; destruct drop; auto; apply filter_In in Hx; tauto.
  - assert (K : exists y, f y = f x /\ In y l).
    { clear -H0 H1 Hf Hx. revert gw vals H0 H1 Hx. induction l as [|e l IH]; intros gw vals F L Hx.
      - inversion F. destruct vals; [destruct Hx|]. destruct gw; discriminate.
      - destruct gw as [|w gw], vals as [|z vals]; try discriminate; [inversion F|]. inversion F; subst. simpl in *.
        destruct Hx as [->|Hx].
        + exists e. split; auto. symmetry. eapply Hf; eassumption.
        + destruct (IH gw vals) as (y & E & I); auto. exists y; auto. }
    destruct K as (y & E & I). exists y. split; auto. inversion H; subst; auto.
  - exists x. split; auto. rewrite map_map. simpl. exact Hx.
  - inversion H.
  - inversion H.
Qed.
Lemma usable_in {A} (as_pair : A -> option (cell * A)) na (v : varg A) ws vs aft (f : A -> pv) :
  pwv as_pair na WNone WNone v false = (Ok (ws, vs), aft) ->
  (forall x w y, as_pair x = Some (w, y) -> f y = f x) ->
  forall x, In x vs -> exists y, f y = f x /\
    match v with
    | VList l | VArray l | VSeries l | VTuple l => In y l
    | VDict l => In y (map fst l)
    | _ => False
    end.
Proof.
  intros E Hf x Hx.
  destruct (pwv_usable _ _ _ _ _ _ _ _ _ E no_weight_vector) as (k & gw & vals & fw & Hg & _ & [Hl Hc] & _).
  eapply given_in; [exact Hg|exact Hf|].
  apply (In_nth _ _ x) in Hx as (i & Hi & <-).
  assert (In (nth i ws 0, nth i vs x) (combine ws vs)) as K.
  { rewrite <- combine_nth by assumption. apply nth_In. rewrite combine_length. lia. }
  rewrite Hc in K. apply filter_In in K as [K _]. now apply in_combine_r in K.
Qed.
Lemma item_pair_pv x w y : item_pair x = Some (w, y) -> item_pv y = item_pv x.
Proof. destruct x; simpl; [discriminate|]. intros H. inversion H. reflexivity. Qed.
Lemma cat_list_in items ws its : cat_list items = Ok (ws, its) -> forall it, In it its -> In (item_pv it) (map item_pv items).
Proof.
  unfold cat_list, pdwv. intros H it Hit.
  destruct (pwv item_pair _ _ _ _ _) as [r aft] eqn:E. cbn in H. subst r.
  destruct (usable_in _ _ _ _ _ _ item_pv E item_pair_pv it Hit) as (y & Ey & K).
  rewrite <- Ey. apply in_map. destruct (compresses _ _ _); auto.
  unfold compress in K. rewrite map_map in K. apply in_map_iff in K as ([z n] & <- & K). simpl.
  eapply counter_in; eassumption.
Qed.
Lemma cat_dict_in items ws its : cat_dict items = Ok (ws, its) -> forall it, In it its -> In (item_pv it) (map fst items).
Proof.
  unfold cat_dict. intros H it Hit.
  destruct (pwv item_pair _ _ _ _ _) as [r aft] eqn:E. cbn in H. subst r.
  destruct (usable_in _ _ _ _ _ _ item_pv E item_pair_pv it Hit) as (y & Ey & K).
  rewrite <- Ey. rewrite map_map in K. simpl in K. apply in_map_iff in K as (e & <- & K). simpl. now apply in_map.
Qed.

Section Listed.
  Variable Or : oracle.
  Hypothesis RL : right_length Or.

  (** What is sampled, before numpy makes an array of it. *)
  Lemma discrete_raw k n s v s' : (exists items, k = LCatList items) \/ (exists items, k = LCatDict items) ->
    smp Or (ODist (DLeaf k None None)) n None None s = (Ok v, s') ->
    exists xs, length xs = n /\ Forall (fun x => In x (listed k)) xs /\ v = simplify (np_array (fmt Or) xs).
  Proof.
    intros K H. pose proof (sample_needs_n _ _ _ _ _ _ _ _ H) as N.
    assert (R : exists ws its, ((exists items, k = LCatList items /\ cat_list items = Ok (ws, its)) \/
                               (exists items, k = LCatDict items /\ cat_dict items = Ok (ws, its))) /\
                 (forall it, In it its -> In (item_pv it) (listed k)) /\ ready ws its).
    { rewrite smp_odist, smp_leaf, wrap_none in H by auto. apply bindS_ok in H as (a & s1 & H & _).
      destruct K as [(items & ->)|(items & ->)]; cbn [leaf_sample] in H; unfold discrete_sample in H;
        apply bindS_ok in H as ([ws its] & s2 & H & _); apply lift_ok in H as [H _]; exists ws, its.
      - split; [left; eauto|]. split; [exact (cat_list_in _ _ _ H)|eapply cat_list_ready; eauto].
      - split; [right; eauto|]. split; [exact (cat_dict_in _ _ _ H)|eapply cat_dict_ready; eauto]. }
    destruct R as (ws & its & R & I & Rdy). destruct its as [|it [|it2 its]].
    - exfalso. destruct Rdy as (L & P & T). destruct ws; [|discriminate]. simpl in T. destruct T. lra.
    - rewrite (discrete_single Or k ws it n s R N) in H. inversion H; subst.
      exists (repeat (item_pv it) n). rewrite repeat_length. repeat split.
      + apply Forall_forall. intros x Hx. apply repeat_spec in Hx as ->. apply I. now left.
      + now rewrite np_array_repeat.
    - apply (discrete_values Or RL k ws _ n s v s' R N) in H; [|simpl; lia].
      destruct H as (us & xs & D & F & ->). exists xs. split.
      + assert (length us = n).
        { unfold uniform_draws in D. destruct (Nat.leb n 100).
          - clear -D. induction D; simpl; auto.
          - destruct D as (g & D & _). eapply (proj1 RL); eauto. }
        rewrite <- H. clear -F. induction F; simpl; auto.
      + split; auto. clear -F I. induction F; constructor; auto.
        destruct H as (i & it' & _ & _ & E & ->). apply I. eapply nth_error_In; eauto.
  Qed.

  Lemma np_array_one f x : np_array f [x] = [x].
  Proof. destruct x; reflexivity. Qed.
  Lemma np_array_type f l : one_type l -> np_array f l = l.
  Proof.
    intros [H|[H|[H|H]]].
    - now apply np_array_strings.
    - apply np_array_uniform. right. exact H.
    - apply np_array_uniform. left. exact H.
    - unfold np_array.
      assert (forall g : pv -> bool, (forall b, g (PBool b) = false) -> existsb g l = false) as K.
      { intros g Hg. induction H as [|x l (b & ->) _ IH]; simpl; auto. now rewrite Hg, IH. }
      now rewrite !K.
  Qed.
  Lemma one_type_sub l m : Forall (fun x => In x m) l -> one_type m -> one_type l.
  Proof.
    intros S. rewrite Forall_forall in S.
    intros [H|[H|[H|H]]]; rewrite Forall_forall in H; [left|right;left|right;right;left|right;right;right];
      apply Forall_forall; auto.
  Qed.
  Lemma np_array_numbers f l : all_numbers l -> Forall2 same_number l (np_array f l).
  Proof.
    intros H. unfold np_array.
    assert (existsb is_none l = false) as ->.
    { induction H as [|x l (b & Hb) _ IH]; simpl; auto. destruct x; simpl; auto; discriminate. }
    assert (existsb is_str l = false) as ->.
    { induction H as [|x l (b & Hb) _ IH]; simpl; auto. destruct x; simpl; auto; discriminate. }
    assert (Same : forall x, same_number x x).
    { intros x. unfold same_number. destruct (as_x x); auto. apply xsame_refl. }
    assert (K : forall g : pv -> pv, (forall x, same_number x (g x)) -> Forall2 same_number l (map g l)).
    { intros g Hg. clear H. induction l; simpl; constructor; auto. }
    destruct (existsb is_flt l); [apply K|destruct (existsb is_int l); [apply K|]].
    - intros [| | | |]; try apply Same; simpl; unfold same_number; simpl; reflexivity.
    - intros [| | | |]; try apply Same; simpl; unfold same_number; simpl; reflexivity.
    - clear K H. induction l; constructor; auto.
  Qed.

  Lemma discrete_one_type k n s v s' : (exists items, k = LCatList items) \/ (exists items, k = LCatDict items) ->
    n = 1%nat \/ one_type (listed k) ->
    smp Or (ODist (DLeaf k None None)) n None None s = (Ok v, s') ->
    Forall (fun x => In x (listed k)) (elems v).
  Proof.
    intros K C H. apply discrete_raw in H as (xs & L & F & ->); auto. rewrite elems_simplify.
    destruct C as [->|C].
    - destruct xs as [|x [|]]; try discriminate. now rewrite np_array_one.
    - rewrite np_array_type; auto. eapply one_type_sub; eauto.
  Qed.
  Lemma discrete_numbers k n s v s' : (exists items, k = LCatList items) \/ (exists items, k = LCatDict items) ->
    all_numbers (listed k) ->
    smp Or (ODist (DLeaf k None None)) n None None s = (Ok v, s') ->
    Forall (fun x => exists y, In y (listed k) /\ same_number y x) (elems v).
  Proof.
    intros K C H. apply discrete_raw in H as (xs & L & F & ->); auto. rewrite elems_simplify.
    assert (A : all_numbers xs).
    { unfold all_numbers in *. rewrite Forall_forall in *. auto. }
    apply (np_array_numbers (fmt Or)) in A. clear L C. revert F. generalize (listed k). intros m.
    induction A; intros F; constructor; inversion F; subst; eauto.
  Qed.
End Listed.

(** Plain values: equality of the counter, and the weights it gives. *)
Lemma pv_eqb_spec a b : pv_eqb a b = true <-> same_number a b /\ as_x a <> Some NaN.
Proof.
  unfold pv_eqb, same_number. destruct (as_x a) as [x|] eqn:A, (as_x b) as [y|] eqn:B.
  - destruct x, y; simpl; split; try discriminate; try tauto;
      try (intros H; split; [now apply Qeq_bool_iff|discriminate]);
      try (intros [H _]; now apply Qeq_bool_iff); try (intros [H _]; discriminate); auto;
      try (intros _; split; [reflexivity|discriminate]).
  - split; [discriminate|tauto].
  - split; [discriminate|tauto].
  - destruct a, b; simpl in *; try discriminate; split; try discriminate; try (intros [H _]; congruence); auto.
    + intros H. apply String.eqb_eq in H. subst. split; [reflexivity|discriminate].
    + intros [H _]. inversion H. apply String.eqb_refl.
    + intros _. split; [reflexivity|discriminate].
Qed.
Lemma same_number_sym a b : same_number a b -> same_number b a.
Proof.
  unfold same_number. destruct (as_x a) as [x|], (as_x b) as [y|]; try tauto; [|auto].
  destruct x, y; simpl; intros H; try discriminate; try reflexivity; now symmetry.
Qed.
Lemma same_number_trans a b c : same_number a b -> same_number b c -> same_number a c.
Proof.
  unfold same_number. destruct (as_x a) as [x|], (as_x b) as [y|], (as_x c) as [z|]; try tauto; [|congruence].
  destruct x, y, z; simpl; intros H K; try discriminate; try reflexivity; now rewrite H.
Qed.
Lemma same_number_nan a b : same_number a b -> (as_x a = Some NaN <-> as_x b = Some NaN).
Proof.
  unfold same_number. destruct (as_x a) as [x|], (as_x b) as [y|]; try tauto; try (split; discriminate).
  destruct x, y; simpl; intros H; try discriminate; split; auto; discriminate.
Qed.
Lemma pv_eqb_sym a b : pv_eqb a b = pv_eqb b a.
Proof.
  assert (H : forall a b, pv_eqb a b = true -> pv_eqb b a = true).
  { intros x y H. apply pv_eqb_spec in H as [S N]. apply pv_eqb_spec. split; [now apply same_number_sym|].
    now rewrite <- (same_number_nan _ _ S). }
  destruct (pv_eqb a b) eqn:E; [symmetry; auto|]. destruct (pv_eqb b a) eqn:F; auto. apply H in F. congruence.
Qed.
Lemma pv_eqb_trans a b c : pv_eqb a b = true -> pv_eqb b c = true -> pv_eqb a c = true.
Proof.
  rewrite !pv_eqb_spec. intros [S N] [S' N']. split; auto. eapply same_number_trans; eauto.
Qed.
Lemma occurrences_plain x vs : occurrences item_eqb (IPlain x) (map IPlain vs) = occurrences pv_eqb x vs.
Proof. induction vs; simpl; congruence. Qed.
Lemma plain_values vs : vs <> [] ->
  exists ws its, cat_list (map IPlain vs) = Ok (ws, its) /\ length ws = length its /\ positive ws /\
    (forall x, mass item_eqb (IPlain x) ws its ==
      inject_Z (Z.of_nat (occurrences pv_eqb x vs)) / inject_Z (Z.of_nat (length vs))) /\
    ((100 <= length vs)%nat -> ForallOrdPairs (fun a b => item_eqb a b = false) its) /\
    ((length vs < 100)%nat -> its = map IPlain vs).
Proof.
  intros N. destruct vs as [|v vs]; [congruence|].
  assert (Sy : forall x y, item_eqb x y = item_eqb y x) by (intros [x|] [y|]; simpl; auto using pv_eqb_sym).
  assert (Tr : forall x y z, item_eqb x y = true -> item_eqb y z = true -> item_eqb x z = true).
  { intros [x|] [y|] [z|]; simpl; try discriminate. apply pv_eqb_trans. }
  destruct (discrete_mass item_pair (fun _ => false) item_eqb (forallb (fun i => negb (item_is_list i))) item_is_list
    Sy Tr (map IPlain (v :: vs)) (IPlain v) eq_refl eq_refl) as (ws & its & E & L & P & M & C).
  exists ws, its. repeat split; auto.
  - intros x. rewrite M, occurrences_plain, map_length. reflexivity.
  - intros H. assert (X : forall l, forallb (fun i => negb (item_is_list i)) (map IPlain l) = true)
      by (induction l; simpl; auto). rewrite X, map_length, (proj2 (Nat.leb_le _ _) H) in C. exact C.
  - intros H. rewrite map_length, (proj2 (Nat.leb_gt _ _) H) in C. exact C.
Qed.

Lemma np_array_one_type f l : ~ In PNone l -> one_type (np_array f l) /\
  (existsb is_str l = false -> existsb is_flt l = false -> existsb is_int l = true ->
   Forall (fun v => exists z, v = PInt z) (np_array f l)) /\
  (existsb is_str l = false -> existsb is_flt l = true -> Forall (fun v => exists x, v = PFlt x) (np_array f l)).
Proof.
  intros N.
  assert (EN : existsb is_none l = false).
  { apply Bool.not_true_is_false. rewrite existsb_exists. intros (x & I & E). destruct x; try discriminate. auto. }
  assert (NN : forall v, In v l -> v <> PNone) by congruence.
  assert (No : forall g, existsb g l = false -> forall v, In v l -> g v = false).
  { intros g E v I. destruct (g v) eqn:Gv; auto. assert (existsb g l = true) by (apply existsb_exists; eauto). congruence. }
  unfold np_array. rewrite EN.
  destruct (existsb is_str l) eqn:ES.
  { split; [left|split; discriminate]. rewrite Forall_map. apply Forall_forall. intros v _. destruct v; simpl; eauto. }
  destruct (existsb is_flt l) eqn:EF.
  { assert (K : Forall (fun v => exists x, v = PFlt x) (map to_flt l)).
    { rewrite Forall_map. apply Forall_forall. intros v I. pose proof (No _ ES v I). pose proof (NN v I).
      destruct v; simpl; eauto; [discriminate|congruence]. }
    split; [right; right; left; exact K|]. split; [discriminate|auto]. }
  destruct (existsb is_int l) eqn:EI.
  { assert (K : Forall (fun v => exists z, v = PInt z) (map to_int l)).
    { rewrite Forall_map. apply Forall_forall. intros v I. pose proof (No _ ES v I). pose proof (No _ EF v I). pose proof (NN v I).
      destruct v; simpl; eauto; try discriminate. congruence. }
    split; [right; left; exact K|]. split; [auto|discriminate]. }
  split; [|split; discriminate]. right; right; right. apply Forall_forall. intros v I.
  pose proof (No _ ES v I). pose proof (No _ EF v I). pose proof (No _ EI v I). pose proof (NN v I).
  destruct v; simpl in *; eauto; try discriminate. congruence.
Qed.
