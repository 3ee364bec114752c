(** C142: distributions and the lists they were built from. *)
From Coq Require Import Lia ZArith.
From Verif Require Import Base M_Weights M_Pick M_Values M_Sampler M_Ctor M_Ops SpecSampler SpecCtor
  M_Shared SpecShared P_Shared.
Open Scope Q_scope.

(** Right after construction every object samples like the plain constructor applied
    to the contents of the lists. *)
Theorem C142_as_built :
  forall (T : Type) (h : heap T),
  (forall a r, new_discrete h a = Ok r ->
     exists k, categorical (cat_items h a) = Ok k /\ view h r = ODist (DLeaf k None None)) /\
  (forall sides a r, new_die h sides a = Ok r ->
     exists k, die_of sides (die_explode h a) = Ok k /\ view h r = ODist (DLeaf k None None)) /\
  (forall ds w rw lc rc r h', new_mixture h ds w rw lc rc = (Ok r, h') ->
     exists d, mixture (VList (map (item_now h) (h_dists h ds))) (w_now h w) (w_now h rw) lc rc = Ok d /\
       view h r = ODist d).
Proof.
  intros T h. split; [exact (discrete_now h)|]. split; [exact (die_now h)|].
  intros ds w rw lc rc r h'. exact (mixture_now h h' ds w rw lc rc r).
Qed.
Print Assumptions C142_as_built.

(** An object changes only through the lists it refers to. *)
Theorem C142_only_through_references :
  forall (T : Type) (h h' : heap T) r,
  (forall p, refers r p -> unchanged h h' p) -> view h' r = view h r.
Proof. intros T. exact view_frame. Qed.
Print Assumptions C142_only_through_references.

(** Whatever the caller later does to the list of components and to the list of
    weights, and whatever the call itself did to them, the mixture stays: it refers
    to no list but those of its components. *)
Theorem C142_mixtures_partial :
  forall (T : Type) (h h1 h2 : heap T) ds w rw lc rc r,
  new_mixture h ds w rw lc rc = (Ok r, h1) ->
  (forall i p, In i (h_dists h ds) -> refers (item_held i) p -> unchanged h h2 p) ->
  view h2 r = view h r.
Proof.
  intros T h h1 h2 ds w rw lc rc r H U. apply view_frame. intros p R.
  destruct (mixture_refs h h1 ds w rw lc rc r p H R) as (i & I & J). exact (U i p I J).
Qed.
Print Assumptions C142_mixtures_partial.

(** Categoricals of numpy arrays and dice exploding on one value or not at all do
    not change either. *)
Theorem C142_copies_partial :
  forall (T : Type) (h h' : heap T) r,
  (exists l, new_discrete h (CaArray l) = Ok r) \/
  (exists sides, new_die h sides DaNone = Ok r) \/ (exists sides v, new_die h sides (DaOne v) = Ok r) ->
  view h' r = view h r.
Proof.
  intros T h h' r [(l & H)|[(n & H)|(n & v & H)]]; unfold new_discrete, new_die in H;
    (match type of H with bind ?m _ = _ => destruct m; [|discriminate] end); inversion H; reflexivity.
Qed.
Print Assumptions C142_copies_partial.

(** A list or dict given to [discrete] stays in use: a later change of it changes
    what is sampled.  Here [l = [1]; d = discrete(l); l[0] = 2]. *)
Theorem C142_discrete_refuted :
  exists (h h' : heap (G strict_oracle)) r s,
    new_discrete h (CaList 0) = Ok r /\
    fst (smp strict_oracle (view h r) 1 None None s) = Ok (Scalar (PInt 1)) /\
    fst (smp strict_oracle (view h' r) 1 None None s) = Ok (Scalar (PInt 2)).
Proof.
  exists (mkHeap (fun _ => [IPlain (PInt 1)]) (fun _ => []) (fun _ => []) (fun _ => []) (fun _ => [])),
         (mkHeap (fun _ => [IPlain (PInt 2)]) (fun _ => []) (fun _ => []) (fun _ => []) (fun _ => [])),
         (HCat 0), (strict_state 0).
  split; [reflexivity|]. split; vm_compute; reflexivity.
Qed.
Print Assumptions C142_discrete_refuted.

(** The check that some face ends the roll can be evaded: after
    [l = [1]; d = die(2, explode_on=l); l.append(2)] no roll of [d] ever ends,
    whatever the generator. *)
Theorem C142_die_refuted :
  exists sides l l',
    (forall T (h : heap T), h_faces h 0 = l -> new_die h sides (DaList 0) = Ok (HDie 2 0)) /\
    (forall T (h : heap T), h_faces h 0 = l' ->
       new_die h sides (DaList 0) = Err (ValueError "cannot explode on every value")) /\
    (forall Or (h' : heap (G Or)) n s v s', in_support Or -> h_faces h' 0 = l' -> (1 <= n)%nat ->
       smp Or (view h' (HDie 2 0)) n None None s <> (Ok v, s')).
Proof.
  exists (PInt 2), [PInt 1], [PInt 1; PInt 2]. split; [|split].
  - intros T h E. unfold new_die. simpl. rewrite E. reflexivity.
  - intros T h E. unfold new_die. simpl. rewrite E. reflexivity.
  - intros Or h' n s v s' Sup E N H. simpl in H. rewrite E in H.
    refine (bare_never_rests Or Sup 2 _ n s v s' _ N H).
    intros f F. assert (f = 1 \/ f = 2)%Z as [-> | ->] by lia; vm_compute; auto.
Qed.
Print Assumptions C142_die_refuted.

(** The call of [mixture] changes no list but the weights it was given, and those only
    by the missing last weight. *)
Theorem C142_effect_of_the_call :
  forall (T : Type) (h h1 : heap T) ds w rw lc rc r, new_mixture h ds w rw lc rc = (r, h1) ->
  h_items h1 = h_items h /\ h_dicts h1 = h_dicts h /\ h_faces h1 = h_faces h /\ h_dists h1 = h_dists h /\
  forall i, h_weights h1 i = h_weights h i \/
    (w = WaList i /\ rw = WaOther WNone /\ exists qs, h_weights h i = map Num qs /\ S (length qs) = length (h_dists h ds) /\
       SpecWeights.total qs < 1 /\ h_weights h1 i = map Num (qs ++ [1 - qsum qs])).
Proof. intros T. exact mixture_effect. Qed.
Print Assumptions C142_effect_of_the_call.

(** [discrete] accepts exactly the lists, dicts and arrays that are not empty. *)
Theorem C142_empty_rejected :
  forall (T : Type) (h : heap T) l a,
  (h_items h l = [] -> new_discrete h (CaList l) = Err AssertionError) /\
  (h_dicts h l = [] -> new_discrete h (CaDict l) = Err AssertionError) /\
  new_discrete h (CaArray []) = Err AssertionError /\
  (exists m, new_discrete h CaBad = Err (ValueError m)) /\
  (h_items h l <> [] -> new_discrete h (CaList l) = Ok (HCat l)) /\
  (h_dicts h l <> [] -> new_discrete h (CaDict l) = Ok (HDict l)) /\
  (a <> [] -> exists r, new_discrete h (CaArray a) = Ok r).
Proof.
  intros T h l a. unfold new_discrete. cbn [cat_items].
  split; [intros ->; reflexivity|]. split; [intros ->; reflexivity|]. split; [reflexivity|].
  split; [eexists; reflexivity|].
  split; [destruct (h_items h l); [congruence|reflexivity]|].
  split; [destruct (h_dicts h l); [congruence|reflexivity]|].
  destruct a; [congruence|eexists; reflexivity].
Qed.
Print Assumptions C142_empty_rejected.

(** A mixture built from the list number 0 with the weights list number 0, which the
    call completes; then both lists are emptied. *)
Example C142_sat :
  let h := mkHeap (T := unit) (fun _ => [IPlain (PInt 1)]) (fun _ => []) (fun _ => []) (fun _ => [Num (1#4)])
             (fun _ => [HPlain (HCat 3); HPlain (HObj (OLit (PInt 5)))]) in
  exists r h1,
    new_mixture h 0 (WaList 0) (WaOther WNone) None None = (Ok r, h1) /\
    h_weights h1 0 = [Num (1#4); Num (1 - (1#4))] /\
    (exists p, refers r p) /\
    view (mkHeap (h_items h) (h_dicts h) (h_faces h) (fun _ => []) (fun _ => [])) r = view h r.
Proof.
  cbv zeta. eexists. eexists. split; [vm_compute; reflexivity|]. split; [reflexivity|].
  split; [exists (Items 3); eapply ref_mix; [left; reflexivity|constructor]|reflexivity].
Qed.
