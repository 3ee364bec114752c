(** Which lists and dicts of the caller a distribution keeps a reference to
    (squigglepy/distributions.py, squigglepy/dice.py). *)
From Verif Require Import Base M_Weights M_Pick M_Values M_Sampler M_Ctor M_Ops.
Open Scope Q_scope.

(** [CategoricalDistribution.__init__], distributions.py:1225-1231, on the contents
    of its argument. *)
Inductive items : Type := ItList (l : list exv_item) | ItDict (l : list (pv * cell)) | ItBad.
Definition categorical (i : items) : res leaf :=
  match i with
  | ItBad => Err (ValueError "inputs to categorical must be a dict or list")
  | ItList [] | ItDict [] => Err AssertionError
  | ItList l => Ok (LCatList l)
  | ItDict l => Ok (LCatDict l)
  end.

Section Shared.
  Context {T : Type}.

  (** A constructed object.  [HCat], [HDict]: a categorical whose [items] is the
      caller's list or dict number [l] (distributions.py:1231).  [HDie]: a die whose
      [explode_on] is the caller's list number [l] (dice.py:34).  [HMix]: a mixture,
      which owns its lists of weights and components.  [HObj]: an object that refers
      to no list of the caller.  Simplification: the attributes of the distributions
      themselves are not changed, and [[weight, value]] pairs are part of the list
      that holds them. *)
  Inductive held : Type :=
  | HObj (o : obj T)
  | HCat (l : nat)
  | HDict (l : nat)
  | HDie (sides : Z) (l : nat)
  | HMix (ws : list Q) (ds : list held) (lc rc : option num).
  Inductive hitem : Type := HPlain (d : held) | HPair (w : cell) (d : held).

  (** The lists and dicts of the caller, by what they hold. *)
  Record heap : Type := mkHeap {
    h_items : nat -> list exv_item;
    h_dicts : nat -> list (pv * cell);
    h_faces : nat -> list pv;
    h_weights : nat -> list cell;
    h_dists : nat -> list hitem
  }.

  (** The rolls for which [roll in self.explode_on] holds, samplers.py:678: elements
      that equal an integer. *)
  Definition face_of (v : pv) : list Z :=
    match as_x v with
    | Some (Fin q) => if Qeq_bool q (inject_Z (Qfloor q)) then [Qfloor q] else []
    | _ => []
    end.
  Definition faces (l : list pv) : list Z := flat_map face_of l.

  (** What sampling the object does while the lists have the contents [h]. *)
  Fixpoint view (h : heap) (r : held) : obj T :=
    match r with
    | HObj o => o
    | HCat l => ODist (DLeaf (LCatList (h_items h l)) None None)
    | HDict l => ODist (DLeaf (LCatDict (h_dicts h l)) None None)
    | HDie n l => ODist (DLeaf (LDie n (Some (faces (h_faces h l)))) None None)
    | HMix ws ds lc rc => ODist (DMixture ws (map (view h) ds) lc rc)
    end.

  (** [discrete(items)]: a list or dict of the caller is kept, a numpy array is
      copied (distributions.py:1225-1231). *)
  Inductive cat_arg : Type := CaList (l : nat) | CaDict (l : nat) | CaArray (l : list exv_item) | CaBad.
  Definition cat_items (h : heap) (a : cat_arg) : items :=
    match a with
    | CaList l => ItList (h_items h l)
    | CaDict l => ItDict (h_dicts h l)
    | CaArray l => ItList l
    | CaBad => ItBad
    end.
  Definition new_discrete (h : heap) (a : cat_arg) : res held :=
    do k <- categorical (cat_items h a);
    Ok (match a with
        | CaList l => HCat l
        | CaDict l => HDict l
        | _ => HObj (ODist (DLeaf k None None))
        end).

  (** [die(sides, explode_on)] with a plain number of sides: a list is kept, a single
      value is put into a new list (dice.py:17-34). *)
  Inductive die_arg : Type := DaNone | DaList (l : nat) | DaOne (v : pv).
  Definition die_explode (h : heap) (a : die_arg) : explode_arg :=
    match a with DaNone => ExNone | DaList l => ExList (h_faces h l) | DaOne v => ExOne v end.
  Definition new_die (h : heap) (sides : pv) (a : die_arg) : res held :=
    do k <- die_of sides (die_explode h a);
    Ok (match a, k with
        | DaList l, LDie n _ => HDie n l
        | _, _ => HObj (ODist (DLeaf k None None))
        end).

  (** [mixture(dists, weights, relative_weights)] with a list of distributions; the
      weights may be a list of the caller too.  [_process_weights_values] appends the
      missing weight to that list (utils.py:77) and returns new lists (utils.py:84-93). *)
  Inductive w_arg : Type := WaList (l : nat) | WaOther (w : warg).
  Definition w_now (h : heap) (a : w_arg) : warg :=
    match a with WaList l => WList (h_weights h l) | WaOther w => w end.
  Definition set_weights (h : heap) (a : w_arg) (w : warg) : heap :=
    match a, w with
    | WaList l, WList ws =>
        mkHeap (h_items h) (h_dicts h) (h_faces h)
               (fun i => if Nat.eqb i l then ws else h_weights h i) (h_dists h)
    | _, _ => h
    end.
  Definition hitem_pair (i : hitem) : option (cell * hitem) :=
    match i with HPlain _ => None | HPair w d => Some (w, HPlain d) end.
  Definition hitem_held (i : hitem) : held := match i with HPlain d => d | HPair _ _ => HObj OOther end.
  Definition new_mixture (h : heap) (ds : nat) (w rw : w_arg) (lc rc : option num) : res held * heap :=
    let r := pwv hitem_pair (fun _ => false) (w_now h w) (w_now h rw) (VList (h_dists h ds)) false in
    (do wv <- fst r; Ok (HMix (fst wv) (map hitem_held (snd wv)) lc rc),
     set_weights (set_weights h w (fst (snd r))) rw (snd (snd r))).
End Shared.
Arguments held T : clear implicits.
Arguments hitem T : clear implicits.
Arguments heap T : clear implicits.
