(** What the class tests, the correlation flag and seeding should mean. *)
From Verif Require Import Base M_Values M_Sampler M_Kinds SpecSampler SpecSampler2.
Open Scope Q_scope.

(** Objects that stand for one value: text, None, and every kind of number. *)
Definition one_value {T} (a : anything T) : Prop :=
  match a with
  | APython _ | AFloat64 _ | ANpInt _ | ANpBool _ | ANpFloat _ => True
  | _ => False
  end.
(** Numpy numbers that are not Python floats. *)
Definition foreign_number {T} (a : anything T) : Prop :=
  match a with ANpInt _ | ANpBool _ | ANpFloat _ => True | _ => False end.

(** Distributions all of whose parts are continuous. *)
Inductive made_of_continuous {T} : obj T -> Prop :=
| mc_leaf k lc rc : continuous_leaf k = true -> made_of_continuous (ODist (DLeaf k lc rc))
| mc_mix ws ds lc rc : Forall made_of_continuous ds -> made_of_continuous (ODist (DMixture ws ds lc rc))
| mc_op l r f : made_of_continuous l -> made_of_continuous r -> made_of_continuous (ODist (DComplex l r f))
| mc_corr g i ms m : nth_error ms i = Some m -> made_of_continuous (ODist m) -> made_of_continuous (ODist (DCorr g i ms)).

(** No comparison, no user function, no correlation, and bounds that are floats. *)
Definition float_bound (b : option num) : Prop := match b with Some (NI _) => False | _ => True end.
Definition float_leaf (k : leaf) : Prop :=
  match k with LT x y _ _ | LLogT x y _ _ => float_bound x /\ float_bound y | _ => True end.
Fixpoint arithmetic {T} (o : obj T) : Prop :=
  match o with
  | ODist d => arithmetic_dist d
  | _ => True
  end
with arithmetic_dist {T} (d : dist T) : Prop :=
  match d with
  | DLeaf k lc rc => float_leaf k /\ float_bound lc /\ float_bound rc
  | DMixture _ ds lc rc => float_bound lc /\ float_bound rc /\ fold_right and True (map arithmetic ds)
  | DComplex l r f =>
      arithmetic l /\ arithmetic r /\
      match f with
      | FOp (Add | Sub | Mul | Div | FloorDiv | Pow) => True
      | _ => False
      end
  | DCorr _ _ _ => False
  end.

(** Distributions that are in a correlation group. *)
Inductive grouped_dist : tree -> Prop :=
| grouped_simple : grouped_dist (TSimple true)
| grouped_composite parts : grouped_dist (TComposite true parts).
(** [part_of p t]: [p] is a proper part of [t], at any depth. *)
Inductive part_of : tree -> tree -> Prop :=
| direct_part g parts p : In p parts -> part_of p (TComposite g parts)
| deep_part g parts p q : In q parts -> part_of p q -> part_of p (TComposite g parts).
