(** Operator expressions as flat sequences of signs, operators and distributions. *)
From Coq Require Import Ascii String.
From Verif Require Import Base M_Values M_Sampler M_SampleApi M_Str M_Ctor SpecStr SpecCall SpecCache SpecCacheText.
Open Scope string_scope.

(** What is left of an operator expression when its grouping is forgotten. *)
Inductive word (T : Type) : Type := WNeg | WOp (i : infix) | WDist (d : dist T).
Arguments WNeg {T}.
Arguments WOp {T} i.
Arguments WDist {T} d.
(** Operator expressions over simple distributions whose text tells everything. *)
Inductive words {T} : pexp T -> list (word T) -> Prop :=
| words_leaf k d : told_by k d -> words (XLeaf k) [WDist d]
| words_infix i l r a b : words l a -> words r b -> words (XInfix i l r) (a ++ WOp i :: b)%list
| words_neg l a : words l a -> words (XNeg l) (WNeg :: a).
(** At most one operator or sign. *)
Definition one_operation {T} (e : pexp T) : Prop :=
  match e with XLeaf _ | XInfix _ (XLeaf _) (XLeaf _) | XNeg (XLeaf _) => True | _ => False end.
(** Scalars are printed without closing brackets and angles (Python numbers are). *)
Definition unbracketed (fmt : pv -> string) : Prop :=
  forall v, lowest_terms v -> ~ occurs_in ")" (fmt v) /\ ~ occurs_in "<" (fmt v).
(** A history in which everything cached is such an expression, under its text. *)
Definition words_told (fmt : pv -> string) (Or : oracle) (x : action Or) : Prop :=
  match x with
  | Call _ c => c_memcache Or c = true -> exists e a, words e a /\ c_obj Or c = built e /\ c_key Or c = text fmt e
  | Outside _ _ _ => True
  end.
