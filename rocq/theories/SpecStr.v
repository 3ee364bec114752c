(** Vocabulary for the text form of distributions. *)
From Coq Require Import Ascii String.
From Verif Require Import Base M_Values M_Sampler M_Str M_Ctor.
Open Scope string_scope.

Definition occurs_in (p s : string) : Prop := exists a b, s = a ++ p ++ b.
Definition no_angle (s : string) : Prop := ~ occurs_in "<" s.

(** Function names used in the expression contain no "<" (Python identifiers never do). *)
Fixpoint plain_names {T} (e : pexp T) : Prop :=
  match e with
  | XLit _ | XLeaf _ => True
  | XInfix _ l r => plain_names l /\ plain_names r
  | XNeg l => plain_names l
  | XCall name _ l None => no_angle name /\ plain_names l
  | XCall name _ l (Some r) => no_angle name /\ plain_names l /\ plain_names r
  | XMixture ps _ _ => (fix all (ps : list (num * pexp T)) : Prop :=
                          match ps with [] => True | (_, e) :: ps' => plain_names e /\ all ps' end) ps
  end.
(** The expression is an operation on other expressions. *)
Definition is_operation {T} (e : pexp T) : Prop :=
  match e with XInfix _ _ _ | XNeg _ | XCall _ _ _ _ => True | _ => False end.

(** The constructor call a printed leaf names ([norm(mean=..., sd=...)] and so on);
    inverse lognormals, dice and categoricals are not among the constructors of
    [M_Ctor.ctor]. *)
Definition ctor_of (k : pleaf) : option ctor :=
  match k with
  | KConst x => Some (NewConst x)
  | KUniform x y => Some (NewUniform (num_q x) (num_q y))
  | KNorm m s lc rc => Some (NewNorm (Some (num_q m)) (num_q s) lc rc)
  | KLognorm _ _ m s lc rc => Some (NewLognorm (Some (num_q m)) (num_q s) lc rc)
  | KInvLognorm _ _ _ _ _ _ => None
  | KBinomial n p => Some (NewBinomial n (num_q p))
  | KBeta a b => Some (NewBeta (num_q a) (num_q b))
  | KBernoulli p => Some (NewBernoulli (Some (num_q p)))
  | KT x y t c lc rc => Some (NewT x y (num_q t) (num_q c) lc rc)
  | KLogT x y t c lc rc => Some (NewLogT x y (num_q t) (num_q c) lc rc)
  | KTri l m r => Some (NewTriangular (num_q l) (num_q m) (num_q r) None None)
  | KPert l m r lam lc rc => Some (NewPert (num_q l) (num_q m) (num_q r) (num_q lam) lc rc)
  | KPoisson lam lc rc => Some (NewPoisson (num_q lam) lc rc)
  | KChi df => Some (NewChiSquare (num_q df))
  | KExp sc lc rc => Some (NewExponential (num_q sc) lc rc)
  | KGamma a b lc rc => Some (NewGamma (num_q a) (num_q b) lc rc)
  | KPareto a => Some (NewPareto (num_q a))
  | KGeom p => Some (NewGeometric (num_q p))
  | KCoin => Some NewCoin
  | KDie _ _ | KCat _ | KCatDict _ => None
  end.
