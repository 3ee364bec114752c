(** Distributions whose text tells everything. *)
From Coq Require Import Ascii String.
From Verif Require Import Base M_Values M_Sampler M_SampleApi M_Str M_Ctor SpecStr SpecCall SpecCache.
Open Scope string_scope.

(** A number is kept in lowest terms; a way of printing scalars is readable if
    different such scalars are printed differently, never as nothing, and without
    commas and equals signs (Python numbers are). *)
Definition lowest_terms (v : pv) : Prop :=
  match v with PFlt (Fin q) => Qred q = q | PStr _ => False | _ => True end.
Definition readable (fmt : pv -> string) : Prop :=
  (forall v w, lowest_terms v -> lowest_terms w -> fmt v = fmt w -> v = w) /\
  forall v, lowest_terms v -> fmt v <> "" /\ ~ occurs_in "," (fmt v) /\ ~ occurs_in "=" (fmt v).
Definition reduced (x : num) : Prop := lowest_terms (num_pv x).
Definition reduced_opt (x : option num) : Prop := forall n, x = Some n -> reduced n.
Definition reduced_leaf (k : pleaf) : Prop :=
  match k with
  | KConst x => lowest_terms x
  | KUniform x y | KBeta x y => reduced x /\ reduced y
  | KNorm x y lc rc | KGamma x y lc rc => reduced x /\ reduced y /\ reduced_opt lc /\ reduced_opt rc
  | KLognorm a b c d lc rc | KInvLognorm a b c d lc rc =>
      reduced a /\ reduced b /\ reduced c /\ reduced d /\ reduced_opt lc /\ reduced_opt rc
  | KBinomial _ p | KBernoulli p | KChi p | KPareto p | KGeom p => reduced p
  | KT x y t c lc rc | KLogT x y t c lc rc =>
      reduced_opt x /\ reduced_opt y /\ reduced t /\ reduced c /\ reduced_opt lc /\ reduced_opt rc
  | KTri l m r => reduced l /\ reduced m /\ reduced r
  | KPert l m r a lc rc => reduced l /\ reduced m /\ reduced r /\ reduced a /\ reduced_opt lc /\ reduced_opt rc
  | KDie _ _ | KCoin => True
  | KCat _ | KCatDict _ => False
  | KPoisson a lc rc | KExp a lc rc => reduced a /\ reduced_opt lc /\ reduced_opt rc
  end.
(** A simple distribution whose text tells everything: it was built by the
    constructor call [k] prints. *)
Inductive told_by {T} : pleaf -> dist T -> Prop :=
| told_call k c d : prints_exactly k -> reduced_leaf k -> ctor_of k = Some c -> construct c = Ok d -> told_by k d
| told_die n e : told_by (KDie n e) (DLeaf (LDie n e) None None)
| told_coin : told_by KCoin (DLeaf LCoin None None).

(** A history in which everything cached is such a distribution, under its text. *)
Definition tells (fmt : pv -> string) (Or : oracle) (x : action Or) : Prop :=
  match x with
  | Call _ c => c_memcache Or c = true -> exists k d, told_by k d /\ c_obj Or c = ODist d /\ c_key Or c = leaf_text fmt k
  | Outside _ _ _ => True
  end.
