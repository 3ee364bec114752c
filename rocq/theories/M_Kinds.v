(** Model of the class tests of squigglepy/utils.py:230-309, of the correlation flag of
    composite distributions, of the operators [@] and [~], of squigglepy/rng.py and
    of squigglepy/numbers.py. *)
From Verif Require Import Base M_Weights M_Pick M_Values M_Sampler M_IntText.

(* ------------------------------------------------------------------ *)
(** * is_dist, is_sampleable *)

(** What the tests can tell apart: Python scalars, numpy scalars ([np.float64] is a
    subclass of float; numpy's integers, bools and other floats are not subclasses of
    int or float), functions, distributions, and containers. *)
Inductive anything (T : Type) : Type :=
| APython (v : pv)
| AFloat64 (x : xnum)
| ANpInt (z : Z)
| ANpBool (b : bool)
| ANpFloat (x : xnum)
| AFunction (f : state T -> res (obj T) * state T)
| ADist (d : dist T)
| AContainer.
Arguments APython {T} v.
Arguments AFloat64 {T} x.
Arguments ANpInt {T} z.
Arguments ANpBool {T} b.
Arguments ANpFloat {T} x.
Arguments AFunction {T} f.
Arguments ADist {T} d.
Arguments AContainer {T}.

(** utils.py:230-253. *)
Definition is_dist {T} (a : anything T) : bool := match a with ADist _ => true | _ => false end.
(** [isinstance(a, int)], [isinstance(a, float)], [isinstance(a, str)], [callable(a)]. *)
Definition isa_int {T} (a : anything T) : bool := match a with APython (PInt _) | APython (PBool _) => true | _ => false end.
Definition isa_float {T} (a : anything T) : bool := match a with APython (PFlt _) | AFloat64 _ => true | _ => false end.
Definition isa_str {T} (a : anything T) : bool := match a with APython (PStr _) => true | _ => false end.
Definition isa_none {T} (a : anything T) : bool := match a with APython PNone => true | _ => false end.
Definition is_callable {T} (a : anything T) : bool := match a with AFunction _ => true | _ => false end.
(** utils.py:276-309. *)
Definition is_sampleable {T} (a : anything T) : bool :=
  is_dist a || isa_int a || isa_float a || isa_str a || isa_none a || is_callable a.

(** [sample(a, n)] on arbitrary objects: the tests of samplers.py:976-983 come
    first, then the sampler of M_Sampler. *)
Definition sample_any (Or : oracle) (a : anything (G Or)) (n : nat) : M (state (G Or)) val :=
  match n with
  | O => raise (ValueError "n must be >= 1")
  | _ =>
    if negb (is_sampleable a) then raise (ValueError "input to sample is malformed")
    else match a with
         | APython v => smp Or (OLit v) n None None
         | AFloat64 x => smp Or (OLit (PFlt x)) n None None
         | AFunction f => smp Or (OCall f) n None None
         | ADist d => smp Or (ODist d) n None None
         | _ => raise Unmodelled
         end
  end.

(* ------------------------------------------------------------------ *)
(** * is_continuous_dist *)

(** Subclasses of [ContinuousDistribution] in distributions.py. *)
Definition continuous_leaf (k : leaf) : bool :=
  match k with
  | LUniform _ _ | LNormal _ _ | LLognormal _ _ | LInvLognormal _ _ | LBeta _ _ | LT _ _ _ _ | LLogT _ _ _ _
  | LTriangular _ _ _ | LPert _ _ _ _ | LChiSquare _ | LExponential _ | LGamma _ _ | LPareto _ => true
  | LConst _ | LBinomial _ _ | LBernoulli _ | LCatList _ | LCatDict _ | LPoisson _
  | LGeometric _ | LDie _ _ | LCoin => false
  end.
(** utils.py:256-273.  An absent right operand is None, which is not a
    distribution.  A correlated variable is a copy of the original object. *)
Fixpoint is_continuous {T} (o : obj T) : bool :=
  match o with
  | ODist d => is_continuous_dist d
  | _ => false
  end
with is_continuous_dist {T} (d : dist T) : bool :=
  match d with
  | DLeaf k _ _ => continuous_leaf k
  | DComplex l r _ => is_continuous l && is_continuous r
  | DMixture _ ds _ _ => forallb is_continuous ds
  | DCorr _ i members => nth i (map is_continuous_dist members) false
  end.

(* ------------------------------------------------------------------ *)
(** * contains_correlated *)

(** Objects as [_check_correlated] sees them: whether a distribution has a
    correlation group, and for composites the parts.  Everything else is
    [TOther]. *)
Inductive tree : Type :=
| TOther
| TSimple (grouped : bool)
| TComposite (grouped : bool) (parts : list tree).
Definition has_group (t : tree) : bool :=
  match t with TOther => false | TSimple g => g | TComposite g _ => g end.
(** The loop of distributions.py:193-201, given the attribute of each part:
    [None] until set. *)
Fixpoint check_correlated (parts : list (bool * option bool)) : option bool :=
  match parts with
  | [] => None
  | (g, flag) :: r =>
      if g then Some true
      else match flag with
           | Some true => Some true
           | _ => check_correlated r
           end
  end.
(** The attribute [contains_correlated] of an object; only composites have it. *)
Fixpoint contains_correlated (t : tree) : option bool :=
  match t with
  | TComposite _ parts => check_correlated (map (fun p => (has_group p, contains_correlated p)) parts)
  | _ => None
  end.

(* ------------------------------------------------------------------ *)
(** * d @ n and ~d *)

(** [int(n)]. *)
Definition int_of (n : pv) : res Z :=
  match n with
  | PInt z => Ok z
  | PBool b => Ok (b2z b)
  | PFlt (Fin q) => Ok (qtrunc q)
  | PFlt NaN => Err (ValueError "number of samples must be an integer")
  | PFlt _ => Err OverflowError
  | PStr s => int_text s
  | PNone => Err TypeError
  end.
(** [__matmul__] and [__rmatmul__], distributions.py:94-101, 111-112. *)
Definition matmul (Or : oracle) (d : dist (G Or)) (n : pv) : M (state (G Or)) val :=
  let! k := lift (int_of n) in
  smp Or (ODist d) (Z.to_nat k) None None.
(** [__invert__], distributions.py:89-92. *)
Definition invert (Or : oracle) (d : dist (G Or)) : M (state (G Or)) val := smp Or (ODist d) 1 None None.

(* ------------------------------------------------------------------ *)
(** * set_seed *)

(** rng.py:6-29: the generator is replaced; nothing else changes.
    [seeded s] is the generator [np.random.default_rng(s)]. *)
Definition set_seed {Gt} (seeded : Z -> Gt) (seed : Z) (s : state Gt) : state Gt :=
  mkState (seeded seed) (corr s).

(* ------------------------------------------------------------------ *)
(** * numbers.py *)

Open Scope Z_scope.
Definition thousand : Z := 10 ^ 3.
Definition million : Z := 10 ^ 6.
Definition billion : Z := 10 ^ 9.
Definition trillion : Z := 10 ^ 12.
Definition quadrillion : Z := 10 ^ 15.
Definition quintillion : Z := 10 ^ 18.
Definition sextillion : Z := 10 ^ 21.
Definition septillion : Z := 10 ^ 24.
Definition octillion : Z := 10 ^ 27.
Definition nonillion : Z := 10 ^ 30.
Definition decillion : Z := 10 ^ 33.
Definition K : Z := thousand.
Definition M_ : Z := million.
Definition B : Z := billion.
Definition T_ : Z := trillion.
(** In the order of the file, without the one-letter names. *)
Definition named_numbers : list Z :=
  [thousand; million; billion; trillion; quadrillion; quintillion; sextillion; septillion; octillion; nonillion; decillion].
