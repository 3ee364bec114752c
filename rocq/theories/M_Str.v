(** Model of [__str__], [__repr__] and [__hash__] of distributions
    (squigglepy/distributions.py). *)
From Coq Require Import Ascii String.
From Verif Require Import Base M_Weights M_Pick M_Values M_Sampler M_Ops.
Open Scope string_scope.

Definition head_mark : string := "<Distribution> ".
(** [s.replace("<Distribution> ", "")]: leftmost non-overlapping occurrences;
    [k] counts the characters of an occurrence still to be dropped. *)
Fixpoint strip_from (k : nat) (s : string) : string :=
  match s with
  | EmptyString => EmptyString
  | String c s' =>
      match k with
      | S k' => strip_from k' s'
      | O => if String.prefix head_mark s then strip_from 14 s' else String c (strip_from 0 s')
      end
  end.
Definition strip : string -> string := strip_from 0.

(** Items of a categorical distribution: a value, or a list of a weight and a value. *)
Inductive citem : Type := CPlain (v : pv) | CPair (w : num) (v : pv).

(** Distribution-valued expressions as the user writes them, with the attributes
    that [__str__] prints.  Int and float parameters are kept apart because they
    print differently. *)
Inductive pleaf : Type :=
| KConst (x : pv)
| KUniform (x y : num)
| KNorm (mean sd : num) (lc rc : option num)
| KLognorm (lmean lsd nmean nsd : num) (lc rc : option num)
| KInvLognorm (lmean lsd nmean nsd : num) (lc rc : option num)
| KBinomial (n : Z) (p : num)
| KBeta (a b : num)
| KBernoulli (p : num)
| KT (x y : option num) (t cred : num) (lc rc : option num)
| KLogT (x y : option num) (t cred : num) (lc rc : option num)
| KTri (l m r : num)
| KPert (l m r lam : num) (lc rc : option num)
| KPoisson (lam : num) (lc rc : option num)
| KChi (df : num)
| KExp (scale : num) (lc rc : option num)
| KGamma (shape scale : num) (lc rc : option num)
| KPareto (shape : num)
| KGeom (p : num)
| KDie (sides : Z) (explode : option (list Z))
| KCoin
| KCat (items : list citem)
| KCatDict (items : list (pv * num)).

(** The infix operators, distributions.py:115-168; [==] and [!=] are separate
    because they share their function with [<=]. *)
Inductive infix : Type := IOp (o : opn) | IEq | INe.
Definition infix_text (i : infix) : string :=
  match i with
  | IOp Add => "+" | IOp Sub => "-" | IOp Mul => "*" | IOp Div => "/" | IOp FloorDiv => "//"
  | IOp Pow => "**" | IOp Lt => "<" | IOp Le => "<=" | IOp Gt => ">" | IOp Ge => ">="
  | IEq => "==" | INe => "!="
  end.
Definition infix_fn {T} (i : infix) : fn T :=
  match i with IOp o => FOp o | IEq | INe => FOp Le end.

Inductive pexp (T : Type) : Type :=
| XLit (x : pv)
| XLeaf (k : pleaf)
| XInfix (i : infix) (l r : pexp T)
| XNeg (l : pexp T)
(** A function call form: [name(l)] or [name(l, r)]. *)
| XCall (name : string) (f : fn T) (l : pexp T) (r : option (pexp T))
| XMixture (parts : list (num * pexp T)) (lc rc : option num).
Arguments XLit {T} x.
Arguments XLeaf {T} k.
Arguments XInfix {T} i l r.
Arguments XNeg {T} l.
Arguments XCall {T} name f l r.
Arguments XMixture {T} parts lc rc.

(** The distribution an expression builds. *)
Definition leaf_of (k : pleaf) : leaf :=
  match k with
  | KConst x => LConst x
  | KUniform x y => LUniform (num_q x) (num_q y)
  | KNorm m s _ _ => LNormal (num_q m) (Some (num_q s))
  | KLognorm _ _ m s _ _ => LLognormal (num_q m) (num_q s)
  | KInvLognorm _ _ m s _ _ => LInvLognormal (num_q m) (num_q s)
  | KBinomial n p => LBinomial n (num_q p)
  | KBeta a b => LBeta (num_q a) (num_q b)
  | KBernoulli p => LBernoulli (num_q p)
  | KT x y t c _ _ => LT x y (num_q t) (num_q c)
  | KLogT x y t c _ _ => LLogT x y (num_q t) (num_q c)
  | KTri l m r => LTriangular (num_q l) (num_q m) (num_q r)
  | KPert l m r a _ _ => LPert (num_q l) (num_q m) (num_q r) (num_q a)
  | KPoisson a _ _ => LPoisson (num_q a)
  | KChi d => LChiSquare (num_q d)
  | KExp s _ _ => LExponential (num_q s)
  | KGamma a b _ _ => LGamma (num_q a) (num_q b)
  | KPareto a => LPareto (num_q a)
  | KGeom p => LGeometric (num_q p)
  | KDie n e => LDie n e
  | KCoin => LCoin
  | KCat l => LCatList (map (fun i => match i with CPlain v => IPlain v | CPair w v => IPair (Num (num_q w)) v end) l)
  | KCatDict l => LCatDict (map (fun p => (fst p, Num (num_q (snd p)))) l)
  end.
Definition clips_of (k : pleaf) : option num * option num :=
  match k with
  | KNorm _ _ l r | KLognorm _ _ _ _ l r | KInvLognorm _ _ _ _ l r | KT _ _ _ _ l r | KLogT _ _ _ _ l r
  | KPert _ _ _ _ l r | KPoisson _ l r | KExp _ l r | KGamma _ _ l r => (l, r)
  | _ => (None, None)
  end.
Fixpoint built {T} (e : pexp T) : obj T :=
  match e with
  | XLit x => OLit x
  | XLeaf k => ODist (DLeaf (leaf_of k) (fst (clips_of k)) (snd (clips_of k)))
  | XInfix i l r => ODist (DComplex (built l) (built r) (infix_fn i))
  | XNeg l => ODist (DComplex (built l) (OLit PNone) FNeg)
  | XCall _ f l r => ODist (DComplex (built l) (match r with Some x => built x | None => OLit PNone end) f)
  | XMixture ps lc rc => ODist (DMixture (map (fun p => num_q (fst p)) ps) (map (fun p => built (snd p)) ps) lc rc)
  end.

Section Text.
  (** [str] of a scalar. *)
  Variable fmt : pv -> string.

  Definition num_text (x : num) : string := fmt (num_pv x).
  (** [round(x, 2)]: an int stays; a float is rounded half to even. *)
  Definition round2 (x : num) : num := match x with NI z => NI z | NF q => NF (Qred (np_round q 2)) end.
  (** The optional clip arguments, e.g. distributions.py:715-720. *)
  Definition clip_text (lc rc : option num) : string :=
    (match lc with Some a => ", lclip=" ++ num_text a | None => "" end) ++
    (match rc with Some a => ", rclip=" ++ num_text a | None => "" end) ++ ")".
  (** distributions.py:1283-1295, 1359-1371 (credibility 90 is not printed). *)
  Definition t_text (name : string) (x y : option num) (t cred : num) (lc rc : option num) : string :=
    (match x with
     | Some a => head_mark ++ name ++ "(x=" ++ num_text a ++ ", y=" ++
                 (match y with Some b => num_text b | None => fmt PNone end) ++ ", t=" ++ num_text t
     | None => head_mark ++ name ++ "(t=" ++ num_text t
     end) ++ (if Qeq_bool (num_q cred) 90 then "" else ", credibility=" ++ num_text cred) ++ clip_text lc rc.
  Definition lognorm_text (name : string) (a b c d : num) (lc rc : option num) : string :=
    head_mark ++ name ++ "(lognorm_mean=" ++ num_text (round2 a) ++ ", lognorm_sd=" ++ num_text (round2 b) ++
    ", norm_mean=" ++ num_text (round2 c) ++ ", norm_sd=" ++ num_text (round2 d) ++ clip_text lc rc.
  (** [repr] of a scalar inside a list or dict, for Python scalars and texts without
      quotes and backslashes. *)
  Definition quoted (v : pv) : string := match v with PStr _ => "'" ++ fmt v ++ "'" | _ => fmt v end.
  Fixpoint joined (l : list string) : string :=
    match l with [] => "" | [x] => x | x :: r => x ++ ", " ++ joined r end.
  (** distributions.py:625 (const), 659 (uniform), 713 (norm), 833 (lognorm), 927
      (invlognorm), 1128 (binomial), 1161 (beta), 1199 (bernoulli), 1283 (tdist),
      1359 (log_tdist), 1428 (triangular), 1476 (PERT), 1526 (poisson), 1568
      (chisquare), 1603 (exponential), 1646 (gamma), 1688 (pareto), 1813 (geometric), 1233 (categorical);
      dice.py:38-43 (Die), 82-84 (Coin). *)
  Definition leaf_text (k : pleaf) : string :=
    match k with
    | KConst x => head_mark ++ "const(" ++ fmt x ++ ")"
    | KUniform x y => head_mark ++ "uniform(" ++ num_text x ++ ", " ++ num_text y ++ ")"
    | KNorm m s lc rc => head_mark ++ "norm(mean=" ++ num_text (round2 m) ++ ", sd=" ++ num_text (round2 s) ++ clip_text lc rc
    | KLognorm a b c d lc rc => lognorm_text "lognorm" a b c d lc rc
    | KInvLognorm a b c d lc rc => lognorm_text "invlognorm" a b c d lc rc
    | KBinomial n p => head_mark ++ "binomial(n=" ++ fmt (PInt n) ++ ", p=" ++ num_text p ++ ")"
    | KBeta a b => head_mark ++ "beta(a=" ++ num_text a ++ ", b=" ++ num_text b ++ ")"
    | KBernoulli p => head_mark ++ "bernoulli(p=" ++ num_text p ++ ")"
    | KT x y t c lc rc => t_text "tdist" x y t c lc rc
    | KLogT x y t c lc rc => t_text "log_tdist" x y t c lc rc
    | KTri l m r => head_mark ++ "triangular(" ++ num_text l ++ ", " ++ num_text m ++ ", " ++ num_text r ++ ")"
    | KPert l m r a lc rc => head_mark ++ "PERT(" ++ num_text l ++ ", " ++ num_text m ++ ", " ++ num_text r ++
                             ", lam=" ++ num_text a ++ clip_text lc rc
    | KPoisson a lc rc => head_mark ++ "poisson(" ++ num_text a ++ clip_text lc rc
    | KChi d => head_mark ++ "chisquare(" ++ num_text d ++ ")"
    | KExp s lc rc => head_mark ++ "exponential(" ++ num_text s ++ clip_text lc rc
    | KGamma a b lc rc => head_mark ++ "gamma(shape=" ++ num_text a ++ ", scale=" ++ num_text b ++ clip_text lc rc
    | KPareto a => head_mark ++ "pareto(" ++ num_text a ++ ")"
    | KGeom p => head_mark ++ "geometric(p=" ++ num_text p ++ ")"
    | KDie n e => head_mark ++ "Die(" ++ fmt (PInt n) ++
                  (match e with Some l => ", explodes on [" ++ joined (map (fun z => fmt (PInt z)) l) ++ "]" | None => "" end) ++ ")"
    | KCoin => head_mark ++ "Coin"
    | KCat l => head_mark ++ "categorical([" ++
                joined (map (fun i => match i with CPlain v => quoted v | CPair w v => "[" ++ num_text w ++ ", " ++ quoted v ++ "]" end) l) ++ "])"
    | KCatDict l => head_mark ++ "categorical({" ++ joined (map (fun p => quoted (fst p) ++ ": " ++ num_text (snd p)) l) ++ "})"
    end.

  Definition newline : string := String (Ascii.ascii_of_nat 10) "".
  (** [str(dist)]: ComplexDistribution distributions.py:214-240, mixture 1723-1727.
      [right is None] means the operand is absent; a literal None operand is not
      written as [XInfix]. *)
  Fixpoint text {T} (e : pexp T) : string :=
    match e with
    | XLit x => fmt x
    | XLeaf k => leaf_text k
    | XInfix i l r => head_mark ++ strip (text l) ++ " " ++ infix_text i ++ " " ++ strip (text r)
    | XNeg l => head_mark ++ "-" ++ strip (text l)
    | XCall name _ l None => head_mark ++ name ++ "(" ++ strip (text l) ++ ")"
    | XCall name _ l (Some r) => head_mark ++ name ++ "(" ++ strip (text l) ++ ", " ++ strip (text r) ++ ")"
    | XMixture ps _ _ =>
        head_mark ++ "mixture" ++
        (fix parts (ps : list (num * pexp T)) : string :=
           match ps with
           | [] => ""
           | (w, e) :: ps' => newline ++ " - " ++ num_text w ++ " weight on " ++ text e ++ parts ps'
           end) ps
    end.
  (** [repr], distributions.py:52-57 (no correlation group), and [hash] 170-171. *)
  Definition repr_text {T} (version : string) (e : pexp T) : string := text e ++ " (version " ++ version ++ ")".
  Definition hash_of {T} (h : string -> Z) (version : string) (e : pexp T) : Z := h (repr_text version e).
End Text.
