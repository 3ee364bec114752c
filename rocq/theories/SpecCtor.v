(** What the constructor and dice properties mean. *)
From Verif Require Import Base M_Values M_Sampler M_Ctor SpecSampler.
Open Scope Q_scope.

(** The documented constraints of each constructor with checks. *)
Definition documented (c : ctor) : Prop :=
  match c with
  | NewUniform x y => x < y
  | NewTriangular l m r _ _ => l <= m /\ m <= r /\ l < r
  | NewPert l m r lam _ _ => l <= m /\ m <= r /\ l < r /\ 0 <= lam
  | NewExponential s _ _ => 0 < s /\ s < inject_Z (10 ^ 20)
  | NewChiSquare df => 0 < df
  | NewBinomial _ p => 0 < p /\ p < 1
  | NewBernoulli p => exists q, p = Some q /\ 0 <= q /\ q <= 1
  | NewGeometric p => 0 <= p /\ p <= 1
  | NewT x y _ _ _ _ =>
      (x = None /\ y = None) \/ (exists a b, x = Some a /\ y = Some b /\ num_q a <= num_q b)
  | NewLogT x y _ _ _ _ =>
      (x = None /\ y = None) \/ (exists a b, x = Some a /\ y = Some b /\ 0 < num_q a /\ num_q a <= num_q b)
  | _ => True
  end.

(** The clip arguments of the constructors that take them. *)
Definition ctor_clips (c : ctor) : option (option num * option num) :=
  match c with
  | NewNorm _ _ lc rc | NewLognorm _ _ lc rc | NewT _ _ _ _ lc rc | NewLogT _ _ _ _ lc rc
  | NewPert _ _ _ _ lc rc | NewPoisson _ lc rc | NewExponential _ lc rc | NewGamma _ _ lc rc => Some (lc, rc)
  | _ => None
  end.

(** The parameters numpy.random.Generator accepts, from its documentation. *)
Definition f_valid (r : freq) : Prop :=
  match r with
  | RUniform lo hi => lo <= hi
  | RNormal _ sd | RLognormal _ sd => 0 <= sd
  | RStdT df => 0 < df
  | RBeta a b => 0 < a /\ 0 < b
  | RTri l m r => l <= m /\ m <= r /\ l < r
  | RExp s => 0 <= s
  | RGamma a b => 0 <= a /\ 0 <= b
  | RPareto a => 0 < a
  | RChi df => 0 < df
  end.
Definition i_valid (r : ireq) : Prop :=
  match r with
  | RBinom n p => (0 <= n)%Z /\ 0 <= p /\ p <= 1
  | RPois lam => 0 <= lam
  | RGeom p => 0 < p /\ p <= 1
  | RInt lo hi => (lo < hi)%Z
  end.
(** A generator that raises ValueError exactly on invalid parameters. *)
Definition numpy_checks (Or : oracle) : Prop :=
  (forall r n g, f_valid r -> exists l g', drawf Or r n g = (Ok l, g')) /\
  (forall r n g, ~ f_valid r -> exists s g', drawf Or r n g = (Err (ValueError s), g')) /\
  (forall r n g, i_valid r -> exists l g', drawi Or r n g = (Ok l, g')) /\
  (forall r n g, ~ i_valid r -> exists s g', drawi Or r n g = (Err (ValueError s), g')).

(** Constructors whose check guarantees valid parameters. *)
Definition fully_checked (c : ctor) : Prop :=
  match c with
  | NewConst _ | NewUniform _ _ | NewBernoulli _ | NewTriangular _ _ _ _ _ | NewPert _ _ _ _ _ _
  | NewChiSquare _ | NewExponential _ _ _ | NewCoin => True
  | NewBinomial n _ => (0 <= n)%Z
  | _ => False
  end.

(** Which simple distributions have parameters the generator accepts ... *)
Definition meaningful (k : leaf) : Prop :=
  match k with
  | LNormal _ (Some sd) | LLognormal _ sd | LInvLognormal _ sd => 0 <= sd
  | LUniform x y => x <= y
  | LBinomial n p => (0 <= n)%Z /\ 0 <= p /\ p <= 1
  | LBeta a b => 0 < a /\ 0 < b
  | LPoisson lam => 0 <= lam
  | LChiSquare df => 0 < df
  | LExponential s => 0 <= s
  | LGamma a b => 0 <= a /\ 0 <= b
  | LPareto a => 0 < a
  | LTriangular l m r => l <= m /\ m <= r /\ l < r
  | LGeometric p => 0 < p /\ p <= 1
  | LT None None t _ | LLogT None None t _ => 0 < t
  | LDie sides _ => (0 < sides)%Z
  | _ => True
  end.
(** ... for the kinds this speaks about: not [pert] (see C85), not t distributions
    with bounds, not exploding dice, not categorical distributions and not
    [norm(x, y, mean=m)]. *)
Definition one_request (k : leaf) : Prop :=
  match k with
  | LNormal _ None | LPert _ _ _ _ | LCatList _ | LCatDict _ | LDie _ (Some _) => False
  | LT x y _ _ | LLogT x y _ _ => x = None /\ y = None
  | _ => True
  end.

(** Successive single die rolls, as drawn from the generator. *)
Inductive rolled (Or : oracle) (sides : Z) : state (G Or) -> list Z -> state (G Or) -> Prop :=
| rolled_0 s : rolled Or sides s [] s
| rolled_S s z g zs s' :
    drawi Or (RInt 1 (sides + 1)) 1 (rng s) = (Ok [z], g) -> rolled Or sides (mkState g (corr s)) zs s' ->
    rolled Or sides s (z :: zs) s'.
(** One throw: at most [bound] exploding rolls, then one that does not explode. *)
Definition throw (Or : oracle) (sides : Z) (ex : option (list Z)) (bound : nat)
    (s : state (G Or)) (total : Z) (s' : state (G Or)) : Prop :=
  exists bangs final,
    rolled Or sides s (bangs ++ [final]) s' /\ (length bangs <= bound)%nat /\
    match ex with
    | None => bangs = []
    | Some l => (forall z, In z bangs -> In z l) /\ ~ In final l
    end /\
    total = (fold_right Z.add 0 bangs + final)%Z.
(** Several throws, one after the other. *)
Inductive throws (Or : oracle) (sides : Z) (ex : option (list Z)) (bound : nat)
  : state (G Or) -> list Z -> state (G Or) -> Prop :=
| throws_0 s : throws Or sides ex bound s [] s
| throws_S s z s1 zs s2 :
    throw Or sides ex bound s z s1 -> throws Or sides ex bound s1 zs s2 -> throws Or sides ex bound s (z :: zs) s2.

(** A Python int (or bool) with value [z]. *)
Definition py_int (v : pv) (z : Z) : Prop := v = PInt z \/ exists b, v = PBool b /\ z = (if b then 1 else 0)%Z.
(** Explode values that are allowed on [n] sides: fewer than [n], each in 1..n. *)
Definition explodes (n : Z) (ex : explode_arg) (zs : option (list Z)) : Prop :=
  match ex with
  | ExNone | ExOne PNone => zs = None
  | ExOne v => exists z, zs = Some [z] /\ py_int v z /\ (1 <= z <= n)%Z
  | ExList l => exists l', zs = Some l' /\ (Z.of_nat (length l') < n)%Z /\
                           Forall2 (fun v z => py_int v z /\ (1 <= z <= n)%Z) l l'
  end.

(** Continuous distributions without clips. *)
Definition float_leaf (k : leaf) : Prop :=
  match k with
  | LUniform _ _ | LNormal _ _ | LLognormal _ _ | LInvLognormal _ _ | LBeta _ _ | LChiSquare _ | LExponential _
  | LGamma _ _ | LPareto _ | LTriangular _ _ _ | LPert _ _ _ _ => True
  | _ => False
  end.

(* ------------------------------------------------------------------ *)
(** * A generator that checks its parameters *)
Definition f_validb (r : freq) : bool :=
  match r with
  | RUniform lo hi => Qle_bool lo hi
  | RNormal _ sd | RLognormal _ sd => Qle_bool 0 sd
  | RStdT df => Qlt_bool 0 df
  | RBeta a b => Qlt_bool 0 a && Qlt_bool 0 b
  | RTri l m r => Qle_bool l m && Qle_bool m r && Qlt_bool l r
  | RExp s => Qle_bool 0 s
  | RGamma a b => Qle_bool 0 a && Qle_bool 0 b
  | RPareto a => Qlt_bool 0 a
  | RChi df => Qlt_bool 0 df
  end.
Definition i_validb (r : ireq) : bool :=
  match r with
  | RBinom n p => (0 <=? n)%Z && Qle_bool 0 p && Qle_bool p 1
  | RPois lam => Qle_bool 0 lam
  | RGeom p => Qlt_bool 0 p && Qle_bool p 1
  | RInt lo hi => (lo <? hi)%Z
  end.
Definition strict_oracle : oracle := {|
  G := nat;
  drawf := fun r n g => if f_validb r then (Ok (map (ex_float r) (ex_fracs n g)), (g + n)%nat)
                        else (Err (ValueError "bad parameter"), g);
  drawi := fun r n g => if i_validb r then (Ok (map (ex_int r) (ex_fracs n g)), (g + n)%nat)
                        else (Err (ValueError "bad parameter"), g);
  ppf := fun q => 1;
  sqrt_ := fun q => 1;
  exp_ := fun q => 1;
  log_ := fun q => q; pow_ := fun x _ => x;
  fmt := fun _ => "num"%string;
  induce := fun _ cols => Ok cols;
  die_fuel := 20
|}.
Definition strict_state (k : nat) : state (G strict_oracle) := mkState k (fun _ _ => None).

(** * Which numpy distribution each constructor stands for *)

(** The generator call and what becomes of each number drawn: float calls ... *)
Definition float_request (c : ctor) : option (freq * (Q -> pv)) :=
  let flt := fun q => PFlt (Fin q) in
  match c with
  | NewUniform x y => Some (RUniform x y, flt)
  | NewNorm m sd _ _ => Some (RNormal (match m with Some x => x | None => 0 end) sd, flt)
  | NewLognorm m sd _ _ => Some (RLognormal (match m with Some x => x | None => 0 end) sd, flt)
  | NewBeta a b => Some (RBeta a b, flt)
  | NewBernoulli (Some p) => Some (RUniform 0 1, fun u => PInt (if Qlt_bool u p then 1 else 0)%Z)
  | NewTriangular l m r _ _ => Some (RTri l m r, flt)
  | NewPert l m r lam _ _ =>
      Some (RBeta (1 + lam * (m - l) / (r - l)) (1 + lam * (r - m) / (r - l)), fun x => flt (l + x * (r - l)))
  | NewChiSquare df => Some (RChi df, flt)
  | NewExponential sc _ _ => Some (RExp sc, flt)
  | NewGamma a b _ _ => Some (RGamma a b, flt)
  | NewPareto a => Some (RPareto a, fun x => flt (x + 1))
  | _ => None
  end.
(** ... and integer calls. *)
Definition int_request (c : ctor) : option (ireq * (Z -> pv)) :=
  match c with
  | NewBinomial n p => Some (RBinom n p, PInt)
  | NewPoisson lam _ _ => Some (RPois lam, PInt)
  | NewGeometric p => Some (RGeom p, PInt)
  | NewCoin => Some (RInt 0 2, fun z => PStr (if (z =? 1)%Z then "heads" else "tails"))
  | _ => None
  end.
