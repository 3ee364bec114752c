(** Expressions over discrete distributions and the programs of independent choices they stand for. *)
From Verif Require Import Base M_Weights M_Values M_Sampler M_Ops SpecWeights SpecOps SpecProgram SpecLarge.
Open Scope Q_scope.

(** Numbers, [sq.bernoulli], [sq.die] and [sq.discrete], combined by [+], [-], [*],
    [dist_max], [dist_min] and [sq.mixture]. *)
Inductive binary : Type := BSum | BDiff | BProd | BMax | BMin.
Inductive dexp : Type :=
| XNum (x : Q)
| XChoice (c : choice)
| XOp (o : binary) (a b : dexp)
| XMix (l : list (Q * dexp)).
Definition exact (o : binary) (x y : Q) : Q :=
  match o with
  | BSum => x + y
  | BDiff => x - y
  | BProd => x * y
  | BMax => if Qlt_bool x y then y else x
  | BMin => if Qlt_bool y x then y else x
  end.
(** The number a value stands for. *)
Definition value (v : pv) : Q := match v with PInt z => inject_Z z | PFlt (Fin x) => x | _ => 0 end.

(** The library's distribution. *)
Definition leaf_of (c : choice) : leaf :=
  match c with
  | CEvent p | CBernoulli p => LBernoulli p
  | CCoin => LCoin
  | CDie n => LDie (Z.of_nat n) None
  | CDiscrete l => LCatList (map (fun e => IPair (Num (fst e)) (snd e)) l)
  | CAmong l => LCatList (map IPlain l)
  end.
Fixpoint obj_of {T} (e : dexp) : obj T :=
  match e with
  | XNum x => OLit (PFlt (Fin x))
  | XChoice c => ODist (DLeaf (leaf_of c) None None)
  | XOp BSum a b => ODist (DComplex (obj_of a) (obj_of b) (FOp Add))
  | XOp BDiff a b => ODist (DComplex (obj_of a) (obj_of b) (FOp Sub))
  | XOp BProd a b => ODist (DComplex (obj_of a) (obj_of b) (FOp Mul))
  | XOp BMax a b => dist_max2 (obj_of a) (obj_of b)
  | XOp BMin a b => dist_min2 (obj_of a) (obj_of b)
  | XMix l => ODist (DMixture (map fst l) (map (fun e => obj_of (snd e)) l) None None)
  end.
(** The program: each part makes its own choices, even if it occurs twice. *)
Definition branches {A} (l : list (Q * A)) : choice :=
  CDiscrete (combine (map fst l) (map (fun i => PInt (Z.of_nat i)) (seq 0 (length l)))).
Fixpoint prog_of (e : dexp) : prog Q :=
  match e with
  | XNum x => Return x
  | XChoice c => Choose c (fun v => Return (value v))
  | XOp o a b => after (prog_of a) (fun x => after (prog_of b) (fun y => Return (exact o x y)))
  | XMix l => Choose (branches l) (fun v => match v with PInt i => nth (Z.to_nat i) (map (fun e => prog_of (snd e)) l) (Return 0) | _ => Return 0 end)
  end.

(** Choices among numbers; mixtures of at least two parts whose weights add up to 1. *)
Fixpoint sound (e : dexp) : Prop :=
  match e with
  | XNum _ => True
  | XChoice c => proper c /\ (forall p, c <> CEvent p) /\ (forall w v, In (w, v) (law c) -> plain v (value v))
  | XOp _ a b => sound a /\ sound b
  | XMix l => (2 <= length l)%nat /\ positive (map fst l) /\ total (map fst l) == 1 /\
              fold_right (fun e P => sound (snd e) /\ P) True l
  end.
(** The most choices one sample takes, and the number of results they have. *)
Fixpoint draws (e : dexp) : nat :=
  match e with
  | XNum _ => 0
  | XChoice _ => 1
  | XOp _ a b => draws a + draws b
  | XMix l => S (fold_right (fun e m => Nat.max (draws (snd e)) m) 0%nat l)
  end.
Fixpoint outcomes (e : dexp) : nat :=
  match e with
  | XNum _ => 0
  | XChoice c => length (law c)
  | XOp _ a b => outcomes a + outcomes b
  | XMix l => length l + fold_right (fun e m => Nat.max (outcomes (snd e)) m) 0%nat l
  end.

(** One sample in state [s] is a number with the property [P]. *)
Definition sample_in Or (o : obj (G Or)) (P : Q -> bool) (s : state (G Or)) : bool :=
  match fst (smp Or o 1 None None s) with Ok (Scalar v) => P (value v) | _ => false end.
(** A property of numbers, however they are written. *)
Definition of_numbers (P : Q -> bool) : Prop := forall x y, x == y -> P x = P y.
Definition expected (e : dexp) : Q := expect (prog_of e) (fun x => x).
Definition variance (e : dexp) : Q := expect (prog_of e) (fun x => (x - expected e) * (x - expected e)).
