(** Specifications for arithmetic on distributions and for [dist_fn]. *)
From Coq Require String Ascii.
From Verif Require Import Base M_Values M_Sampler SpecSampler.
Open Scope Q_scope.

(** [zs] is the elementwise result of [f] on [xs] and [ys]. *)
Inductive pointwise (f : pv -> pv -> res pv) : list pv -> list pv -> list pv -> Prop :=
| pw_nil : pointwise f [] [] []
| pw_cons x y z xs ys zs :
    f x y = Ok z -> pointwise f xs ys zs -> pointwise f (x :: xs) (y :: ys) (z :: zs).

(** Python scalars are used for one sample, numpy arrays for more. *)
Definition arrays (n : nat) : bool := negb (Nat.eqb n 1).

(** Plain arithmetic on rational numbers; [None] where the result is not a
    rational number or not defined. *)
Definition is_whole (q : Q) : bool := Qeq_bool q (inject_Z (Qfloor q)).
Definition arith (o : opn) (x y : Q) : option Q :=
  match o with
  | Add => Some (x + y)
  | Sub => Some (x - y)
  | Mul => Some (x * y)
  | Div => if Qeq_bool y 0 then None else Some (x / y)
  | FloorDiv => if Qeq_bool y 0 then None else Some (inject_Z (Qfloor (x / y)))
  | Pow => if is_whole y && Qle_bool 0 y then Some (Qpower x (Qfloor y)) else None
  | _ => None
  end.
Definition compare (o : opn) (x y : Q) : option bool :=
  match o with
  | Lt => Some (Qlt_bool x y)
  | Le => Some (Qle_bool x y)
  | Gt => Some (Qlt_bool y x)
  | Ge => Some (Qle_bool y x)
  | _ => None
  end.

(** Arithmetic expressions over numbers and [const(number)]. *)
Inductive aexp : Type :=
| ANumber (a : num)
| AConst (a : num)
| ABin (o : opn) (l r : aexp)
| AMinus (e : aexp).
Fixpoint eval (e : aexp) : option Q :=
  match e with
  | ANumber a | AConst a => Some (num_q a)
  | ABin o l r =>
      match eval l, eval r with
      | Some x, Some y => arith o x y
      | _, _ => None
      end
  | AMinus e => match eval e with Some x => Some (- x) | None => None end
  end.
Fixpoint expr {T} (e : aexp) : obj T :=
  match e with
  | ANumber a => OLit (num_pv a)
  | AConst a => ODist (DLeaf (LConst (num_pv a)) None None)
  | ABin o l r => ODist (DComplex (expr l) (expr r) (FOp o))
  | AMinus e => ODist (DComplex (expr e) (OLit PNone) FNeg)
  end.

(** A value that already is a scalar or a numpy array of one dtype. *)
Definition settled (f : pv -> string) (v : val) : Prop :=
  match v with Scalar _ => True | Arr l => np_array f l = l end.

(** Running functions one after another, threading the state. *)
Definition stateful (T : Type) : Type := val -> state T -> res val * state T.
Definition as_fn {T} (h : stateful T) : fn T :=
  FUser1 (fun a s => match h a s with (Ok v, s') => (Ok (inl v), s') | (Err e, s') => (Err e, s') end).
Fixpoint run_all {T} (hs : list (stateful T)) (a : val) (s : state T) : res val * state T :=
  match hs with
  | [] => (Ok a, s)
  | h :: hs' => match h a s with
                | (Ok v, s') => run_all hs' v s'
                | (Err e, s') => (Err e, s')
                end
  end.
Definition stateful2 (T : Type) : Type := val -> val -> state T -> res val * state T.
Definition as_fn2 {T} (h : stateful2 T) : fn T :=
  FUser2 (fun a b s => match h a b s with (Ok v, s') => (Ok (inl v), s') | (Err e, s') => (Err e, s') end).
(** With a second distribution: each function gets a fresh sample of it. *)
Fixpoint run_all2 {T} (other : state T -> res val * state T) (hs : list (stateful2 T)) (a : val) (s : state T)
  : res val * state T :=
  match hs with
  | [] => (Ok a, s)
  | h :: hs' => match other s with
                | (Err e, s1) => (Err e, s1)
                | (Ok b, s1) => match h a b s1 with
                                | (Ok v, s') => run_all2 other hs' v s'
                                | (Err e, s') => (Err e, s')
                                end
                end
  end.

(** Numbers that are not bools and are finite. *)
Definition plain (v : pv) (q : Q) : Prop :=
  match v with PInt z => inject_Z z == q | PFlt (Fin x) => x == q | _ => False end.

(** [n] copies of one value, as [sample] returns them. *)
Definition copies (x : pv) (n : nat) : val := simplify (repeat x n).

(** A value that reads as the number [q]; the next integer up or down. *)
Definition reads (y : pv) (q : Q) : Prop := match as_x y with Some (Fin r) => r == q | _ => False end.
Definition rounded_up (x y : pv) : Prop :=
  exists q k, plain x q /\ reads y (inject_Z k) /\ inject_Z k - 1 < q /\ q <= inject_Z k.
Definition rounded_down (x y : pv) : Prop :=
  exists q k, plain x q /\ reads y (inject_Z k) /\ inject_Z k <= q /\ q < inject_Z k + 1.

(** Float samples clipped by an int: the first sample decides the type of all. *)
Definition fl (q : Q) : pv := PFlt (Fin q).
Definition below_bound (q : Q) (z : Z) : bool := Qlt_bool q (inject_Z z).
Definition above_bound (q : Q) (z : Z) : bool := Qlt_bool (inject_Z z) q.
Definition towards_zero (q : Q) : Z := if Qle_bool 0 q then Qfloor q else Qceiling q.
Definition int_clipped (hit : Q -> Z -> bool) (first : Q) (z : Z) (q : Q) : pv :=
  if hit first z then PInt (if hit q z then z else towards_zero q)
  else PFlt (Fin (if hit q z then inject_Z z else q)).

(** Texts: dictionary order by character code, and repetition. *)
Inductive before : string -> string -> Prop :=
| before_end c t : before ""%string (String.String c t)
| before_head c d s t : (Ascii.nat_of_ascii c < Ascii.nat_of_ascii d)%nat -> before (String.String c s) (String.String d t)
| before_tail c s t : before s t -> before (String.String c s) (String.String c t).
Fixpoint chars (s : string) : list Ascii.ascii :=
  match s with String.EmptyString => [] | String.String c s' => c :: chars s' end.
(** A function that does not tell equal fractions apart. *)
Definition respects (f : Q -> Q) : Prop := forall x y, x == y -> f x == f y.
