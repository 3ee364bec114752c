(** What the formula helpers should compute. *)
From Coq Require Import Reals.
From Verif Require Import Base M_Weights SpecWeights M_Formulas.
Open Scope R_scope.

(** A probability or NA. *)
Definition prob_or_na (v : rnum) : Prop :=
  match v with RFin p => 0 < p < 1 | RNan | RNone => True | _ => False end.
(** Positive finite odds or NA. *)
Definition odds_or_na (v : rnum) : Prop :=
  match v with RFin o => 0 < o | RNan | RNone => True | _ => False end.

(** The numbers occurring in an argument of [geomean]. *)
Definition item_value (i : gitem) : rnum := match i with GVal v => v | GPair _ v => v end.
Inductive occurs (x : rnum) : varg gitem -> Prop :=
| occ_seq v l i : seq_values v l -> In i l -> item_value i = x -> occurs x v
| occ_dict l i w : In (i, w) l -> item_value i = x -> occurs x (VDict l).

(** The same argument with every number replaced. *)
Definition map_item (f : rnum -> rnum) (i : gitem) : gitem :=
  match i with GVal v => GVal (f v) | GPair w v => GPair w (f v) end.
Definition map_varg (f : rnum -> rnum) (v : varg gitem) : varg gitem :=
  match v with
  | VNone => VNone
  | VNonIter => VNonIter
  | VList l => VList (map (map_item f) l)
  | VArray l => VArray (map (map_item f) l)
  | VSeries l => VSeries (map (map_item f) l)
  | VTuple l => VTuple (map (map_item f) l)
  | VDict l => VDict (map (fun iw => (map_item f (fst iw), snd iw)) l)
  end.
Definition map_res {A B} (f : A -> B) (r : res A) : res B :=
  match r with Ok a => Ok (f a) | Err e => Err e end.

(** Multiplying by a positive number, NA staying NA. *)
Definition times (k : R) (v : rnum) : rnum := match v with RFin x => RFin (k * x) | _ => v end.
(** The complement of a probability, NA staying NA. *)
Definition complement (v : rnum) : rnum :=
  match v with RFin x => RFin (1 - x) | RInf => RMinf | RMinf => RInf | _ => v end.
Definition complement_arg (a : rarg) : rarg :=
  match a with RScalar v => RScalar (complement v) | RSeq l => RSeq (map complement l) end.

(** The weighted geometric mean: the product of x^(w/W). *)
Fixpoint power_product (W : R) (ws : list Q) (xs : list R) : R :=
  match ws, xs with
  | w :: ws', x :: xs' => Rpower x (Q2R w / W) * power_product W ws' xs'
  | _, _ => 1
  end.
Fixpoint product (xs : list R) : R := match xs with [] => 1 | x :: xs' => x * product xs' end.

Definition numbers (xs : list R) : list gitem := map (fun x => GVal (RFin x)) xs.

(** All numbers of an argument lie in [lo, hi], except NA entries that get dropped. *)
Definition usable (lo hi : R) (drop : bool) (v : varg gitem) : Prop :=
  forall x, occurs x v ->
    (exists r, x = RFin r /\ lo <= r <= hi) \/ (drop = true /\ na_like x = true).

(** The number of successes used as an exponent. *)
Definition laplace_power (s : Z) (fixed : bool) : Z :=
  if Z.eqb s 0 then 1 else if fixed then (s + 1)%Z else s.

(** Minus a number, infinities included. *)
Definition opposite (v : rnum) : rnum :=
  match v with RFin x => RFin (- x) | RInf => RMinf | RMinf => RInf | _ => v end.

(** Values without a logarithm. *)
Definition no_log (v : rnum) : Prop := match v with RFin x => x < 0 | RMinf | RNan => True | _ => False end.
