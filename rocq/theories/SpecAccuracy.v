(** Estimates made of positive numbers, and how many roundings they are exposed to. *)
From Coq Require Import Qabs.
From Verif Require Import Base M_Values M_Sampler M_Double M_DoubleExpr SpecSampler SpecOps SpecRising.
Open Scope Q_scope.

(** Roundings that can add up: a sum or difference is as good as its worse part. *)
Fixpoint steps {T} (e : fexp T) : nat :=
  match e with
  | FPart _ => 1
  | FExp FPlus a b | FExp FMinus a b => S (Nat.max (steps a) (steps b))
  | FExp _ a b => S (steps a + steps b)
  end.
(** From about 10^-307 to about 10^307. *)
Definition moderate (x : Q) : Prop := pow2 (-1021) <= x /\ x <= pow2 1022.
Definition exactly (o : fop) (x y : Q) : Q := match o with FPlus => x + y | FMinus => x - y | FTimes => x * y | FOver => x / y end.
Definition each (o : fop) (xs ys : list Q) : list Q := map (fun p => exactly o (fst p) (snd p)) (combine xs ys).

(** Zero, or from about 10^-307 to about 10^307 without the sign. *)
Definition fits64 (q : Q) : Prop := q == 0 \/ (pow2 (-1022) <= Qabs q /\ Qabs q <= pow2 1023).
(** One sample: the exact number, the double, and the size, which is the number computed as if
    all numbers were positive and all differences sums. *)
Record row : Type := Row { want : Q; got : Q; size : Q }.
Definition part_row (r : row) : Prop := size r == Qabs (want r) /\ fits64 (want r) /\ got r == rnd (want r).
Definition op_row (o : fop) (a b r : row) : Prop :=
  want r == exactly o (want a) (want b) /\ size r == (match o with FTimes => size a * size b | _ => size a + size b end) /\
  fits64 (exactly o (got a) (got b)) /\ got r == rnd (exactly o (got a) (got b)).
Inductive op_rows (o : fop) : list row -> list row -> list row -> Prop :=
| or_nil : op_rows o [] [] []
| or_cons a b r la lb l : op_row o a b r -> op_rows o la lb l -> op_rows o (a :: la) (b :: lb) (r :: l).

Section Spec.
  Variable Or : oracle.
  (** From [s] the parts give [n] numbers each, the numbers [xs] follow exactly, and all numbers
      on the way are moderate; [-] does not occur. *)
  Inductive estimates (n : nat) : fexp (G Or) -> state (G Or) -> list Q -> state (G Or) -> Prop :=
  | est_part d v xs s s' : d <> OLit PNone -> smp Or d n None None s = (Ok v, s') -> numbers n v xs -> Forall moderate xs ->
      estimates n (FPart d) s xs s'
  | est_op o a b xs ys s s1 s2 : o <> FMinus -> estimates n a s xs s1 -> estimates n b s1 ys s2 -> Forall moderate (each o xs ys) ->
      estimates n (FExp o a b) s (each o xs ys) s2.
  (** The same with [-], of numbers of any sign, and without [/]. *)
  Inductive accounts (n : nat) : fexp (G Or) -> state (G Or) -> list row -> state (G Or) -> Prop :=
  | acc_part d v l s s' : d <> OLit PNone -> smp Or d n None None s = (Ok v, s') -> numbers n v (map want l) -> Forall part_row l ->
      accounts n (FPart d) s l s'
  | acc_op o a b la lb l s s1 s2 : o <> FOver -> accounts n a s la s1 -> accounts n b s1 lb s2 -> op_rows o la lb l ->
      accounts n (FExp o a b) s l s2.
End Spec.
