(** Statistics of samples, averaged over all sequences of draws. *)
From Verif Require Import Base M_Values M_Sampler SpecWeights SpecSampler SpecShare SpecProgram SpecLarge SpecIndep SpecColumns.
Open Scope Q_scope.

(** The statistic [F] of the [n] samples in state [s]. *)
Definition statistic Or (o : obj (G Or)) (n : nat) (F : list Q -> Q) (s : state (G Or)) : Q :=
  match fst (smp Or o n None None s) with
  | Ok v => if Nat.eqb (length (elems v)) n && forallb is_number (elems v) then F (map value (elems v)) else 0
  | Err _ => 0
  end.
(** A statistic of numbers, however they are written; at most [B] for numbers between [lo] and [hi]. *)
Definition of_lists (F : list Q -> Q) : Prop := forall xs ys, Forall2 Qeq xs ys -> F xs == F ys.
Definition ranges (e : dexp) (lo hi : Q) : Prop := returns (prog_of e) (fun x => lo <= x <= hi).
Definition at_most (n : nat) (lo hi B : Q) (F : list Q -> Q) : Prop :=
  forall xs, length xs = n -> Forall (fun x => lo <= x <= hi) xs -> - B <= F xs <= B.
Definition mean (n : nat) (xs : list Q) : Q := total xs / qnat n.
(** The squared distance of the mean from [m]. *)
Definition error2 (n : nat) (m : Q) (xs : list Q) : Q := (mean n xs - m) * (mean n xs - m).
Definition square (x : Q) : Q := x * x.
