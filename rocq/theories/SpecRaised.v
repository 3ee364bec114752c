(** When one expression never has larger samples than another in double precision. *)
From Verif Require Import Base M_Values M_Sampler M_DoubleExpr SpecRising.
Open Scope Q_scope.

(** The order of numbers and infinities. *)
Definition xbelow (a b : xnum) : Prop :=
  match a, b with
  | NaN, _ | _, NaN => False
  | NInf, _ | _, PInf => True
  | Fin x, Fin y => x <= y
  | _, _ => False
  end.
(** Not above, if both are numbers or infinities at all. *)
Definition not_above (a b : xnum) : Prop := a = NaN \/ b = NaN \/ xbelow a b.

Section Raised.
  Variable Or : oracle.
  Notation fexp := (fexp (G Or)).
  Definition no_negatives (n : nat) (e : fexp) : Prop := forall s zs s', fl_run Or e n s = (Ok zs, s') -> Forall (not_above (Fin 0)) zs.
  (** The same, and never NaN. *)
  Definition proper_sizes (n : nat) (e : fexp) : Prop := forall s zs s', fl_run Or e n s = (Ok zs, s') -> Forall (xbelow (Fin 0)) zs.
  (** From every state of the generator: no sample of [e] is above that of [e'], and the generator
      is left in the same state. *)
  Definition fl_never_above (n : nat) (e e' : fexp) : Prop :=
    forall s zs zs' s1 s2, fl_run Or e n s = (Ok zs, s1) -> fl_run Or e' n s = (Ok zs', s2) -> Forall2 not_above zs zs' /\ s1 = s2.
  (** Expressions of the same shape, with larger parts where that makes them larger. *)
  Inductive raised (n : nat) : fexp -> fexp -> Prop :=
  | ra_part d d' : never_above Or n d d' -> raised n (FPart d) (FPart d')
  | ra_sum a a' b b' : raised n a a' -> raised n b b' -> raised n (FExp FPlus a b) (FExp FPlus a' b')
  | ra_difference a a' b b' : raised n a a' -> raised n b' b -> raised n (FExp FMinus a b) (FExp FMinus a' b')
  | ra_product a a' b b' : no_negatives n a -> no_negatives n a' -> no_negatives n b -> no_negatives n b' ->
      raised n a a' -> raised n b b' -> raised n (FExp FTimes a b) (FExp FTimes a' b')
  | ra_quotient a a' b b' : no_negatives n a -> no_negatives n a' -> no_negatives n b -> no_negatives n b' ->
      raised n a a' -> raised n b' b -> raised n (FExp FOver a b) (FExp FOver a' b').
End Raised.
