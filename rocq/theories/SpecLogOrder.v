(** The order of results of [get_log_percentiles]. *)
From Coq Require Import Reals.
From Verif Require Import Base M_Values M_Formulas M_LogPercentiles.
Open Scope Q_scope.

(** Minus infinity is below every logarithm; nothing is said about nan. *)
Definition log_le (a b : rnum) : Prop :=
  match a, b with
  | RMinf, RMinf | RMinf, RFin _ => True
  | RFin x, RFin y => (x <= y)%R
  | _, _ => False
  end.
(** A text is the number written and the digits of its mantissa. *)
Definition text_le (a b : Q * Z) : Prop := fst a <= fst b /\ snd a = snd b.
Definition logs_le (a b : lout) : Prop :=
  match a, b with
  | LNone, LNone => True
  | LLog x, LLog y => log_le x y
  | LTexts d, LTexts d' => Forall2 (fun x y => fst x = fst y /\ text_le (snd x) (snd y)) d d'
  | LLogs d, LLogs d' => Forall2 (fun x y => fst x = fst y /\ log_le (snd x) (snd y)) d d'
  | _, _ => False
  end.
Definition rising_round (rr : Z -> R -> R) : Prop := forall d x y, (x <= y)%R -> (rr d x <= rr d y)%R.
