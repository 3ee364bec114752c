(** Expressions of distributions with [+], [-], [*] and [/], sampled in double precision.

    Simplifications: whole numbers are turned into doubles before they are computed with (Python
    and numpy do so only when they meet a float or are divided); zero has no sign; divisions by
    zero give infinities or NaN as in numpy. *)
From Verif Require Import Base M_Values M_Ops M_Double M_Ieee M_Sampler.
Open Scope Q_scope.

(** [a + b], [a - b], [a * b] and [a / b], distributions.py:135-157, over any parts. *)
Inductive fop : Type := FPlus | FMinus | FTimes | FOver.
Inductive fexp (T : Type) : Type :=
| FPart (d : obj T)
| FExp (o : fop) (a b : fexp T).
Arguments FPart {T} d.
Arguments FExp {T} o a b.
Definition opn_of (o : fop) : opn := match o with FPlus => Add | FMinus => Sub | FTimes => Mul | FOver => Div end.
(** The library's object. *)
Fixpoint fobj {T} (e : fexp T) : obj T :=
  match e with
  | FPart d => d
  | FExp o a b => ODist (DComplex (fobj a) (fobj b) (FOp (opn_of o)))
  end.
(** One operation of IEEE 754. *)
Definition fl_op (o : fop) (x y : xnum) : xnum :=
  round64 (match o with FPlus => xadd x y | FMinus => xsub x y | FTimes => xmul x y | FOver => xdiv x y end).
(** The values of a part as doubles. *)
Fixpoint doubles (l : list pv) : res (list xnum) :=
  match l with
  | [] => Ok []
  | v :: r => match as_x v with None => Err TypeError | Some x => do r' <- doubles r; Ok (round64 x :: r') end
  end.

Section Run.
  Variable Or : oracle.
  (** samplers.py:1215-1222: the left part is sampled, then the right one, then the operator is
      applied value by value. *)
  Fixpoint fl_run (e : fexp (G Or)) (n : nat) : M (state (G Or)) (list xnum) :=
    match e with
    | FPart d =>
        let! v := smp Or d n None None in
        lift (doubles (match v with Scalar x => [x] | Arr l => l end))
    | FExp o a b =>
        let! xs := fl_run a n in
        let! ys := fl_run b n in
        ret (map (fun p => fl_op o (fst p) (snd p)) (combine xs ys))
    end.
End Run.
