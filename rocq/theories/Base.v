(** Shared vocabulary: Python exceptions as values, the result monad, and
    small list helpers used by several models. *)
From Coq Require String.
From Coq Require Export List ZArith QArith Qround Qpower Bool Lia.
Export ListNotations.
Export String.StringSyntax.
Notation string := String.string.
Delimit Scope string_scope with string.
Bind Scope string_scope with String.string.
Open Scope list_scope.

(** Python exception classes raised by the modelled code.  [ValueError] carries
    a short tag naming the [raise] statement, because several properties say
    which check fires.  [Unmodelled] marks inputs on which the Python code does
    something this model does not describe; no theorem may rely on it being a
    particular behaviour. *)
Inductive exn : Type :=
| ValueError (msg : string)
| AssertionError
| TypeError
| ZeroDivisionError
| OverflowError
| IndexError
| AttributeError
| RuntimeError
| LinAlgError
| FileNotFoundError
| KeyError
| NameError
| Unmodelled.
Arguments ValueError msg%string.

Inductive res (A : Type) : Type :=
| Ok (a : A)
| Err (e : exn).
Arguments Ok {A} a.
Arguments Err {A} e.

Definition bind {A B : Type} (x : res A) (f : A -> res B) : res B :=
  match x with Ok a => f a | Err e => Err e end.

Notation "'do' x <- e ; f" := (bind e (fun x => f))
  (at level 200, x name, e at level 100, f at level 200, right associativity).

Definition is_ok {A} (x : res A) : bool :=
  match x with Ok _ => true | Err _ => false end.

Definition is_value_error {A} (x : res A) : bool :=
  match x with Err (ValueError _) => true | _ => false end.

(** Left-to-right evaluation of a list comprehension whose body may raise. *)
Fixpoint mapM {A B : Type} (f : A -> res B) (l : list A) : res (list B) :=
  match l with
  | [] => Ok []
  | x :: xs => do y <- f x; do ys <- mapM f xs; Ok (y :: ys)
  end.

(** Python's builtin [sum] over exact numbers. *)
Definition qsum (l : list Q) : Q := fold_left Qplus l 0%Q.

(** Strict comparison on rationals as a boolean (Python [a < b]). *)
Definition Qlt_bool (a b : Q) : bool := negb (Qle_bool b a).
