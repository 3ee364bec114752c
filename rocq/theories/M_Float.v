(** Weight checking of squigglepy/utils.py in rounded arithmetic. *)
From Verif Require Import Base M_Weights.
Open Scope Q_scope.
Local Open Scope string_scope.
Local Open Scope list_scope.

(** Elsewhere float arithmetic is taken to be exact; here addition, subtraction and
    division are arbitrary functions, and so are the values of the literals
    0.99 and 1.01. *)
Record floats_impl : Type := { fadd : Q -> Q -> Q; fsub : Q -> Q -> Q; fdiv : Q -> Q -> Q; c99 : Q; c101 : Q }.

Section Fl.
  Variable F : floats_impl.
  Context {A : Type}.

  (** [sum(weights)], utils.py:69: left to right, starting from 0.  (Python 3.12
      compensates rounding errors, which only makes the sum more accurate.) *)
  Definition fl_sum (l : list Q) : Q := fold_left (fadd F) l 0.
  (** utils.py:69-93 for finite weights, not relative, in a list. *)
  Definition fl_finish (ws : list Q) (vs : list A) : res (list Q * list A) :=
    let s := fl_sum ws in
    if Nat.eqb (S (length ws)) (length vs) && Qlt_bool s 1 then filter_loop (ws ++ [fsub F 1 s]) vs
    else if Qle_bool s (c99 F) || Qle_bool (c101 F) s then Err (ValueError "weights don't sum to 1")
    else if negb (Nat.eqb (length ws) (length vs)) then Err (ValueError "weights and values not same length")
    else filter_loop ws vs.
  (** [weights = [1 / len_ for _ in range(len_)]], utils.py:61-63. *)
  Definition fl_equal (n : nat) : list Q := repeat (fdiv F 1 (inject_Z (Z.of_nat n))) n.
  (** [normalize], utils.py:330-332, with utils.py:71-72 and 80-93. *)
  Definition fl_normalize (ws : list Q) : list Q := map (fun w => fdiv F w (fl_sum ws)) ws.
End Fl.
