(** Python / numpy values as they flow through squigglepy/samplers.py. *)
From Coq Require Import Qabs.
From Coq Require String.
From Verif Require Import Base.
Open Scope Q_scope.

(** Extended numbers (IEEE special values; sign of zero not represented). *)
Inductive xnum : Type := Fin (q : Q) | PInf | NInf | NaN.

(** One Python or numpy scalar.  Integers are unbounded (numpy's int64
    wrap-around is not modelled); floats are exact. *)
Inductive pv : Type :=
| PInt (z : Z)
| PFlt (x : xnum)
| PBool (b : bool)
| PStr (s : string)
| PNone.

(** What [sample] returns: a scalar (n = 1, after [_simplify]) or a
    one-dimensional numpy array.  Simplification: single values computed by numpy
    functions inside an expression ([np.ceil], [np.maximum], [np.vectorize] and so on
    of one number) are numpy scalars or 0-dimensional arrays; they are treated like
    Python scalars, although dividing them by zero gives inf or nan instead of raising
    and integers among them do not take negative powers. *)
Inductive val : Type := Scalar (v : pv) | Arr (l : list pv).

(** A finite number used as a clip bound. *)
Inductive num : Type := NI (z : Z) | NF (q : Q).
Definition num_q (a : num) : Q := match a with NI z => inject_Z z | NF q => q end.
Definition num_pv (a : num) : pv := match a with NI z => PInt z | NF q => PFlt (Fin q) end.

Definition b2z (b : bool) : Z := if b then 1%Z else 0%Z.

(** Numeric reading of a scalar; [None] for strings and None. *)
Definition as_x (v : pv) : option xnum :=
  match v with
  | PInt z => Some (Fin (inject_Z z))
  | PFlt x => Some x
  | PBool b => Some (Fin (inject_Z (b2z b)))
  | PStr _ | PNone => None
  end.

(** IEEE comparisons on extended numbers; every comparison with nan is false. *)
Definition xlt (a b : xnum) : bool :=
  match a, b with
  | NaN, _ | _, NaN => false
  | Fin x, Fin y => Qlt_bool x y
  | NInf, NInf => false
  | NInf, _ => true
  | _, PInf => match a with PInf => false | _ => true end
  | _, _ => false
  end.
Definition xeq (a b : xnum) : bool :=
  match a, b with
  | Fin x, Fin y => Qeq_bool x y
  | PInf, PInf | NInf, NInf => true
  | _, _ => false
  end.
Definition xle (a b : xnum) : bool := xlt a b || xeq a b.

Definition qsign (q : Q) : comparison := Qcompare q 0.

Definition xneg (a : xnum) : xnum :=
  match a with Fin q => Fin (- q) | PInf => NInf | NInf => PInf | NaN => NaN end.
Definition xadd (a b : xnum) : xnum :=
  match a, b with
  | Fin x, Fin y => Fin (x + y)
  | NaN, _ | _, NaN => NaN
  | PInf, NInf | NInf, PInf => NaN
  | PInf, _ | _, PInf => PInf
  | NInf, _ | _, NInf => NInf
  end.
Definition xsub (a b : xnum) : xnum := xadd a (xneg b).
Definition xscale_inf (a : xnum) (s : comparison) : xnum :=
  match s with Eq => NaN | Gt => a | Lt => xneg a end.
Definition xmul (a b : xnum) : xnum :=
  match a, b with
  | Fin x, Fin y => Fin (x * y)
  | NaN, _ | _, NaN => NaN
  | PInf, PInf | NInf, NInf => PInf
  | PInf, NInf | NInf, PInf => NInf
  | PInf, Fin y | Fin y, PInf => xscale_inf PInf (qsign y)
  | NInf, Fin y | Fin y, NInf => xscale_inf NInf (qsign y)
  end.
(** True division as numpy does it: x / 0 is +-inf or nan. *)
Definition xdiv (a b : xnum) : xnum :=
  match a, b with
  | NaN, _ | _, NaN => NaN
  | Fin x, Fin y =>
      if Qeq_bool y 0 then match qsign x with Eq => NaN | Gt => PInf | Lt => NInf end
      else Fin (x / y)
  | Fin _, _ => Fin 0
  | _, Fin y => if Qeq_bool y 0 then a else xscale_inf a (qsign y)
  | _, _ => NaN
  end.
Definition qfloor (q : Q) : Z := Qfloor q.
(** Floor division of floats for a non-zero divisor. *)
Definition xfloordiv (a b : xnum) : xnum :=
  match a, b with
  | NaN, _ | _, NaN => NaN
  | Fin x, Fin y => Fin (inject_Z (qfloor (x / y)))
  | Fin x, PInf => match qsign x with Lt => Fin (-1) | _ => Fin 0 end
  | Fin x, NInf => match qsign x with Gt => Fin (-1) | _ => Fin 0 end
  | _, _ => NaN
  end.
Definition xzero (a : xnum) : bool := match a with Fin q => Qeq_bool q 0 | _ => false end.

(** A number, already known to be compared as [c] with 1 in size, to an infinite power. *)
Definition pow_inf (c : comparison) (up : bool) : xnum :=
  match c, up with Eq, _ => Fin 1 | Gt, true | Lt, false => PInf | _, _ => Fin 0 end.

(** The operators of [OperableDistribution] (distributions.py:115-168). *)
Inductive opn : Type := Add | Sub | Mul | Div | FloorDiv | Pow | Lt | Le | Gt | Ge.

Definition is_int_q (q : Q) : bool := Pos.eqb (Qden (Qred q)) 1.
Definition q_to_z (q : Q) : Z := Qnum (Qred q).

(** Float power: C's [pow] for numpy ([arr]), [float.__pow__] for Python, which differ
    for zero to a negative power (inf or ZeroDivisionError) and for negative numbers to
    fractions (nan, or a complex number: [Unmodelled]).  Powers of positive numbers to
    fractions are the oracle [pw]. *)
Definition odd_q (y : Q) : bool := is_int_q y && Z.odd (q_to_z y).
Definition zero_to_neg (arr : bool) : res pv := if arr then Ok (PFlt PInf) else Err ZeroDivisionError.
Definition xpow (pw : Q -> Q -> Q) (arr : bool) (a b : xnum) : res pv :=
  match a, b with
  | _, Fin y =>
      if Qeq_bool y 0 then Ok (PFlt (Fin 1))
      else match a with
           | NaN => Ok (PFlt NaN)
           | PInf => Ok (PFlt (if Qlt_bool 0 y then PInf else Fin 0))
           | NInf => Ok (PFlt (if Qlt_bool 0 y then (if odd_q y then NInf else PInf) else Fin 0))
           | Fin x =>
               if Qeq_bool x 0 then (if Qlt_bool 0 y then Ok (PFlt (Fin 0)) else zero_to_neg arr)
               else if is_int_q y then Ok (PFlt (Fin (Qpower x (q_to_z y))))
               else if Qlt_bool 0 x then Ok (PFlt (Fin (pw x y)))
               else if arr then Ok (PFlt NaN) else Err Unmodelled
           end
  | NaN, _ => Ok (PFlt NaN)
  | _, NaN => Ok (PFlt (if xeq a (Fin 1) then Fin 1 else NaN))
  | Fin x, PInf => Ok (PFlt (pow_inf (Qcompare (Qabs x) 1) true))
  | Fin x, NInf => Ok (PFlt (pow_inf (Qcompare (Qabs x) 1) false))
  | _, PInf => Ok (PFlt PInf)
  | _, NInf => Ok (PFlt (Fin 0))
  end.

(** Integer power, Python scalars or numpy int64 arrays. *)
Definition ipow (arr : bool) (a b : Z) : res pv :=
  if (0 <=? b)%Z then Ok (PInt (a ^ b)%Z)
  else if arr then Err (ValueError "Integers to negative integer powers are not allowed")
  else if (a =? 0)%Z then Err ZeroDivisionError
  else Ok (PFlt (Fin (Qpower (inject_Z a) b))).

(** Result of an arithmetic operator on two integers. *)
Definition iop (arr : bool) (o : opn) (a b : Z) : res pv :=
  match o with
  | Add => Ok (PInt (a + b)%Z)
  | Sub => Ok (PInt (a - b)%Z)
  | Mul => Ok (PInt (a * b)%Z)
  | Div => if (b =? 0)%Z then (if arr then Ok (PFlt (xdiv (Fin (inject_Z a)) (Fin 0))) else Err ZeroDivisionError)
           else Ok (PFlt (Fin (inject_Z a / inject_Z b)))
  | FloorDiv => if (b =? 0)%Z then (if arr then Ok (PInt 0) else Err ZeroDivisionError)
                else Ok (PInt (a / b)%Z)
  | Pow => ipow arr a b
  | Lt => Ok (PBool (a <? b)%Z)
  | Le => Ok (PBool (a <=? b)%Z)
  | Gt => Ok (PBool (b <? a)%Z)
  | Ge => Ok (PBool (b <=? a)%Z)
  end.

(** ... and on two numbers at least one of which is a float. *)
Definition fop (pw : Q -> Q -> Q) (arr : bool) (o : opn) (a b : xnum) : res pv :=
  match o with
  | Add => Ok (PFlt (xadd a b))
  | Sub => Ok (PFlt (xsub a b))
  | Mul => Ok (PFlt (xmul a b))
  | Div => if xzero b && negb arr then Err ZeroDivisionError else Ok (PFlt (xdiv a b))
  | FloorDiv => if xzero b then (if arr then Ok (PFlt (xdiv a b)) else Err ZeroDivisionError)
                else Ok (PFlt (xfloordiv a b))
  | Pow => xpow pw arr a b
  | Lt => Ok (PBool (xlt a b))
  | Le => Ok (PBool (xle a b))
  | Gt => Ok (PBool (xlt b a))
  | Ge => Ok (PBool (xle b a))
  end.

(** Two numpy booleans (arrays): [+] is "or", [*] is "and", [-] is an error. *)
Definition bop (o : opn) (a b : bool) : res pv :=
  match o with
  | Add => Ok (PBool (a || b))
  | Mul => Ok (PBool (a && b))
  | Sub => Err TypeError
  | _ => iop true o (b2z a) (b2z b)
  end.

(** Two strings: [+] appends and comparisons are alphabetical (by code point). *)
Definition sop (o : opn) (s t : string) : res pv :=
  match o with
  | Add => Ok (PStr (String.append s t))
  | Lt => Ok (PBool (String.ltb s t))
  | Le => Ok (PBool (String.leb s t))
  | Gt => Ok (PBool (String.ltb t s))
  | Ge => Ok (PBool (String.leb t s))
  | _ => Err TypeError
  end.
(** A string times an integer repeats it, but not in arrays. *)
Fixpoint str_repeat (k : nat) (s : string) : string :=
  match k with O => ""%string | S k' => String.append s (str_repeat k' s) end.
Definition srep (arr : bool) (o : opn) (s : string) (k : Z) : res pv :=
  match o with
  | Mul => if arr then Err TypeError else Ok (PStr (str_repeat (Z.to_nat k) s))
  | _ => Err TypeError
  end.

(** One application of Python's [operator.*] ([arr = false], Python scalars)
    or of the numpy ufunc on array elements ([arr = true]). *)
Definition binop (pw : Q -> Q -> Q) (arr : bool) (o : opn) (a b : pv) : res pv :=
  match a, b with
  | PBool x, PBool y => if arr then bop o x y else iop false o (b2z x) (b2z y)
  | PBool x, PInt y => iop arr o (b2z x) y
  | PInt x, PBool y => iop arr o x (b2z y)
  | PInt x, PInt y => iop arr o x y
  | PStr s, PStr t => sop o s t
  | PStr s, PInt k | PInt k, PStr s => srep arr o s k
  | PStr s, PBool b | PBool b, PStr s => srep arr o s (b2z b)
  | _, _ =>
    match as_x a, as_x b with
    | Some x, Some y => fop pw arr o x y
    | _, _ => Err TypeError
    end
  end.

(** [operator.neg]. *)
Definition negop (arr : bool) (a : pv) : res pv :=
  match a with
  | PInt z => Ok (PInt (- z)%Z)
  | PFlt x => Ok (PFlt (xneg x))
  | PBool b => if arr then Err TypeError else Ok (PInt (- b2z b)%Z)
  | PStr _ | PNone => Err TypeError
  end.

Fixpoint zipM {A B C} (f : A -> B -> res C) (a : list A) (b : list B) : res (list C) :=
  match a, b with
  | x :: a', y :: b' => do c <- f x y; do cs <- zipM f a' b'; Ok (c :: cs)
  | [], [] => Ok []
  | _, _ => Err (ValueError "operands could not be broadcast")
  end.

(** Numpy broadcasting of an elementwise binary function (one-dimensional). *)
Definition lift2 (f : bool -> pv -> pv -> res pv) (a b : val) : res val :=
  match a, b with
  | Scalar x, Scalar y => do z <- f false x y; Ok (Scalar z)
  | Arr l, Scalar y => do zs <- mapM (fun x => f true x y) l; Ok (Arr zs)
  | Scalar x, Arr l => do zs <- mapM (fun y => f true x y) l; Ok (Arr zs)
  | Arr l, Arr m =>
      match l, m with
      | [x], _ => do zs <- mapM (fun y => f true x y) m; Ok (Arr zs)
      | _, [y] => do zs <- mapM (fun x => f true x y) l; Ok (Arr zs)
      | _, _ => do zs <- zipM (f true) l m; Ok (Arr zs)
      end
  end.
Definition lift1 (f : bool -> pv -> res pv) (a : val) : res val :=
  match a with
  | Scalar x => do z <- f false x; Ok (Scalar z)
  | Arr l => do zs <- mapM (f true) l; Ok (Arr zs)
  end.

(** dtype coercion of [np.array(list)]: objects if None occurs, else strings if
    a string occurs (numbers are formatted by [fmt]), else floats, ints, bools. *)
Section Coerce.
  Variable fmt : pv -> string.
  Definition is_none v := match v with PNone => true | _ => false end.
  Definition is_str v := match v with PStr _ => true | _ => false end.
  Definition is_flt v := match v with PFlt _ => true | _ => false end.
  Definition is_int v := match v with PInt _ => true | _ => false end.
  Definition to_str v := match v with PStr s => PStr s | _ => PStr (fmt v) end.
  Definition to_flt v :=
    match v with PInt z => PFlt (Fin (inject_Z z)) | PBool b => PFlt (Fin (inject_Z (b2z b))) | _ => v end.
  Definition to_int v := match v with PBool b => PInt (b2z b) | _ => v end.
  Definition np_array (l : list pv) : list pv :=
    if existsb is_none l then l
    else if existsb is_str l then map to_str l
    else if existsb is_flt l then map to_flt l
    else if existsb is_int l then map to_int l
    else l.
End Coerce.

(** [_simplify] (utils.py:135-140) of an array: size 1 becomes a scalar. *)
Definition simplify (l : list pv) : val :=
  match l with [x] => Scalar x | _ => Arr l end.

(** [np.maximum] / [np.minimum] of an array element and a bound
    (samplers.py:1232-1235); nan propagates, the result has the wider dtype. *)
Definition wider (v : pv) (b : num) (x : pv) : pv :=
  match v, b with
  | PFlt _, _ | _, NF _ => to_flt x
  | _, _ => to_int x
  end.
Definition np_max (b : num) (v : pv) : res pv :=
  match as_x v with
  | None => Err TypeError
  | Some x => Ok (wider v b (if xlt x (Fin (num_q b)) then num_pv b else v))
  end.
Definition np_min (b : num) (v : pv) : res pv :=
  match as_x v with
  | None => Err TypeError
  | Some x => Ok (wider v b (if xlt (Fin (num_q b)) x then num_pv b else v))
  end.
(** The scalar forms, samplers.py:1236-1240:
    [lclip if samples < lclip else samples]. *)
Definition sc_max (b : num) (v : pv) : res pv :=
  match as_x v with
  | None => Err TypeError
  | Some x => Ok (if xlt x (Fin (num_q b)) then num_pv b else v)
  end.
Definition sc_min (b : num) (v : pv) : res pv :=
  match as_x v with
  | None => Err TypeError
  | Some x => Ok (if xlt (Fin (num_q b)) x then num_pv b else v)
  end.

(** samplers.py:1230-1240.  [_safe_len(samples) > 1] selects the array form;
    a size-1 array is compared like a scalar and, if clipped, replaced by the
    bound itself. *)
Definition apply_lclip (lc : option num) (v : val) : res val :=
  match lc with
  | None => Ok v
  | Some b =>
    match v with
    | Scalar x => do y <- sc_max b x; Ok (Scalar y)
    | Arr [x] => do y <- sc_max b x;
                 match as_x x with
                 | Some x' => if xlt x' (Fin (num_q b)) then Ok (Scalar y) else Ok (Arr [x])
                 | None => Err TypeError
                 end
    | Arr l => do ys <- mapM (np_max b) l; Ok (Arr ys)
    end
  end.
Definition apply_rclip (rc : option num) (v : val) : res val :=
  match rc with
  | None => Ok v
  | Some b =>
    match v with
    | Scalar x => do y <- sc_min b x; Ok (Scalar y)
    | Arr [x] => do y <- sc_min b x;
                 match as_x x with
                 | Some x' => if xlt (Fin (num_q b)) x' then Ok (Scalar y) else Ok (Arr [x])
                 | None => Err TypeError
                 end
    | Arr l => do ys <- mapM (np_min b) l; Ok (Arr ys)
    end
  end.
Definition apply_clips (lc rc : option num) (v : val) : res val :=
  do w <- apply_lclip lc v; apply_rclip rc w.

(** Merging the call's bound with the distribution's, samplers.py:1057-1073. *)
Definition merge_l (call own : option num) : option num :=
  match call, own with
  | None, o => o
  | c, None => c
  | Some a, Some b => if Qlt_bool (num_q a) (num_q b) then Some b else Some a   (* max(a, b) *)
  end.
Definition merge_r (call own : option num) : option num :=
  match call, own with
  | None, o => o
  | c, None => c
  | Some a, Some b => if Qlt_bool (num_q b) (num_q a) then Some b else Some a   (* min(a, b) *)
  end.

(** [np.vectorize] with inferred output type (used for [_lclip] and [_rclip],
    distributions.py:504 and 544): the dtype of the first output is used for
    all outputs, so floats are truncated towards zero when the first output is
    an int, and everything becomes a truth value when it is a bool.  Converting
    nan or inf to int raises; conversions between strings and other values are
    [Unmodelled]. *)
Definition truthy (v : pv) : bool :=
  match v with
  | PStr s => negb (String.eqb s ""%string)
  | PNone => false
  | PInt z => negb (z =? 0)%Z
  | PBool b => b
  | PFlt x => negb (xzero x)
  end.
Definition qtrunc (q : Q) : Z := Z.quot (Qnum q) (Zpos (Qden q)).
Definition cast_like (first x : pv) : res pv :=
  match first, x with
  | PInt _, PFlt (Fin q) => Ok (PInt (qtrunc q))
  | PInt _, PFlt NaN => Err (ValueError "cannot convert float NaN to integer")
  | PInt _, PFlt _ => Err OverflowError
  | PInt _, PBool b => Ok (PInt (b2z b))
  | PFlt _, PInt z => Ok (PFlt (Fin (inject_Z z)))
  | PFlt _, PBool b => Ok (PFlt (Fin (inject_Z (b2z b))))
  | PBool _, _ => Ok (PBool (truthy x))
  | PInt _, PNone => Err TypeError
  | PFlt _, PNone => Ok (PFlt NaN)
  | PInt _, PInt _ | PFlt _, PFlt _ | PStr _, PStr _ | PNone, _ => Ok x
  | _, _ => Err Unmodelled
  end.
Definition vec_cast (l : list pv) : res (list pv) :=
  match l with [] => Err (ValueError "cannot call vectorize on size 0 inputs") | x :: _ => mapM (cast_like x) l end.
(** A vectorised function returns a 0-d array on scalars; it is treated as the
    scalar it contains. *)
Definition vectorize1 (f : pv -> res pv) (a : val) : res val :=
  match a with
  | Scalar x => do y <- f x; Ok (Scalar y)
  | Arr l => do ys <- mapM f l; do zs <- vec_cast ys; Ok (Arr zs)
  end.
Definition vectorize2 (f : pv -> pv -> res pv) (a b : val) : res val :=
  do r <- lift2 (fun _ => f) a b;
  match r with
  | Scalar y => Ok (Scalar y)
  | Arr ys => do zs <- vec_cast ys; Ok (Arr zs)
  end.

(** Python's [<] between two scalars. *)
Definition py_lt (a b : pv) : res bool :=
  match as_x a, as_x b with
  | Some x, Some y => Ok (xlt x y)
  | _, _ => match a, b with PStr s, PStr t => Ok (String.ltb s t) | _, _ => Err TypeError end
  end.

(** [_lclip(n, val)] and [_rclip(n, val)], distributions.py:505-509 and 545-549. *)
Definition lclip_fn (n v : pv) : res pv :=
  match v with PNone => Ok n | _ => do b <- py_lt n v; Ok (if b then v else n) end.
Definition rclip_fn (n v : pv) : res pv :=
  match v with PNone => Ok n | _ => do b <- py_lt v n; Ok (if b then v else n) end.
