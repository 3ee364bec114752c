(** Building distributions out of others: operators, [dist_fn] and friends
    (squigglepy/distributions.py), [event_occurs] (squigglepy/utils.py). *)
From Verif Require Import Base M_Weights M_Pick M_Values M_Sampler.
Open Scope Q_scope.

(* ------------------------------------------------------------------ *)
(** * Rounding *)

(** Round half to even, the rounding of [np.round]. *)
Definition round_half_even (q : Q) : Z :=
  let f := Qfloor q in
  let r := q - inject_Z f in
  if Qlt_bool r (1#2) then f
  else if Qlt_bool (1#2) r then (f + 1)%Z
  else if Z.even f then f else (f + 1)%Z.
Definition pow10 (d : Z) : Q := Qpower 10 d.
(** [np.round(q, d)] on exact numbers (numpy scales, rounds and unscales). *)
Definition np_round (q : Q) (d : Z) : Q := inject_Z (round_half_even (q * pow10 d)) / pow10 d.

(** [np.round] of a scalar keeps ints as ints for [d >= 0]; bools become floats. *)
Definition np_round_pv (d : Z) (x : pv) : res pv :=
  match x with
  | PInt z => Ok (PInt (round_half_even (np_round (inject_Z z) d)))
  | PFlt (Fin q) => Ok (PFlt (Fin (np_round q d)))
  | PFlt y => Ok (PFlt y)
  | PBool b => Ok (PFlt (Fin (np_round (inject_Z (b2z b)) d)))
  | PStr _ | PNone => Err TypeError
  end.
(** [int(x)]. *)
Definition py_int (x : pv) : res pv :=
  match x with
  | PInt z => Ok (PInt z)
  | PBool b => Ok (PInt (b2z b))
  | PFlt (Fin q) => Ok (PInt (qtrunc q))
  | PFlt NaN => Err (ValueError "cannot convert float NaN to integer")
  | PFlt _ => Err OverflowError
  | PStr _ | PNone => Err Unmodelled
  end.
(** [_round(x, digits)], utils.py:123-132.  An array of digits makes
    [np.round] raise TypeError, and so does [int] of an array of no or one element. *)
Definition round_val (x : val) (digits : val) : res val :=
  match digits with
  | Scalar PNone => Ok x
  | Scalar (PInt d) =>
      match x with
      | Scalar a => do r <- np_round_pv d a;
                    if (d <=? 0)%Z then do i <- py_int r; Ok (Scalar i) else Ok (Scalar r)
      | Arr [] => if (d <=? 0)%Z then Err TypeError else Ok (Arr [])
      | Arr [a] => do r <- np_round_pv d a;
                   if (d <=? 0)%Z then Err TypeError else Ok (Arr [r])
      | Arr l => do rs <- mapM (np_round_pv d) l;
                 if (d =? 0)%Z then do is_ <- mapM py_int rs; Ok (Arr is_) else Ok (Arr rs)
      end
  | _ => Err TypeError
  end.

(* ------------------------------------------------------------------ *)
Section Ops.
  Variable T : Type.
  Notation obj := (obj T).
  Notation dist := (dist T).
  Notation fn := (fn T).

  (** [d op x], distributions.py:115-168: [ComplexDistribution(self, dist, operator.op, ...)]. *)
  Definition op_fwd (o : opn) (d : dist) (x : obj) : dist := DComplex (ODist d) x (FOp o).
  (** [x op d] for the arithmetic operators with a reflected method:
      [ComplexDistribution(dist, self, operator.op, ...)]. *)
  Definition op_refl (o : opn) (x : obj) (d : dist) : dist := DComplex x (ODist d) (FOp o).
  (** [x < d] has no reflected method of its own; Python calls [d.__gt__(x)] and
      so on (the operator dispatch rules of the language). *)
  Definition cmp_refl (o : opn) (x : obj) (d : dist) : option dist :=
    match o with
    | Lt => Some (op_fwd Gt d x)
    | Le => Some (op_fwd Ge d x)
    | Gt => Some (op_fwd Lt d x)
    | Ge => Some (op_fwd Le d x)
    | _ => None
    end.
  (** [==] and [!=], distributions.py:127-131: both pass [operator.le]. *)
  Definition op_eq (d : dist) (x : obj) : dist := DComplex (ODist d) x (FOp Le).
  Definition op_ne (d : dist) (x : obj) : dist := DComplex (ODist d) x (FOp Le).
  (** Unary minus, distributions.py:133-134. *)
  Definition op_neg (d : dist) : dist := DComplex (ODist d) (OLit PNone) FNeg.

  (** Arguments of [dist_fn] (distributions.py:252): an object, a function, a
      list of functions, or None.  Simplifications: a library function is its
      [fn]; display names are dropped; calling [dist_fn] with no function at all
      raises AttributeError in [_get_fname]. *)
  Inductive darg : Type := AObj (o : obj) | AFun (f : fn) | AFuns (l : list fn) | ANone.
  (** Result: a distribution or a function to be used in a pipe. *)
  Inductive dres : Type := RDist (o : obj) | RPipe (h : obj -> res obj).

  (** The loop of distributions.py:313-315. *)
  Definition fold_fns (start : obj) (d2 : obj) (fs : list fn) : obj :=
    fold_left (fun out f => ODist (DComplex out d2 f)) fs start.

  (** [dist_fn(dist1, dist2, fn)], distributions.py:252-317. *)
  Definition dist_fn (d1 d2 f : darg) : res dres :=
    match d1, d2, f with
    | AFuns [], _, _ => Err IndexError                                    (* dist1[0] *)
    | AFuns fs, ANone, ANone => Ok (RPipe (fun d => Ok (fold_fns d (OLit PNone) fs)))
    | AFun g, ANone, ANone => Ok (RPipe (fun d => Ok (fold_fns d (OLit PNone) [g])))
    | AObj o, AFuns [], _ => Err IndexError                               (* dist2[0] *)
    | AObj o, AFuns fs, ANone => Ok (RDist (fold_fns o (OLit PNone) fs))
    | AObj o, AFun g, ANone => Ok (RDist (fold_fns o (OLit PNone) [g]))
    | AObj o, AObj x, AFun g => Ok (RDist (fold_fns o x [g]))
    | AObj o, AObj x, AFuns fs => Ok (RDist (fold_fns o x fs))
    | AObj o, ANone, AFun g => Ok (RDist (fold_fns o (OLit PNone) [g]))
    | AObj o, ANone, AFuns fs => Ok (RDist (fold_fns o (OLit PNone) fs))
    | AObj _, _, ANone => Err AttributeError
    | _, _, _ => Err Unmodelled
    end.

  (** [d >> h] when [h] is a pipe, distributions.py:103-106. *)
  Definition rshift (d : dist) (h : obj -> res obj) : res obj := h (ODist d).
  (** [d >> c] for a ComplexDistribution [c], distributions.py:107-108. *)
  Definition rshift_complex (d : dist) (c : dist) : res obj :=
    match c with
    | DComplex l _ f => Ok (ODist (DComplex (ODist d) l f))
    | _ => Err (ValueError "")
    end.

  (** A pure numpy function as a user function. *)
  Definition pure1 (h : val -> res val) : fn :=
    FUser1 (fun a s => (do v <- h a; Ok (inl v), s)).
  Definition pure2 (h : val -> val -> res val) : fn :=
    FUser2 (fun a b s => (do v <- h a b; Ok (inl v), s)).

  (** [np.maximum] and [np.minimum] of two scalars; nan propagates. *)
  Definition max_pv (a b : pv) : res pv :=
    match as_x a, as_x b with
    | Some NaN, Some _ | Some _, Some NaN => Ok (PFlt NaN)
    | Some x, Some y => Ok (if xlt x y then b else a)
    | _, _ => Err TypeError
    end.
  Definition min_pv (a b : pv) : res pv :=
    match as_x a, as_x b with
    | Some NaN, Some _ | Some _, Some NaN => Ok (PFlt NaN)
    | Some x, Some y => Ok (if xlt y x then b else a)
    | _, _ => Err TypeError
    end.
  (** distributions.py:320-377.  [dist_max(d1)] with one distribution is a pipe
      that puts [d1] second. *)
  Definition dist_max2 (d1 d2 : obj) : obj := fold_fns d1 d2 [pure2 (lift2 (fun _ => max_pv))].
  Definition dist_min2 (d1 d2 : obj) : obj := fold_fns d1 d2 [pure2 (lift2 (fun _ => min_pv))].
  Definition dist_max1 (d1 : dist) : obj -> res obj := fun d => Ok (dist_max2 d (ODist d1)).
  Definition dist_min1 (d1 : dist) : obj -> res obj := fun d => Ok (dist_min2 d (ODist d1)).

  (** [dist_round(d, digits)], distributions.py:380-405: the digits are passed as
      the second operand and therefore sampled with the same [n]. *)
  Definition dist_round (d : obj) (digits : Z) : obj :=
    fold_fns d (OLit (PInt digits)) [pure2 round_val].
  (** [dist_ceil], [dist_floor], distributions.py:408-449. *)
  Definition ceil_pv (a : pv) : res pv :=
    match a with
    | PInt z => Ok (PInt z)
    | PFlt (Fin q) => Ok (PFlt (Fin (inject_Z (Qceiling q))))
    | PFlt x => Ok (PFlt x)
    | PBool b => Ok (PBool b)
    | _ => Err TypeError
    end.
  Definition floor_pv (a : pv) : res pv :=
    match a with
    | PInt z => Ok (PInt z)
    | PFlt (Fin q) => Ok (PFlt (Fin (inject_Z (Qfloor q))))
    | PFlt x => Ok (PFlt x)
    | PBool b => Ok (PBool b)
    | _ => Err TypeError
    end.
  Definition dist_ceil (d : obj) : obj := fold_fns d (OLit PNone) [pure1 (lift1 (fun _ => ceil_pv))].
  Definition dist_floor (d : obj) : obj := fold_fns d (OLit PNone) [pure1 (lift1 (fun _ => floor_pv))].

  (** [math.log] and [math.exp] accept scalars only: an array raises TypeError, even
      with one element (distributions.py:452-500).  Simplification: overflow of
      [math.exp] is not modelled. *)
  Definition math_arg (a : val) : res xnum :=
    match a with
    | Scalar x => match as_x x with Some y => Ok y | None => Err TypeError end
    | Arr _ => Err TypeError
    end.
  Definition math_exp (exp_ : Q -> Q) (x : xnum) : xnum :=
    match x with Fin q => Fin (exp_ q) | PInf => PInf | NInf => Fin 0 | NaN => NaN end.
  Definition math_log1 (log_ : Q -> Q) (x : xnum) : res xnum :=
    match x with
    | Fin q => if Qle_bool q 0 then Err (ValueError "math domain error")
               else Ok (Fin (if Qeq_bool q 1 then 0 else log_ q))
    | NInf => Err (ValueError "math domain error")
    | PInf | NaN => Ok x
    end.
  (** [math.log(x, base)] is a quotient of logarithms. *)
  Definition math_log (log_ : Q -> Q) (a b : val) : res pv :=
    do x <- math_arg a;
    do lx <- math_log1 log_ x;
    do y <- math_arg b;
    do ly <- math_log1 log_ y;
    if xzero ly then Err ZeroDivisionError else Ok (PFlt (xdiv lx ly)).
  Definition dist_exp (exp_ : Q -> Q) (d : obj) : obj :=
    fold_fns d (OLit PNone) [pure1 (fun a => do x <- math_arg a; Ok (Scalar (PFlt (math_exp exp_ x))))].
  Definition dist_log (log_ : Q -> Q) (d : obj) (base : pv) : obj :=
    fold_fns d (ODist (DLeaf (LConst base) None None))
      [pure2 (fun a b => do y <- math_log log_ a b; Ok (Scalar y))].

  (** [lclip(d, b)], [rclip(d, b)] and [clip(d, l, r)] on distributions,
      distributions.py:512-617; a bound of None is passed on as no second operand. *)
  Definition bound_obj (b : option num) : obj :=
    match b with Some x => OLit (num_pv x) | None => OLit PNone end.
  Definition lclip_d (d : obj) (b : option num) : obj := ODist (DComplex d (bound_obj b) FLclip).
  Definition rclip_d (d : obj) (b : option num) : obj := ODist (DComplex d (bound_obj b) FRclip).
  Definition clip_d (d : obj) (l r : option num) : obj := rclip_d (lclip_d d l) r.
  (** The pipe form [clip(l, r)] with two numbers. *)
  Definition clip_pipe (l r : num) : obj -> res obj := fun d => Ok (rclip_d (lclip_d d (Some l)) (Some r)).

  (** [mixture(...)], distributions.py:1713-1774.  Items are plain objects or
      [[weight, object]] pairs; the dict form has objects as keys. *)
  Inductive mitem : Type := MPlain (o : obj) | MPair (w : cell) (o : obj).
  Definition mitem_pair (i : mitem) : option (cell * mitem) :=
    match i with MPlain _ => None | MPair w o => Some (w, MPlain o) end.
  Definition mitem_obj (i : mitem) : obj := match i with MPlain o => o | MPair _ _ => OOther end.
  Definition mixture (items : varg mitem) (w rw : warg) (lc rc : option num) : res dist :=
    do wv <- fst (pwv mitem_pair (fun _ => false) w rw items false);
    Ok (DMixture (fst wv) (map mitem_obj (snd wv)) lc rc).

  (** [zero_inflated(p_zero, dist)], distributions.py:1777-1808.  [PZBad]: a bool
      or a non-number. *)
  Inductive pz : Type := PZNum (q : Q) | PZBad.
  Definition zero_inflated (p : pz) (d : obj) : res dist :=
    match p with
    | PZBad => Err (ValueError "p_zero must be a float or int")
    | PZNum q =>
      if negb (Qle_bool 0 q && Qle_bool q 1) then Err (ValueError "p_zero must be between 0 and 1")
      else if Qeq_bool q 1 then
        mixture (VList [MPlain (OLit (PInt 0))]) (WList [Num 1]) WNone None None
      else if Qeq_bool q 0 then
        mixture (VList [MPlain d]) (WList [Num 1]) WNone None None
      else mixture (VList [MPlain (OLit (PInt 0)); MPlain d]) (WScalar (Num q)) WNone None None
    end.
End Ops.

Arguments op_fwd {T}.
Arguments op_refl {T}.
Arguments cmp_refl {T}.
Arguments op_eq {T}.
Arguments op_ne {T}.
Arguments op_neg {T}.
Arguments AObj {T}.
Arguments AFun {T}.
Arguments AFuns {T}.
Arguments ANone {T}.
Arguments RDist {T}.
Arguments RPipe {T}.
Arguments fold_fns {T}.
Arguments dist_fn {T}.
Arguments rshift {T}.
Arguments rshift_complex {T}.
Arguments pure1 {T}.
Arguments pure2 {T}.
Arguments dist_max2 {T}.
Arguments dist_min2 {T}.
Arguments dist_max1 {T}.
Arguments dist_min1 {T}.
Arguments dist_round {T}.
Arguments dist_ceil {T}.
Arguments dist_floor {T}.
Arguments dist_exp {T}.
Arguments dist_log {T}.
Arguments bound_obj {T}.
Arguments lclip_d {T}.
Arguments rclip_d {T}.
Arguments clip_d {T}.
Arguments clip_pipe {T}.
Arguments MPlain {T}.
Arguments MPair {T}.
Arguments mixture {T}.
Arguments zero_inflated {T}.

(* ------------------------------------------------------------------ *)
(** [event_occurs(p)], utils.py:335-356 ([event] and [event_happens] call it).
    A distribution or function is sampled once first; then one uniform draw is
    compared with [p]. *)
Definition event_occurs (Or : oracle) (p : obj (G Or)) : M (state (G Or)) bool :=
  let! v := match p with
            | OCall _ | ODist _ => smp Or p 1 None None
            | OLit x => ret (Scalar x)
            | OOther => raise Unmodelled
            end in
  let! us := rngf Or (RUniform 0 1) 1 in
  let! u := lift (nth_res us 0) in
  match v with
  | Scalar x => match as_x x with
                | Some y => ret (xlt (Fin u) y)
                | None => raise TypeError
                end
  | Arr _ => raise Unmodelled
  end.
