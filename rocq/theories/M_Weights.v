(** Model of the weight-processing helpers of squigglepy/utils.py. *)
From Verif Require Import Base.
Open Scope Q_scope.
Local Open Scope string_scope.
Local Open Scope list_scope.

(** A weight as passed by the user: an NA-like value ([None] or nan), a finite
    number, or something [np.isnan] rejects with TypeError (e.g. a string).
    Simplification: infinite weights are not represented; bools inside a list
    count as the numbers 0 and 1. *)
Inductive cell : Type := NA | Num (q : Q) | Bad.

(** The shapes of the [weights] / [relative_weights] argument that utils.py
    lines 35-40 distinguish.  [WNonIter] is anything that is neither a number
    nor an iterable (bool, str, a distribution...).  Simplification: other
    iterables (generators, sets, pandas Series) are not represented. *)
Inductive warg : Type :=
| WNone
| WScalar (c : cell)          (* float or int, not bool *)
| WList (l : list cell)       (* the caller's own list object *)
| WArray (l : list cell)      (* numpy array *)
| WTuple (l : list cell)
| WNonIter.

(** The shapes of the [values] argument (utils.py lines 27 and 42-53). *)
Inductive varg (A : Type) : Type :=
| VNone
| VNonIter
| VList (l : list A)
| VArray (l : list A)
| VSeries (l : list A)        (* pandas Series *)
| VTuple (l : list A)
| VDict (l : list (A * cell)).
Arguments VNone {A}.
Arguments VNonIter {A}.
Arguments VList {A} l.
Arguments VArray {A} l.
Arguments VSeries {A} l.
Arguments VTuple {A} l.
Arguments VDict {A} l.

Definition wnone (w : warg) : bool := match w with WNone => true | _ => false end.

(** [_safe_len(values) == 0 or values is None], utils.py:27 with [_safe_len]
    (utils.py:152-162): only lists and numpy arrays can have length 0; tuples,
    dicts and pandas Series always have [_safe_len] 1. *)
Definition values_missing {A} (v : varg A) : bool :=
  match v with
  | VNone => true
  | VList [] => true
  | VArray [] => true
  | _ => false
  end.

(** Where the weights object of the function body came from: the caller's list
    itself, a fresh Python list of Python floats, a fresh list of numpy
    scalars, or a tuple.  Needed for [.append] (utils.py:75), which mutates the
    caller's list and does not exist on tuples, and for division by a zero sum,
    which raises for Python numbers and gives nan/inf for numpy scalars. *)
Inductive prov : Type := PCaller | PFresh | PNumpy | PTuple.

(** utils.py:35-40. *)
Definition weights_of_warg (w : warg) : res (option (list cell * prov)) :=
  match w with
  | WNone => Ok None
  | WScalar c => Ok (Some ([c], PFresh))
  | WList l => Ok (Some (l, PCaller))
  | WArray l => Ok (Some (l, PNumpy))
  | WTuple l => Ok (Some (l, PTuple))
  | WNonIter => Err (ValueError "passed weights must be an iterable")
  end.

(** [_is_na_like] (utils.py:119-120) on a weight. *)
Definition is_na_cell (c : cell) : res bool :=
  match c with NA => Ok true | Num _ => Ok false | Bad => Err TypeError end.

(** [any([_is_na_like(w) for w in weights])], utils.py:67: the comprehension is
    evaluated completely before [any]. *)
Definition any_na (l : list cell) : res bool :=
  do bs <- mapM is_na_cell l; Ok (existsb (fun b => b) bs).

Definition cell_q (c : cell) : Q := match c with Num q => q | _ => 0 end.

(** [normalize] (utils.py:312-332) on Python numbers: [sum_lst = sum(lst);
    [l / sum_lst for l in lst]]. *)
Definition normalize (l : list Q) : res (list Q) :=
  match l with
  | [] => Ok []
  | _ => if Qeq_bool (qsum l) 0 then Err ZeroDivisionError
         else Ok (map (fun x => x / qsum l) l)
  end.

Section Pwv.
  (** [A] is the type of Python objects used as values.  [as_pair v] is
      [Some (w, x)] when [v] is a Python list of length 2 (utils.py:56), with
      its two elements, the first read as a weight.  [is_na v] is
      [_is_na_like v] (utils.py:119-120). *)
  Context {A : Type}.
  Variable as_pair : A -> option (cell * A).
  Variable is_na : A -> bool.

  (** The weight/value filter loop, utils.py:83-91. *)
  Fixpoint filter_loop (ws : list Q) (vs : list A) : res (list Q * list A) :=
    match ws, vs with
    | [], _ => Ok ([], [])
    | w :: ws', v :: vs' =>
        if Qlt_bool w 0 then Err (ValueError "weight cannot be negative")
        else do r <- filter_loop ws' vs';
             if Qlt_bool 0 w then Ok (w :: fst r, v :: snd r) else Ok r
    | _ :: _, [] => Err IndexError     (* excluded by the length check *)
    end.

  (** Division by a zero sum when the weights are numpy scalars (normalize on a
      list taken from an array): 0/0 = nan, which both comparisons of the loop
      at utils.py:84-88 ignore; x/0 = +-inf.  Since the sum is 0, either all
      entries are 0 (everything is silently dropped) or one is negative and its
      -inf is rejected. *)
  Definition numpy_zero_sum (ws : list Q) (vs : list A) : res (list Q * list A) :=
    if negb (Nat.eqb (length ws) (length vs))
    then Err (ValueError "weights and values not same length")
    else if forallb (fun w => Qeq_bool w 0) ws then Ok ([], [])
    else Err (ValueError "weight cannot be negative").

  (** utils.py:67-93, once weights and values are both lists.  Second component
      of the result: the weights object after the call (it changes only by the
      [append] of line 75). *)
  Definition finish (relative : bool) (ws : list cell) (p : prov) (vs : list A)
    : res (list Q * list A) * list cell :=
    match any_na ws with
    | Err e => (Err e, ws)
    | Ok true => (Err (ValueError "cannot handle NA-like values in weights"), ws)
    | Ok false =>
      let qs := map cell_q ws in
      let s := qsum qs in
      if relative then
        match p, qs, Qeq_bool s 0 with
        | PNumpy, _ :: _, true => (numpy_zero_sum qs vs, ws)
        | _, _, _ =>
          match normalize qs with
          | Err e => (Err e, ws)
          | Ok ns =>
            if negb (Nat.eqb (length ns) (length vs))
            then (Err (ValueError "weights and values not same length"), ws)
            else (filter_loop ns vs, ws)
          end
        end
      else if Nat.eqb (S (length qs)) (length vs) && Qlt_bool s 1 then
        match p with
        | PTuple => (Err AttributeError, ws)
        | _ => (filter_loop (qs ++ [1 - s]) vs, (ws ++ [Num (1 - s)])%list)
        end
      else if Qle_bool s (99#100) || Qle_bool (101#100) s then
        (Err (ValueError "weights don't sum to 1"), ws)
      else if negb (Nat.eqb (length qs) (length vs))
      then (Err (ValueError "weights and values not same length"), ws)
      else (filter_loop qs vs, ws)
    end.

  (** The inferred equal weights [[1/len_ for _ in range(len_)]], utils.py:62-63. *)
  Definition equal_weights (n : nat) : list cell :=
    repeat (Num (1 / inject_Z (Z.of_nat n))) n.

  (** utils.py:54-65: fill in missing weights, then continue with [finish].
      In the pair case every element must be indexable; an element that is not
      a two-element list is modelled as raising TypeError (simplification:
      longer lists or strings would be indexable). *)
  Definition fill_weights (drop_na relative : bool) (ws : option (list cell * prov))
             (vs : list A) : res (list Q * list A) * option (list cell) :=
    match ws with
    | None =>
      match vs with
      | [] => (Err IndexError, None)                   (* values[0] *)
      | v0 :: _ =>
        match as_pair v0 with
        | Some _ =>
          match mapM (fun v => match as_pair v with Some wx => Ok wx | None => Err TypeError end) vs with
          | Err e => (Err e, None)
          | Ok ps =>
            if drop_na && existsb is_na (map snd ps)
            then (Err (ValueError "cannot drop NA and process weights"), None)
            else (fst (finish relative (map fst ps) PFresh (map snd ps)), None)
          end
        | None =>
          let vs' := if drop_na then filter (fun v => negb (is_na v)) vs else vs in
          (fst (finish relative (equal_weights (length vs')) PFresh vs'), None)
        end
      end
    | Some (l, p) =>
      if drop_na && existsb is_na vs
      then (Err (ValueError "cannot drop NA and process weights"), Some l)
      else let r := finish relative l p vs in (fst r, Some (snd r))
    end.

  (** The caller's weights list after the call: only a list object passed by the
      caller can be changed. *)
  Definition after (w : warg) (r : option (list cell)) : warg :=
    match w, r with
    | WList _, Some l => WList l
    | _, _ => w
    end.

  (** [_process_weights_values(weights, relative_weights, values, drop_na)],
      utils.py:24-93.  Returns the result and the caller's two weight arguments
      as they are after the call. *)
  Definition pwv (weights relative_weights : warg) (values : varg A) (drop_na : bool)
    : res (list Q * list A) * (warg * warg) :=
    if negb (wnone weights) && negb (wnone relative_weights) then
      (Err (ValueError "can only pass either"), (weights, relative_weights))
    else if values_missing values then
      (Err (ValueError "must pass values"), (weights, relative_weights))
    else
      let relative := negb (wnone relative_weights) in
      let w := if relative then relative_weights else weights in
      let out r := (fst r, if relative then (weights, after w (snd r)) else (after w (snd r), relative_weights)) in
      match weights_of_warg w with
      | Err e => (Err e, (weights, relative_weights))
      | Ok ws =>
        match values with
        | VNone | VNonIter =>
            (Err (ValueError "passed values must be an iterable"), (weights, relative_weights))
        | VDict l =>
            match ws with
            | None => (fst (fill_weights drop_na relative (Some (map snd l, PFresh)) (map fst l)), (weights, relative_weights))
            | Some _ => (Err (ValueError "cannot pass dict and weights separately"), (weights, relative_weights))
            end
        | VList l | VArray l | VSeries l | VTuple l =>
            out (fill_weights drop_na relative ws l)
        end
      end.

  (** [collections.Counter(items)], used at utils.py:103: occurrences per
      distinct item, in order of first occurrence. *)
  Variable eqb : A -> A -> bool.

  Fixpoint counter_add (x : A) (c : list (A * nat)) : list (A * nat) :=
    match c with
    | [] => [(x, 1%nat)]
    | (y, n) :: c' => if eqb y x then (y, S n) :: c' else (y, n) :: counter_add x c'
    end.

  Definition counter (l : list A) : list (A * nat) :=
    fold_left (fun c x => counter_add x c) l [].

  (** [_process_discrete_weights_values(items)], utils.py:96-107.
      [hashable l] is whether [set(items)] succeeds; then [_safe_len] of the
      resulting set is 1 (utils.py:152-162 has no case for sets), which is
      below [_safe_len(items) >= 100], so the test at line 101 is true.  For
      unhashable items [_safe_set] returns the list itself and the test is
      false.  [is_list_obj] is [isinstance(_, list)].  Simplification: items
      is a list here (dicts go straight to [_process_weights_values]); the
      counts are exact. *)
  Variable hashable : list A -> bool.
  Variable is_list_obj : A -> bool.

  Definition compress (l : list A) : list (A * cell) :=
    let c := counter l in
    let sumv := fold_left Nat.add (map snd c) 0%nat in
    map (fun kn => (fst kn, Num (inject_Z (Z.of_nat (snd kn)) / inject_Z (Z.of_nat sumv)))) c.

  Definition compresses (l : list A) : bool :=
    match l with
    | [] => false
    | x :: _ => Nat.leb 100 (length l) && negb (is_list_obj x) && hashable l
    end.

  Definition pdwv (l : list A) : res (list Q * list A) :=
    let items := if compresses l then VDict (compress l) else VList l in
    fst (pwv WNone WNone items false).
End Pwv.
