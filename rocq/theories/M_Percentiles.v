(** Model of the percentile helpers, squigglepy/utils.py:430-630.

    Simplifications: data, weights and percentiles are finite rational numbers;
    arithmetic is exact; whether a rounded number is an int or a float is not recorded.
    Percentiles that are neither a number nor a list are not represented.  Negative
    weights, weights adding up to 0 and the percentiles of no data are [Unmodelled]
    (numpy interpolates in unsorted points or returns nan). *)
From Verif Require Import Base M_Values M_Ops.
Open Scope Q_scope.

(** [_round(x, digits)] of a number, utils.py:123-132. *)
Definition round_to (digits : option Z) (x : Q) : Q :=
  match digits with None => x | Some d => np_round x d end.

(** Sorting, as [np.percentile] does. *)
Fixpoint insert (x : Q) (l : list Q) : list Q :=
  match l with
  | [] => [x]
  | y :: l' => if Qle_bool x y then x :: l else y :: insert x l'
  end.
Definition qsort (l : list Q) : list Q := fold_right insert [] l.

Definition qlen {A} (l : list A) : Q := inject_Z (Z.of_nat (length l)).

(** [np.percentile(data, p)] with the default method "linear": the position
    (n-1)*p/100 in the sorted data, interpolating between neighbours. *)
Definition np_percentile (data : list Q) (p : Q) : Q :=
  let s := qsort data in
  let v := (qlen data - 1) * (p / 100) in
  let i := Z.to_nat (Qfloor v) in
  let a := nth i s 0 in
  let b := nth (Nat.min (S i) (length data - 1)) s 0 in
  a + (b - a) * (v - inject_Z (Qfloor v)).
Definition np_percentiles (data ps : list Q) : res (list Q) :=
  if negb (forallb (fun p => Qle_bool 0 p && Qle_bool p 100) ps)
  then Err (ValueError "Percentiles must be in the range [0, 100]")
  else match data with
       | [] => Err Unmodelled
       | _ => Ok (map (np_percentile data) ps)
       end.

(** [np.interp(x, xp, fp)] for nondecreasing [xp]: constant outside, linear between
    the last point not to the right of [x] and the next one. *)
Fixpoint interp_from (x x0 y0 : Q) (pts : list (Q * Q)) : Q :=
  match pts with
  | [] => y0
  | (x1, y1) :: r =>
      if Qle_bool x1 x then interp_from x x1 y1 r
      else (y1 - y0) / (x1 - x0) * (x - x0) + y0
  end.
Definition np_interp (pts : list (Q * Q)) (x : Q) : Q :=
  match pts with
  | [] => 0
  | (x0, y0) :: r => if Qlt_bool x x0 then y0 else interp_from x x0 y0 r
  end.

(** [(np.cumsum(weights) - 0.5 * weights) / np.sum(weights)]. *)
Fixpoint quantile_points (total acc : Q) (ws : list Q) : list Q :=
  match ws with
  | [] => []
  | w :: ws' => (acc + w - (1#2) * w) / total :: quantile_points total (acc + w) ws'
  end.

(** What [percentiles] can be: a list or one number. *)
Inductive parg : Type := PList (ps : list Q) | POne (p : Q).
Definition plist (a : parg) : list Q := match a with PList ps => ps | POne p => [p] end.

(** Python dicts with numbers as keys: a later entry with an equal key replaces the
    value. *)
Fixpoint dset {V} (d : list (Q * V)) (k : Q) (v : V) : list (Q * V) :=
  match d with
  | [] => [(k, v)]
  | (k', v') :: d' => if Qeq_bool k' k then (k', v) :: d' else (k', v') :: dset d' k v
  end.
Fixpoint dget {V} (d : list (Q * V)) (k : Q) : option V :=
  match d with
  | [] => None
  | (k', v) :: d' => if Qeq_bool k' k then Some v else dget d' k
  end.
Definition dict_of {V} (l : list (Q * V)) : list (Q * V) := fold_left (fun d kv => dset d (fst kv) (snd kv)) l [].

Inductive pout : Type := One (v : Q) | Dict (d : list (Q * Q)).

Section Percentiles.
  (** [np.argsort] (not stable). *)
  Variable argsort : list Q -> list nat.

  (** [_weighted_percentile], utils.py:430-453. *)
  Definition weighted_points (data weights : list Q) : list (Q * Q) :=
    let o := argsort data in
    combine (quantile_points (qsum weights) 0 (map (fun k => nth k weights 0) o))
            (map (fun k => nth k data 0) o).
  Definition weighted_percentile (data weights ps : list Q) : res (list Q) :=
    if negb (Nat.eqb (length data) (length weights)) then Err (ValueError "Data and weights must be of the same length")
    else match data with
         | [] => Err (ValueError "array of sample points is empty")
         | _ => if forallb (fun w => Qle_bool 0 w) weights && Qlt_bool 0 (qsum weights)
                then Ok (map (fun p => np_interp (weighted_points data weights) (p / 100)) ps)
                else Err Unmodelled
         end.

  (** [get_percentiles], utils.py:456-500. *)
  Definition get_percentiles (data : list Q) (percentiles : parg) (weights : option (list Q))
      (reverse : bool) (digits : option Z) : res pout :=
    let ps := plist percentiles in
    let labels := if reverse then rev ps else ps in
    do vals <- match weights with
               | Some w => weighted_percentile data w ps
               | None => np_percentiles data ps
               end;
    let vals := map (round_to digits) vals in
    match labels, vals with
    | [_], v :: _ => Ok (One v)
    | [_], [] => Err IndexError
    | _, _ => Ok (Dict (dict_of (combine labels vals)))
    end.

  Definition lookup (o : pout) (k : Q) : res Q :=
    match o with
    | Dict d => match dget d k with Some v => Ok v | None => Err KeyError end
    | One _ => Err TypeError
    end.

  Record mean_ci : Type := MeanCI { mc_mean : Q; mc_low : Q; mc_high : Q }.
  (** [get_mean_and_ci], utils.py:559-593. *)
  Definition get_mean_and_ci (data : list Q) (credibility : Q) (weights : option (list Q)) (digits : option Z) : res mean_ci :=
    let low := (100 - credibility) / 2 in
    let high := 100 - low in
    do o <- get_percentiles data (PList [low; high]) weights false digits;
    do l <- lookup o low;
    do h <- lookup o high;
    Ok (MeanCI (round_to digits (qsum data / qlen data)) l h).

  Record median_ci : Type := MedianCI { md_median : Q; md_low : Q; md_high : Q }.
  (** [get_median_and_ci], utils.py:596-630. *)
  Definition get_median_and_ci (data : list Q) (credibility : Q) (weights : option (list Q)) (digits : option Z) : res median_ci :=
    let low := (100 - credibility) / 2 in
    let high := 100 - low in
    do o <- get_percentiles data (PList [low; 50; high]) weights false digits;
    do m <- lookup o 50;
    do l <- lookup o low;
    do h <- lookup o high;
    Ok (MedianCI m l h).
End Percentiles.
