(** Model of [bucket_percentages], squigglepy/utils.py:1308-1396.

    Simplifications: data are a numpy array of finite numbers and arithmetic is exact
    (in particular the counts of [np.histogram] for a number of bins are those of its exact
    edges); edges are numbers or infinities, not nan; a label made by the function is
    represented by its brackets and the two numbers printed, so that two such labels are
    equal exactly when the numbers are; strings as [bins] are not represented; shares
    of no data (numpy: nan) are [Unmodelled]. *)
From Verif Require Import Base M_Percentiles.
Open Scope Q_scope.

Inductive edge : Type := ENeg | EFin (q : Q) | EPos.
(** [x < e], [x <= e] for a datum. *)
Definition lt_edge (x : Q) (e : edge) : bool :=
  match e with ENeg => false | EFin q => Qlt_bool x q | EPos => true end.
Definition le_edge (x : Q) (e : edge) : bool :=
  match e with ENeg => false | EFin q => Qle_bool x q | EPos => true end.
(** [a > b] and [a == b] for edges. *)
Definition edge_gt (a b : edge) : bool :=
  match a, b with
  | ENeg, _ => false
  | EFin _, ENeg => true
  | EFin p, EFin q => Qlt_bool q p
  | EFin _, EPos => false
  | EPos, EPos => false
  | EPos, _ => true
  end.
Definition edge_eqb (a b : edge) : bool :=
  match a, b with ENeg, ENeg | EPos, EPos => true | EFin p, EFin q => Qeq_bool p q | _, _ => false end.

Definition count (f : Q -> bool) (data : list Q) : Z := Z.of_nat (length (filter f data)).

(** [np.diff]. *)
Fixpoint diff (l : list Z) : list Z :=
  match l with
  | a :: ((b :: _) as r) => (b - a)%Z :: diff r
  | _ => []
  end.
(** Positions of the edges in the sorted data: from the left, the last from the
    right. *)
Fixpoint cumulative (data : list Q) (edges : list edge) : list Z :=
  match edges with
  | [] => []
  | [e] => [count (fun x => le_edge x e) data]
  | e :: r => count (fun x => lt_edge x e) data :: cumulative data r
  end.
Fixpoint falls (edges : list edge) : bool :=
  match edges with
  | a :: ((b :: _) as r) => edge_gt a b || falls r
  | _ => false
  end.
Definition qmin (a b : Q) : Q := if Qle_bool a b then a else b.
Definition qmax (a b : Q) : Q := if Qle_bool a b then b else a.
(** The edges of [k] equal bins: [np.linspace] over the range of the data, which is
    (0, 1) without data and widened by a half on both sides when the data are all equal. *)
Definition equal_edges (data : list Q) (k : Z) : list edge :=
  let lo := match data with [] => 0 | x :: r => fold_left qmin r x end in
  let hi := match data with [] => 1 | x :: r => fold_left qmax r x end in
  let (lo, hi) := if Qeq_bool lo hi then (lo - (1#2), hi + (1#2)) else (lo, hi) in
  map (fun i => EFin (lo + (hi - lo) * (inject_Z (Z.of_nat i) / inject_Z k))) (seq 0 (S (Z.to_nat k))).

(** The argument [bins]. *)
Inductive bins_arg : Type := NoBins | BinCount (k : Z) | BinEdges (l : list edge).
(** [np.histogram(data, bins=bins)]. *)
Definition np_histogram (data : list Q) (bins : bins_arg) : res (list Z * list edge) :=
  match bins with
  | NoBins => Err TypeError
  | BinCount k => if (k <? 1)%Z then Err (ValueError "`bins` must be positive, when an integer")
                  else let e := equal_edges data k in Ok (diff (cumulative data e), e)
  | BinEdges e => if falls e then Err (ValueError "`bins` must increase monotonically, when an array")
                  else Ok (diff (cumulative data e), e)
  end.

(** The labels: brackets and the numbers printed, or what the caller gave. *)
Inductive label : Type := Auto (left_open : bool) (lo hi : edge) | Given (s : string).
Definition label_eqb (a b : label) : bool :=
  match a, b with
  | Auto o lo hi, Auto o' lo' hi' => Bool.eqb o o' && edge_eqb lo lo' && edge_eqb hi hi'
  | Given s, Given t => String.eqb s t
  | _, _ => false
  end.
Fixpoint auto_labels (edges : list edge) : list label :=
  match edges with
  | a :: ((b :: _) as r) => Auto (edge_eqb a ENeg) a b :: auto_labels r
  | _ => []
  end.

(** Python dicts with labels as keys. *)
Fixpoint bset (d : list (label * Q)) (k : label) (v : Q) : list (label * Q) :=
  match d with
  | [] => [(k, v)]
  | (k', v') :: d' => if label_eqb k' k then (k', v) :: d' else (k', v') :: bset d' k v
  end.
Definition bdict (l : list (label * Q)) : list (label * Q) := fold_left (fun d kv => bset d (fst kv) (snd kv)) l [].

(** [v / total * (100 if as_percentage else 1)]. *)
Definition share_of (data : list Q) (as_percentage : bool) (v : Z) : Q :=
  inject_Z v / qlen data * (if as_percentage then 100 else 1).

Definition bucket_percentages (data : list Q) (bins : bins_arg) (custom_bins : option (list (edge * edge)))
    (normalize as_percentage : bool) (labels : option (list string)) : res (list (label * Q)) :=
  do ce <- match custom_bins with
           | Some cb =>
               let counts := map (fun b => count (fun x => negb (lt_edge x (fst b)) && lt_edge x (snd b)) data) cb in
               match rev cb with
               | [] => Err IndexError
               | b :: _ => Ok (counts, map fst cb ++ [snd b])
               end
           | None => np_histogram data bins
           end;
  let (counts, edges) := ce : list Z * list edge in
  let bin_count := (Z.of_nat (length edges) - 1)%Z in
  do values <- (if normalize
                then match data, counts with
                     | [], _ :: _ => Err Unmodelled
                     | _, _ => Ok (map (share_of data as_percentage) counts)
                     end
                else Ok (map inject_Z counts));
  let labels := match labels with None => auto_labels edges | Some l => map Given l end in
  if negb (Z.of_nat (length labels) =? bin_count)%Z
  then Err (ValueError "Number of labels must match number of bins")
  else Ok (bdict (combine labels values)).
