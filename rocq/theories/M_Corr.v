(** Model of squigglepy/correlation.py.  Numbers are exact rationals; infinities
    and nan are not modelled. *)
From Verif Require Import Base.
Open Scope Q_scope.

(* ------------------------------------------------------------------ *)
(** * correlate *)

Definition matrix := list (list Q).

(** The [correlation] argument: a number, or nested lists (a 2-d array). *)
Inductive corr_arg : Type := CScalar (q : Q) | CMatrix (m : matrix).

Definition entry (m : matrix) (i j : nat) : Q := nth j (nth i m []) 0.

(** [np.full((k, k), q)] with the diagonal set to 1, correlation.py:147-151. *)
Definition full_matrix (k : nat) (q : Q) : matrix :=
  map (fun i => map (fun j => if Nat.eqb i j then 1 else q) (seq 0 k)) (seq 0 k).

(** [np.array(correlation, dtype=np.float64)], correlation.py:154: rows of different
    lengths are a ValueError. *)
Definition np_matrix (m : matrix) : res matrix :=
  match m with
  | [] => Ok m
  | row :: _ => if forallb (fun r => Nat.eqb (length r) (length row)) m then Ok m
                else Err (ValueError "inhomogeneous shape")
  end.

(** correlation.py:134-154. *)
Definition to_matrix (k : nat) (c : corr_arg) : res matrix :=
  match c with
  | CScalar q => if Qlt_bool (-1) q && Qlt_bool q 1 then Ok (full_matrix k q) else Err AssertionError
  | CMatrix m => np_matrix m
  end.

(** [CorrelationGroup.__post_init__], correlation.py:180-204.  [eig_ok m] stands for
    [np.all(np.linalg.eigvals(m) >= 0)].  An empty list becomes a 1-d array whose
    [shape[1]] is an IndexError. *)
Definition check_matrix (eig_ok : matrix -> bool) (k : nat) (m : matrix) : res unit :=
  match m with
  | [] => Err IndexError
  | row :: _ =>
      if negb (Nat.eqb (length m) (length row) && Nat.eqb (length row) k) then Err AssertionError
      else if negb (forallb (fun i => Qeq_bool (entry m i i) 1) (seq 0 k)) then Err AssertionError
      else if negb (forallb (forallb (fun x => Qle_bool (-1) x && Qle_bool x 1)) m) then Err AssertionError
      else if negb (eig_ok m) then Err AssertionError
      else if negb (forallb (fun i => forallb (fun j => Qeq_bool (entry m i j) (entry m j i)) (seq 0 k)) (seq 0 k))
      then Err AssertionError
      else Ok tt
  end.

(** Distributions as heap objects: what they are (opaque) and their
    [correlation_group] attribute.  Groups are numbered. *)
Record var : Type := mkVar { what : nat; grp : option nat }.
Record group : Type := mkGroup {
  dists : list nat;            (* correlated_dists *)
  wanted : matrix;             (* correlation_matrix *)
  tol : option Q;              (* correlation_tolerance *)
  min_unique : Z               (* min_unique_samples *)
}.
Record cheap : Type := mkHeap { vars : list var; groups : list group }.

Fixpoint index_of (x : nat) (l : list nat) : nat :=
  match l with [] => 0%nat | y :: l' => if Nat.eqb x y then 0%nat else S (index_of x l') end.
(** First occurrences, in order. *)
Fixpoint firsts (seen l : list nat) : list nat :=
  match l with
  | [] => []
  | x :: l' => if existsb (Nat.eqb x) seen then firsts seen l' else x :: firsts (x :: seen) l'
  end.

(** [correlate(variables, correlation, tolerance, _min_unique_samples)],
    correlation.py:55-166.  [deepcopy] of the tuple copies each distinct object once.
    Simplification: a distribution's own parameters are one opaque value, copied with
    it; [variables] are existing objects. *)
Definition correlate (eig_ok : matrix -> bool) (h : cheap) (vs : list nat) (c : corr_arg)
    (tolerance : option Q) (min_u : Z) : res (list nat * cheap) :=
  if Nat.ltb (length vs) 2 then Err (ValueError "You must provide at least two variables to correlate.")
  else
  do objs <- mapM (fun v => match nth_error (vars h) v with Some o => Ok o | None => Err Unmodelled end) vs;
  if negb (forallb (fun o => match grp o with None => true | Some _ => false end) objs) then Err AssertionError
  else
  do m <- to_matrix (length vs) c;
  do _ <- check_matrix eig_ok (length vs) m;
  let originals := firsts [] vs in
  let g := length (groups h) in
  let copies := map (fun v => mkVar (what (nth v (vars h) (mkVar 0 None))) (Some g)) originals in
  let new_vs := map (fun v => (length (vars h) + index_of v originals)%nat) vs in
  Ok (new_vs, mkHeap (vars h ++ copies) (groups h ++ [mkGroup new_vs m tolerance min_u])).

(* ------------------------------------------------------------------ *)
(** * induce_correlation *)

(** [np.unique] on floats: sorted, without repetitions. *)
Fixpoint uinsert (x : Q) (l : list Q) : list Q :=
  match l with
  | [] => [x]
  | y :: l' => if Qlt_bool x y then x :: l
               else if Qlt_bool y x then y :: uinsert x l'
               else l
  end.
Definition np_unique (l : list Q) : list Q := fold_right uinsert [] l.

(** [has_sufficient_sample_diversity], correlation.py:330-350. *)
Definition diverse (min_u : Z) (col : list Q) : bool :=
  let u := inject_Z (Z.of_nat (length (np_unique col))) in
  let n := inject_Z (Z.of_nat (length col)) in
  Qle_bool (7 # 10) (u / n) && (min_u <=? Z.of_nat (length (np_unique col)))%Z.

(** [scipy.stats.rankdata(..., method="min")]. *)
Definition rank_min (l : list Q) : list nat :=
  map (fun x => S (length (filter (fun y => Qlt_bool y x) l))) l.

(** [np.unique] on ranks and the position of each rank in it ([return_inverse]). *)
Fixpoint ninsert (x : nat) (l : list nat) : list nat :=
  match l with
  | [] => [x]
  | y :: l' => if Nat.ltb x y then x :: l else if Nat.ltb y x then y :: ninsert x l' else l
  end.
Definition n_unique (l : list nat) : list nat := fold_right ninsert [] l.
Definition inverse (all l : list nat) : list nat := map (fun x => index_of x (n_unique all)) l.

Section Induce.
  (** [np.argsort] (the default sort is not stable). *)
  Variable argsort : list nat -> list nat.
  (** The new scores of every column, correlation.py:243-264, computed from the rank
      matrix and the wanted correlations with scipy's normal quantiles and Cholesky
      factors; may raise LinAlgError. *)
  Variable scores : matrix -> list (list nat) -> res (list (list Q)).
  (** [spearmanr(samples).statistic] as a matrix. *)
  Variable spearman : list (list Q) -> matrix.

  (** One pass of the loop in [_sort_data_according_to_rank], correlation.py:289-296:
      [data[np.argsort(old_order), i][new_order]]. *)
  Definition resort (col : list Q) (old_rank new_rank : list nat) : list Q :=
    let old_order := inverse (old_rank ++ new_rank) old_rank in
    let new_order := inverse (old_rank ++ new_rank) new_rank in
    let sorted := map (fun k => nth k col 0) (argsort old_order) in
    map (fun k => nth k sorted 0) new_order.

  (** [_check_empirical_correlation], correlation.py:298-328; [np.isclose] with
      [rtol=0]. *)
  Definition close (t a b : Q) : bool := Qle_bool (a - b) t && Qle_bool (b - a) t.
  Definition well_correlated (t : Q) (m : matrix) (cols : list (list Q)) : bool :=
    let e := spearman cols in
    let k := length cols in
    if Nat.eqb k 2 then close t (entry e 0 1) (entry m 0 1)
    else forallb (fun i => forallb (fun j => close t (entry e i j) (entry m i j)) (seq 0 k)) (seq 0 k).

  Definition is_identity (m : matrix) : bool :=
    forallb (fun i => forallb (fun j => Qeq_bool (entry m i j) (if Nat.eqb i j then 1 else 0)) (seq 0 (length m)))
            (seq 0 (length m)).

  Fixpoint map3 {A B C D} (f : A -> B -> C -> D) (a : list A) (b : list B) (c : list C) : list D :=
    match a, b, c with
    | x :: a', y :: b', z :: c' => f x y z :: map3 f a' b' c'
    | _, _, _ => []
    end.

  Definition no_rows (cols : list (list Q)) : bool := match cols with [] :: _ => true | _ => false end.

  (** [CorrelationGroup.induce_correlation], correlation.py:210-277.  A tolerance of
      None or 0 skips the final check.  Without samples the share of different
      values is a division by zero. *)
  Definition induce_correlation (g : group) (cols : list (list Q)) : res (list (list Q)) :=
    if no_rows cols then Err ZeroDivisionError
    else if negb (forallb (diverse (min_unique g)) cols)
    then Err (ValueError "The data has too many repeated values to induce a correlation.")
    else if is_identity (wanted g) then Ok cols
    else
      let ranks := map rank_min cols in
      do news <- scores (wanted g) ranks;
      let out := map3 resort cols ranks (map rank_min news) in
      match tol g with
      | None => Ok out
      | Some t => if Qeq_bool t 0 then Ok out
                  else if well_correlated t (wanted g) out then Ok out
                  else Err RuntimeError
      end.
End Induce.
