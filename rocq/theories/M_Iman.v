(** Model of the linear algebra in [CorrelationGroup.induce_correlation],
    squigglepy/correlation.py:240-266: normal scores of ranks, Cholesky factors,
    re-correlation.

    Simplifications: exact real arithmetic.  [ppf] is scipy's normal quantile function.
    Matrices are functions of row and column together with their size.  [np.corrcoef]
    also clips its results to [-1, 1], which changes nothing in exact arithmetic. *)
From Coq Require Import Reals Qreals.
From Verif Require Import Base M_Corr.
Open Scope R_scope.

Definition mat := nat -> nat -> R.
Fixpoint sum (k : nat) (f : nat -> R) : R := match k with O => 0 | S k' => sum k' f + f k' end.

(** [scipy.linalg.cholesky(a, lower=True)]: the first [k] columns of the factor, or
    nothing (LinAlgError) if a pivot is not positive.  Only the lower half is read. *)
Fixpoint cholesky (a : mat) (k : nat) : option mat :=
  match k with
  | O => Some (fun _ _ => 0)
  | S j =>
      match cholesky a j with
      | None => None
      | Some l =>
          let pivot := a j j - sum j (fun t => l j t * l j t) in
          if Rlt_dec 0 pivot then
            Some (fun i s => if Nat.eqb s j
                             then (if Nat.ltb i j then 0
                                   else if Nat.eqb i j then sqrt pivot
                                   else (a i j - sum j (fun t => l i t * l j t)) / sqrt pivot)
                             else l i s)
          else None
      end
  end.

(** [np.linalg.inv] of a lower triangular matrix: the first [k] rows, by substitution. *)
Fixpoint inv_lower (l : mat) (k : nat) : mat :=
  match k with
  | O => fun _ _ => 0
  | S i =>
      let v := inv_lower l i in
      fun a j => if Nat.eqb a i
                 then ((if Nat.eqb i j then 1 else 0) - sum i (fun s => l i s * v s j)) / l i i
                 else v a j
  end.
(** [np.dot]. *)
Definition mul (k : nat) (a b : mat) : mat := fun i j => sum k (fun s => a i s * b s j).

(** [np.corrcoef(x, rowvar=False)] of [m] rows. *)
Definition mean (m : nat) (x : mat) (j : nat) : R := sum m (fun i => x i j) / INR m.
Definition cov (m : nat) (x : mat) (j l : nat) : R :=
  sum m (fun i => (x i j - mean m x j) * (x i l - mean m x l)) / (INR m - 1).
Definition corrcoef (m : nat) (x : mat) : mat :=
  fun j l => cov m x j l / sqrt (cov m x j j) / sqrt (cov m x l l).
(** A column without spread gives nan. *)
Definition spreadless (m : nat) (x : mat) (j : nat) : bool :=
  if Req_EM_T (sum m (fun i => (x i j - mean m x j) * (x i j - mean m x j))) 0 then true else false.

Section Scores.
  Variable ppf : R -> R.
  (** correlation.py:243-244: van der Waerden scores of a rank matrix given by columns. *)
  Definition vdw (m : nat) (ranks : list (list nat)) : mat :=
    fun i j => ppf (INR (nth i (nth j ranks []) 0%nat) / (INR m + 1)).
  (** correlation.py:246-264.  [cholesky] refuses nan with a ValueError.  Ragged columns
      and matrices of the wrong size do not occur. *)
  Definition new_scores (wanted : matrix) (ranks : list (list nat)) : res (list (list R)) :=
    let k := length ranks in
    let m := length (hd [] ranks) in
    let x := vdw m ranks in
    match cholesky (fun i j => Q2R (entry wanted i j)) (length wanted) with
    | None => Err LinAlgError
    | Some p =>
        if negb (Nat.eqb (length wanted) k && forallb (fun c => Nat.eqb (length c) m) ranks) then Err Unmodelled
        else if existsb (spreadless m x) (seq 0 k) then Err (ValueError "array must not contain infs or NaNs")
        else match cholesky (corrcoef m x) k with
             | None => Err LinAlgError
             | Some q =>
                 let s := mul k p (inv_lower q k) in
                 Ok (map (fun j => map (fun i => sum k (fun l => x i l * s j l)) (seq 0 m)) (seq 0 k))
             end
    end.
  (** [rankdata(..., method="min")] of real scores, correlation.py:267. *)
  Definition rank_real (l : list R) : list nat :=
    map (fun x => S (length (filter (fun y => if Rlt_dec y x then true else false) l))) l.
  (** The scores as far as [induce_correlation] uses them: by their ranks. *)
  Definition vdw_scores (wanted : matrix) (ranks : list (list nat)) : res (list (list Q)) :=
    do news <- new_scores wanted ranks;
    Ok (map (fun c => map (fun r => inject_Z (Z.of_nat r)) (rank_real c)) news).
End Scores.
