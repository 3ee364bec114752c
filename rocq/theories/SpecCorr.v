(** What the correlation properties mean. *)
From Verif Require Import Base M_Values M_Sampler M_Corr SpecSampler.
From Coq Require Import Permutation.
Open Scope Q_scope.

(** Entry-wise description of a correlation matrix for [k] variables. *)
Definition proper_matrix (k : nat) (m : matrix) : Prop :=
  length m = k /\ (forall row, In row m -> length row = k) /\
  (forall i, (i < k)%nat -> entry m i i == 1) /\
  (forall i j, (i < k)%nat -> (j < k)%nat -> -1 <= entry m i j /\ entry m i j <= 1) /\
  (forall i j, (i < k)%nat -> (j < k)%nat -> entry m i j == entry m j i).

(** The matrix an argument stands for: one number means that correlation between all
    pairs. *)
Definition stands_for (k : nat) (c : corr_arg) (m : matrix) : Prop :=
  match c with
  | CScalar q => length m = k /\ (forall row, In row m -> length row = k) /\
      forall i j, (i < k)%nat -> (j < k)%nat -> entry m i j = if Nat.eqb i j then 1 else q
  | CMatrix m' => m = m'
  end.
(** A variable not yet in a group. *)
Definition uncorrelated (h : cheap) (v : nat) : Prop := exists w, nth_error (vars h) v = Some (mkVar w None).

Definition dot (a b : list Q) : Q := fold_right Qplus 0 (map (fun p => fst p * snd p) (combine a b)).
(** The quadratic form of a matrix. *)
Definition quad (m : matrix) (x : list Q) : Q := dot x (map (fun row => dot row x) m).
Definition semidefinite (m : matrix) : Prop := forall x, length x = length m -> 0 <= quad m x.
Definition definite (m : matrix) : Prop :=
  forall x, length x = length m -> (exists v, In v x /\ ~ v == 0) -> 0 < quad m x.
(** The eigenvalue test decides semidefiniteness of proper matrices. *)
Definition eigen_test (eig_ok : matrix -> bool) : Prop :=
  forall k m, proper_matrix k m -> (eig_ok m = true <-> semidefinite m).
(** Scores need a Cholesky factor of the wanted matrix, hence a definite matrix. *)
Definition cholesky_test (scores : matrix -> list (list nat) -> res (list (list Q))) : Prop :=
  forall k m r, proper_matrix k m -> ~ definite m -> scores m r = Err LinAlgError.

(** An argsort: a permutation of the positions that sorts the keys. *)
Definition sorts (argsort : list nat -> list nat) : Prop :=
  forall l, Permutation (argsort l) (seq 0 (length l)) /\
    forall i j, (i <= j < length l)%nat ->
      (nth (nth i (argsort l) 0%nat) l 0%nat <= nth (nth j (argsort l) 0%nat) l 0%nat)%nat.

(** Scores without ties. *)
Definition tie_free (s : list Q) : Prop :=
  forall i j, (i < length s)%nat -> (j < length s)%nat -> nth i s 0 == nth j s 0 -> i = j.
(** A column with at least two values. *)
Definition varied (s : list Q) : Prop := exists a b, In a s /\ In b s /\ a < b.
(** Two columns in the same order. *)
Definition same_order (a b : list Q) : Prop :=
  length a = length b /\
  forall i j, (i < length a)%nat -> (j < length a)%nat -> (nth i a 0 < nth j a 0 <-> nth i b 0 < nth j b 0).
(** [out] is ordered as [s]. *)
Definition ordered_as (s out : list Q) : Prop :=
  length out = length s /\
  forall i j, (i < length s)%nat -> (j < length s)%nat -> nth i s 0 <= nth j s 0 -> nth i out 0 <= nth j out 0.

(** The number of distinct values of a column. *)
Definition Q_dec (a b : Q) : {a = b} + {a <> b}.
Proof. decide equality; [apply Pos.eq_dec|apply Z.eq_dec]. Defined.
Definition distinct (col : list Q) : nat := length (nodup Q_dec (map Qred col)).
Definition enough (min_u : Z) (col : list Q) : Prop :=
  (7 * length col <= 10 * distinct col)%nat /\ (min_u <= Z.of_nat (distinct col))%Z.

(** [scores] computes one score per sample of every variable. *)
Definition well_shaped (scores : matrix -> list (list nat) -> res (list (list Q))) : Prop :=
  forall m r news, scores m r = Ok news -> Forall2 (fun a b => length a = length b) r news.
(** The scores of the first variable are an increasing function of its ranks: the
    re-correlation matrix is lower triangular with a positive first entry. *)
Definition first_kept (scores : matrix -> list (list nat) -> res (list (list Q))) : Prop :=
  forall m c0 cs news, scores m (map rank_min (c0 :: cs)) = Ok news ->
    exists f, hd [] news = map f (rank_min c0) /\
      forall a b, In a (rank_min c0) -> In b (rank_min c0) -> (a < b)%nat -> f a < f b.

(** Spearman's coefficient of two columns without ties. *)
Definition rank_distance (a b : list Q) : Q :=
  fold_right Qplus 0 (map (fun p => let d := inject_Z (Z.of_nat (fst p)) - inject_Z (Z.of_nat (snd p)) in d * d)
                          (combine (rank_min a) (rank_min b))).
Definition rho (a b : list Q) : Q :=
  let n := inject_Z (Z.of_nat (length a)) in 1 - 6 * rank_distance a b / (n * (n * n - 1)).
Definition is_spearman (spearman : list (list Q) -> matrix) : Prop :=
  forall cols i j, (i < length cols)%nat -> (j < length cols)%nat ->
    length (nth i cols []) = length (nth j cols []) -> (2 <= length (nth i cols []))%nat ->
    tie_free (nth i cols []) -> tie_free (nth j cols []) ->
    entry (spearman cols) i j == rho (nth i cols []) (nth j cols []).
(** A value occurring at two positions. *)
Definition repeated (a : Q) (col : list Q) : Prop :=
  exists l1 l2 b, col = l1 ++ a :: l2 /\ In b (l1 ++ l2) /\ b == a.

(** Sampling the members of a group on their own, one after the other. *)
Definition independent (Or : oracle) (members : list (dist (G Or))) (n : nat) : M (state (G Or)) (list val) :=
  mapS (fun d => smp Or (ODist d) n None None) members.
(** Nothing stored for member [i] of group [g]: its next sampling is a joint draw. *)
Definition pending {T} (s : state T) (g i : nat) : Prop := corr s g i = None.
(** The sampler's correlation step for group [g] is [induce_correlation]. *)
Definition induces (Or : oracle) argsort scores spearman (g : nat) (gr : group) : Prop :=
  forall cols, induce Or g (map flts cols) =
    (do out <- induce_correlation argsort scores spearman gr cols; Ok (map flts out)).
(** The refusal of columns with too few distinct values. *)
Definition diversity_error : exn := ValueError "The data has too many repeated values to induce a correlation.".
(** Correlating keeps the shape of the data. *)
Definition keeps_shape (Or : oracle) (g : nat) : Prop :=
  forall cols out, induce Or g cols = Ok out -> Forall2 (fun a b => length a = length b) cols out.
(** The clips a distribution was built with. *)
Inductive clips {T} : dist T -> option num -> option num -> Prop :=
| clips_leaf k lc rc : clips (DLeaf k lc rc) lc rc
| clips_mixture ws ds lc rc : clips (DMixture ws ds lc rc) lc rc
| clips_composed l r f : clips (DComplex l r f) None None
| clips_correlated g i members d lc rc : nth_error members i = Some d -> clips d lc rc -> clips (DCorr g i members) lc rc.
(** Columns in other units: [fs] holds one increasing conversion per column. *)
Definition increasing_on (f : Q -> Q) (c : list Q) : Prop :=
  forall a b, In a c -> In b c -> (a < b -> f a < f b) /\ (a == b -> f a == f b).
Definition convert (fs : list (Q -> Q)) (cols : list (list Q)) : list (list Q) :=
  map (fun p => map (fst p) (snd p)) (combine fs cols).
Definition conversions (fs : list (Q -> Q)) (cols : list (list Q)) : Prop := Forall2 increasing_on fs cols.
(** [spearmanr] looks at ranks only. *)
Definition rank_based (spearman : list (list Q) -> matrix) : Prop :=
  forall fs cols, conversions fs cols -> spearman (convert fs cols) = spearman cols.
