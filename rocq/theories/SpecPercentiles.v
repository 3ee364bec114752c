(** What percentiles are. *)
From Verif Require Import Base M_Percentiles.
From Coq Require Import Permutation Sorted.
Open Scope Q_scope.

(** How many data lie below, or not above, a number. *)
Definition count_below (l : list Q) (v : Q) : nat := length (filter (fun y => Qlt_bool y v) l).
Definition count_upto (l : list Q) (v : Q) : nat := length (filter (fun y => Qle_bool y v) l).
(** [v] is the datum of rank [i] (counting from 0). *)
Definition order_stat (l : list Q) (i : nat) (v : Q) : Prop :=
  In v l /\ (count_below l v <= i < count_upto l v)%nat.

(** The percentile [p] by linear interpolation between order statistics. *)
Definition percentile_of (l : list Q) (p r : Q) : Prop :=
  exists i a b, let v := inject_Z (Z.of_nat (length l - 1)) * (p / 100) in
    inject_Z (Z.of_nat i) <= v /\ v < inject_Z (Z.of_nat i) + 1 /\
    order_stat l i a /\ order_stat l (Nat.min (S i) (length l - 1)) b /\
    r == a + (b - a) * (v - inject_Z (Z.of_nat i)).

Definition all_between (lo hi : Q) (l : list Q) : Prop := forall x, In x l -> lo <= x /\ x <= hi.
Definition smallest (l : list Q) (m : Q) : Prop := In m l /\ forall x, In x l -> m <= x.
Definition largest (l : list Q) (m : Q) : Prop := In m l /\ forall x, In x l -> x <= m.
Definition percent (p : Q) : Prop := 0 <= p /\ p <= 100.

(** Numbers all different. *)
Definition different (l : list Q) : Prop := NoDup (map Qred l).

(** An argsort of numbers. *)
Definition sorts_numbers (argsort : list Q -> list nat) : Prop :=
  forall l, Permutation (argsort l) (seq 0 (length l)) /\
    forall i j, (i <= j < length l)%nat -> nth (nth i (argsort l) 0%nat) l 0 <= nth (nth j (argsort l) 0%nat) l 0.

(** Weights that can be used. *)
Fixpoint sum (l : list Q) : Q := match l with [] => 0 | x :: r => x + sum r end.
Definition usable_weights (data weights : list Q) : Prop :=
  length weights = length data /\ (forall w, In w weights -> 0 <= w) /\ 0 < sum weights.

(** Weighted percentiles: sort the pairs (datum, weight) by datum; the i-th datum sits
    at the weight before it plus half its own, relative to the whole weight; between
    such points the percentile is linear, outside it is constant. *)
Definition datum (l : list (Q * Q)) (i : nat) : Q := fst (nth i l (0, 0)).
Definition weight (l : list (Q * Q)) (i : nat) : Q := snd (nth i l (0, 0)).
Definition point (l : list (Q * Q)) (i : nat) : Q :=
  (sum (map snd (firstn i l)) + weight l i / 2) / sum (map snd l).
Definition interpolates (l : list (Q * Q)) (p r : Q) : Prop :=
  (p / 100 < point l 0 /\ r == datum l 0) \/
  (point l (length l - 1) <= p / 100 /\ r == datum l (length l - 1)) \/
  (exists i, (S i < length l)%nat /\ point l i <= p / 100 /\ p / 100 < point l (S i) /\
     r == datum l i + (datum l (S i) - datum l i) * ((p / 100 - point l i) / (point l (S i) - point l i))).
Definition sorted_pairs (l : list (Q * Q)) : Prop :=
  forall i j, (i <= j < length l)%nat -> datum l i <= datum l j.
Definition weighted_percentile_of (data weights : list Q) (p r : Q) : Prop :=
  exists l, Permutation l (combine data weights) /\ sorted_pairs l /\ interpolates l p r.

(** Percentiles with or without weights. *)
Definition percentile_is (data : list Q) (weights : option (list Q)) (p r : Q) : Prop :=
  match weights with
  | None => percentile_of data p r
  | Some w => weighted_percentile_of data w p r
  end.
(** Arguments for which percentiles exist. *)
Definition good_call (data : list Q) (weights : option (list Q)) (ps : list Q) : Prop :=
  match weights with
  | None => data <> [] /\ forall p, In p ps -> percent p
  | Some w => usable_weights data w
  end.
Definition good_ci (data : list Q) (weights : option (list Q)) : Prop :=
  match weights with None => data <> [] | Some w => usable_weights data w end.
(** Every datum has some weight. *)
Definition positive_weights (data weights : list Q) : Prop :=
  length weights = length data /\ weights <> [] /\ forall w, In w weights -> 0 < w.
Definition weighted_mean_of (data weights : list Q) (m : Q) : Prop :=
  m * sum weights == sum (map (fun dw => fst dw * snd dw) (combine data weights)).

(** Two results showing the same numbers. *)
Definition same_out (a b : pout) : Prop :=
  match a, b with
  | One v, One v' => v == v'
  | Dict d, Dict d' => Forall2 (fun x y => fst x = fst y /\ snd x == snd y) d d'
  | _, _ => False
  end.
(** A dict that has exactly the keys [ps], each with a value satisfying [P]. *)
Definition dict_over (ps : list Q) (d : list (Q * Q)) (P : Q -> Q -> Prop) : Prop :=
  (forall p, In p ps -> exists v, dget d p = Some v /\ P p v) /\
  (forall k v, dget d k = Some v -> exists p, In p ps /\ p == k).
(** Points in order, the second coordinates not falling. *)
Definition climbing (pts : list (Q * Q)) : Prop :=
  StronglySorted (fun a b => fst a < fst b /\ snd a <= snd b) pts.
(** Between which two points, or beyond which end, a number lies. *)
Inductive located (pts : list (Q * Q)) (x : Q) : option (Q * Q) -> option (Q * Q) -> Prop :=
| LBefore q r : pts = q :: r -> x < fst q -> located pts x None (Some q)
| LAfter l q : pts = l ++ [q] -> fst q <= x -> located pts x (Some q) None
| LBetween l q q' r : pts = l ++ q :: q' :: r -> fst q <= x -> x < fst q' -> located pts x (Some q) (Some q').
(** The height over [x] of the line through two points. *)
Definition height (q q' : Q * Q) (x : Q) : Q := snd q + (snd q' - snd q) * ((x - fst q) / (fst q' - fst q)).
