(** Counting: how many of finitely many equally likely draws have a property. *)
From Verif Require Import Base M_Values M_Sampler SpecWeights SpecMixture.
Open Scope Q_scope.

(** [P] holds of exactly [c] things. *)
Definition counted {A} (P : A -> Prop) (c : nat) : Prop :=
  exists l, NoDup l /\ (forall a, In a l <-> P a) /\ length l = c.
(** The [k]-th of [N] equally likely draws 0, 1/N, 2/N, ... (numpy: N = 2^53), and those
    that select component [i]. *)
Definition grid (N k : nat) : Q := inject_Z (Z.of_nat k) / inject_Z (Z.of_nat N).
Definition selects (ws : list Q) (N i k : nat) : Prop := (k < N)%nat /\ falls ws (grid N k) i.
Definition qnat (n : nat) : Q := inject_Z (Z.of_nat n).
(** The sum of [f 0 ... f (n - 1)], and the weighted sum of values. *)
Fixpoint sum_to (f : nat -> Q) (n : nat) : Q := match n with O => 0 | S m => sum_to f m + f m end.
Definition weighted (ws vs : list Q) : Q := sum_to (fun i => nth i ws 0 * nth i vs 0) (length ws).
(** States from which numpy's next uniform draw is 0, 1/N, 2/N, ... in turn. *)
Definition each_draw (Or : oracle) (N : nat) (s : nat -> state (G Or)) : Prop :=
  forall k, (k < N)%nat -> exists u g, drawf Or (RUniform 0 1) 1 (rng (s k)) = (Ok [u], g) /\ u == grid N k.
(** The same for the next two draws. *)
Definition each_pair (Or : oracle) (N : nat) (s : nat -> nat -> state (G Or)) : Prop :=
  forall k l, (k < N)%nat -> (l < N)%nat ->
  exists u g u' g', drawf Or (RUniform 0 1) 1 (rng (s k l)) = (Ok [u], g) /\ drawf Or (RUniform 0 1) 1 g = (Ok [u'], g') /\
    u == grid N k /\ u' == grid N l.
