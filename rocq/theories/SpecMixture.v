(** What sampling a mixture means. *)
From Verif Require Import Base M_Values M_Sampler SpecWeights.
Open Scope Q_scope.

(** The draw [u] falls into the [i]-th of the consecutive intervals whose
    lengths are the weights; the first interval includes 0 and the last one
    takes whatever the weights leave over. *)
Definition falls (ws : list Q) (u : Q) (i : nat) : Prop :=
  (i < length ws)%nat /\
  (i = 0%nat \/ total (firstn i ws) < u) /\
  (S i = length ws \/ u <= total (firstn (S i) ws)).

(** Weights a mixture can carry: one positive weight per component, adding up to
    about 1 (the library accepts 0.99 to 1.01). *)
Definition ready {A} (ws : list Q) (ds : list A) : Prop :=
  length ws = length ds /\ positive ws /\ 99#100 < total ws /\ total ws < 101#100.

Section Mix.
  Variable Or : oracle.
  Notation St := (state (G Or)).

  (** One uniform draw, then one sample of the component it selects; [n] times. *)
  Inductive one_by_one (ws : list Q) (ds : list (obj (G Or))) : nat -> St -> list pv -> St -> Prop :=
  | obo_done s : one_by_one ws ds 0 s [] s
  | obo_step n s u g i o x s1 xs s2 :
      drawf Or (RUniform 0 1) 1 (rng s) = (Ok [u], g) ->
      falls ws u i -> nth_error ds i = Some o ->
      smp Or o 1 None None (mkState g (corr s)) = (Ok (Scalar x), s1) ->
      one_by_one ws ds n s1 xs s2 ->
      one_by_one ws ds (S n) s (x :: xs) s2.

  (** Every component sampled [n] times, in order. *)
  Inductive all_columns (n : nat) : list (obj (G Or)) -> St -> list (list pv) -> St -> Prop :=
  | ac_nil s : all_columns n [] s [] s
  | ac_cons o ds s v s1 cols s2 :
      smp Or o n None None s = (Ok v, s1) -> all_columns n ds s1 cols s2 ->
      all_columns n (o :: ds) s (match v with Scalar x => [x] | Arr l => l end :: cols) s2.

  (** The [j]-th value is the [j]-th entry of the column selected by the [j]-th
      draw. *)
  Definition selected (ws : list Q) (us : list Q) (cols : list (list pv)) (xs : list pv) : Prop :=
    length xs = length us /\
    forall j u, nth_error us j = Some u ->
      exists i col, falls ws u i /\ u <= total ws /\ nth_error cols i = Some col /\
        nth_error col j = nth_error xs j /\ nth_error xs j <> None.

  (** Zero inflation: a draw at most [p] gives 0, any other a sample of [d]. *)
  Inductive zero_or_sample (p : Q) (d : obj (G Or)) : nat -> St -> list pv -> St -> Prop :=
  | zs_done s : zero_or_sample p d 0 s [] s
  | zs_zero n s u g xs s2 :
      drawf Or (RUniform 0 1) 1 (rng s) = (Ok [u], g) -> u <= p ->
      zero_or_sample p d n (mkState g (corr s)) xs s2 ->
      zero_or_sample p d (S n) s (PInt 0 :: xs) s2
  | zs_sample n s u g x s1 xs s2 :
      drawf Or (RUniform 0 1) 1 (rng s) = (Ok [u], g) -> p < u ->
      smp Or d 1 None None (mkState g (corr s)) = (Ok (Scalar x), s1) ->
      zero_or_sample p d n s1 xs s2 ->
      zero_or_sample p d (S n) s (x :: xs) s2.
End Mix.
