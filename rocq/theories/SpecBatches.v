(** Samples drawn in batches. *)
From Verif Require Import Base M_Weights M_Values M_Sampler SpecSampler.
Open Scope Q_scope.

(** Drawing [n + m] numbers is drawing [n] and then [m]. *)
Definition steady (Or : oracle) : Prop :=
  (forall r n m g xs g1 ys g2, drawf Or r n g = (Ok xs, g1) -> drawf Or r m g1 = (Ok ys, g2) -> drawf Or r (n + m) g = (Ok (xs ++ ys), g2)) /\
  (forall r n m g xs g1 ys g2, drawi Or r n g = (Ok xs, g1) -> drawi Or r m g1 = (Ok ys, g2) -> drawi Or r (n + m) g = (Ok (xs ++ ys), g2)).
(** Distributions that use one request to the generator: all but the t distributions with bounds
    and [log_tdist]; discrete distributions are mixtures. *)
Definition stepwise (k : leaf) : Prop :=
  match k with
  | LCatList _ | LCatDict _ | LLogT _ _ _ _ => False
  | LT x y _ _ => x = None /\ y = None
  | _ => True
  end.
(** [n + m] samples of [o] are [n] samples followed by [m] samples. *)
Definition continues Or (o : obj (G Or)) (n m : nat) (s : state (G Or)) : Prop :=
  forall v s1 w s2, smp Or o n None None s = (Ok v, s1) -> smp Or o m None None s1 = (Ok w, s2) ->
  exists u, smp Or o (n + m) None None s = (Ok u, s2) /\ elems u = elems v ++ elems w.
