(** C174: geometric means rise with their values and lie below arithmetic means. *)
From Coq Require Import Reals Lra.
From Verif Require Import Base M_Weights SpecWeights M_Formulas SpecFormulas SpecGeomean P_Geomean2 P_GeomeanMono.
Open Scope R_scope.

(* ---------------------------------------------------------------- C174 *)
(** Whatever the form of the values and weights: raising the numbers raises geomean. *)
Theorem C174_rise :
  forall h lo hi w rw v d g, 0 < lo -> usable lo hi d v -> (forall x, lo <= x <= hi -> x <= h x) ->
  geomean w rw v d = Ok (RFin g) -> exists g', geomean w rw (map_varg (change h) v) d = Ok (RFin g') /\ g <= g'.
Proof. exact geomean_rise. Qed.
Print Assumptions C174_rise.
(** For lists each number may be raised on its own. *)
Theorem C174_rise_each :
  forall ws rs rs' d, Forall2 Rle rs rs' -> (forall r, In r rs -> 0 < r) -> nonneg ws -> length ws = length rs -> (0 < total ws)%Q ->
  (exists g g', geomean WNone WNone (VList (numbers rs)) d = Ok (RFin g) /\ geomean WNone WNone (VList (numbers rs')) d = Ok (RFin g') /\ g <= g') /\
  (exists g g', geomean WNone (WList (map Num ws)) (VList (numbers rs)) d = Ok (RFin g) /\
     geomean WNone (WList (map Num ws)) (VList (numbers rs')) d = Ok (RFin g') /\ g <= g') /\
  ((99#100 < total ws)%Q -> (total ws < 101#100)%Q ->
   exists g g', geomean (WList (map Num ws)) WNone (VList (numbers rs)) d = Ok (RFin g) /\
     geomean (WList (map Num ws)) WNone (VList (numbers rs')) d = Ok (RFin g') /\ g <= g').
Proof. exact lists_rise. Qed.
Print Assumptions C174_rise_each.
(** Raising the probabilities raises the pooled probability. *)
Theorem C174_rise_odds :
  forall h lo hi w rw v d p, 0 < lo -> hi < 1 -> usable lo hi d v -> (forall x, lo <= x <= hi -> x <= h x < 1) ->
  geomean_odds w rw v d = Ok (RScalar (RFin p)) ->
  exists p', geomean_odds w rw (map_varg (change h) v) d = Ok (RScalar (RFin p')) /\ p <= p' < 1.
Proof. exact geomean_odds_rise. Qed.
Print Assumptions C174_rise_odds.
(** Products and powers of the numbers give products and powers of the means. *)
Theorem C174_products :
  forall h k lo hi w rw v d g, 0 < lo -> usable lo hi d v ->
  (forall x, lo <= x <= hi -> 0 < h x /\ 0 < k x) -> geomean w rw v d = Ok g ->
  exists a b, geomean w rw (map_varg (change h) v) d = Ok (RFin a) /\ geomean w rw (map_varg (change k) v) d = Ok (RFin b) /\
    geomean w rw (map_varg (change (fun x => h x * k x)) v) d = Ok (RFin (a * b)).
Proof. exact geomean_products. Qed.
Print Assumptions C174_products.
Theorem C174_powers :
  forall a lo hi w rw v d g, 0 < lo -> usable lo hi d v -> geomean w rw v d = Ok (RFin g) ->
  geomean w rw (map_varg (change (fun x => Rpower x a)) v) d = Ok (RFin (Rpower g a)).
Proof. exact geomean_powers. Qed.
Print Assumptions C174_powers.
(** The geometric mean lies between the harmonic and the arithmetic mean. *)
Theorem C174_means :
  forall ws rs d, (forall r, In r rs -> 0 < r) -> nonneg ws -> length ws = length rs -> (0 < total ws)%Q ->
  (exists g, geomean WNone (WList (map Num ws)) (VList (numbers rs)) d = Ok (RFin g) /\
     / arithmetic_mean ws (map Rinv rs) <= g <= arithmetic_mean ws rs) /\
  ((99#100 < total ws)%Q -> (total ws < 101#100)%Q ->
   exists g, geomean (WList (map Num ws)) WNone (VList (numbers rs)) d = Ok (RFin g) /\
     / arithmetic_mean ws (map Rinv rs) <= g <= arithmetic_mean ws rs).
Proof. exact lists_mean. Qed.
Print Assumptions C174_means.
Theorem C174_plain_mean :
  forall rs d, (forall r, In r rs -> 0 < r) -> rs <> [] ->
  exists g, geomean WNone WNone (VList (numbers rs)) d = Ok (RFin g) /\ g <= sum_of rs / INR (length rs).
Proof. exact plain_mean. Qed.
Print Assumptions C174_plain_mean.

Example C174_sat :
  usable 2 8 true (VList (numbers [2; 8])) /\ (exists g, geomean WNone WNone (VList (numbers [2; 8])) true = Ok (RFin g) /\ g = 4) /\
  sum_of [2; 8] / INR (length [2; 8]) = 5 /\ (forall x, 2 <= x <= 8 -> x <= x + 1) /\
  nonneg [1#2; 1#2] /\ (99#100 < total [1#2; 1#2])%Q /\ (total [1#2; 1#2] < 101#100)%Q.
Proof.
  split; [|split; [|split; [|split; [|split; [|split]]]]].
  - intros x O. left. inversion O as [v l i S I E|]; subst. inversion S; subst. destruct I as [<-|[<-|[]]]; eexists; (split; [reflexivity|lra]).
  - destruct (unweighted_formula [2; 8] true) as (g & E & P & F); [discriminate|intros r [<-|[<-|[]]]; lra|].
    exists g. split; auto. simpl in F. nra.
  - simpl. lra.
  - intros; lra.
  - repeat constructor; discriminate.
  - reflexivity.
  - reflexivity.
Qed.
