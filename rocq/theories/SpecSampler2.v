(** Specifications for clips, supports, purity, model functions and events. *)
From Verif Require Import Base M_Weights M_Values M_Sampler SpecSampler.
Open Scope Q_scope.

(** Samples and a bound of one kind: all floats, or all ints. *)
Definition floats (l : list pv) : Prop := Forall (fun v => exists x, v = PFlt x) l.
Definition integers (l : list pv) : Prop := Forall (fun v => exists z, v = PInt z) l.
Definition one_kind (l : list pv) (lo hi : num) : Prop :=
  (floats l /\ (exists a, lo = NF a) /\ (exists b, hi = NF b)) \/
  (integers l /\ (exists a, lo = NI a) /\ (exists b, hi = NI b)).

(** Which values a distribution may produce. *)
Definition float_in (P : Q -> Prop) (v : pv) : Prop := exists q, v = PFlt (Fin q) /\ P q.
Definition int_in (P : Z -> Prop) (v : pv) : Prop := exists z, v = PInt z /\ P z.
Definition support (k : leaf) (v : pv) : Prop :=
  match k with
  | LUniform x y => x < y -> float_in (fun q => x <= q /\ q < y) v
  | LNormal _ _ => float_in (fun _ => True) v
  | LLognormal _ _ => float_in (fun q => 0 < q) v
  | LInvLognormal _ _ => float_in (fun q => 0 < q) v
  | LBinomial n _ => int_in (fun z => 0 <= z <= n)%Z v
  | LBeta _ _ => float_in (fun q => 0 <= q /\ q <= 1) v
  | LBernoulli _ => v = PInt 0 \/ v = PInt 1
  | LPoisson _ => int_in (fun z => 0 <= z)%Z v
  | LChiSquare _ | LExponential _ | LGamma _ _ => float_in (fun q => 0 <= q) v
  | LPareto _ => float_in (fun q => 1 <= q) v
  | LTriangular l m r => float_in (fun q => l <= q /\ q <= r) v
  | LPert l m r _ => l <= r -> float_in (fun q => l <= q /\ q <= r) v
  | LGeometric _ => int_in (fun z => 1 <= z)%Z v
  | LDie sides None => int_in (fun z => 1 <= z <= sides)%Z v
  | LDie sides (Some _) => int_in (fun z => 1 <= z)%Z v
  | LCoin => v = PStr "heads" \/ v = PStr "tails"
  | LConst x => v = x
  | LT _ _ _ _ | LLogT _ _ _ _ | LCatList _ | LCatDict _ => True
  end.

(** A computation that reads and writes only the generator. *)
Definition rng_only {T A} (m : state T -> res A * state T) : Prop :=
  forall g, exists r g', forall c, m (mkState g c) = (r, mkState g' c).

(** Objects without correlation groups whose user functions only use the
    generator. *)
Fixpoint self_contained {T} (o : obj T) : Prop :=
  match o with
  | OLit _ | OOther => True
  | OCall f => rng_only f /\ forall s, match f s with (Ok o', _) => self_contained o' | _ => True end
  | ODist d => self_contained_dist d
  end
with self_contained_dist {T} (d : dist T) : Prop :=
  match d with
  | DLeaf _ _ _ => True
  | DMixture _ ds _ _ => fold_right and True (map self_contained ds)
  | DComplex l r f =>
      self_contained l /\ self_contained r /\
      match f with
      | FUser1 h => (forall a, rng_only (h a)) /\
          (forall a s, match h a s with (Ok (inr o'), _) => self_contained o' | _ => True end)
      | FUser2 h => (forall a b, rng_only (h a b)) /\
          (forall a b s, match h a b s with (Ok (inr o'), _) => self_contained o' | _ => True end)
      | _ => True
      end
  | DCorr _ _ _ => False
  end.

(** [n] successive successful calls of a model function. *)
Inductive called {T} (f : state T -> res (obj T) * state T) : nat -> state T -> list (obj T) -> state T -> Prop :=
| called_0 s : called f 0 s [] s
| called_S n s o s1 os s2 :
    f s = (Ok o, s1) -> called f n s1 os s2 -> called f (S n) s (o :: os) s2.
(** The results resolved one after another: literals stand for themselves,
    distributions and functions are sampled once. *)
Inductive resolved {T} (one : obj T -> state T -> res val * state T)
  : list (obj T) -> state T -> list pv -> state T -> Prop :=
| res_nil s : resolved one [] s [] s
| res_lit v os s vs s' : resolved one os s vs s' -> resolved one (OLit v :: os) s (v :: vs) s'
| res_obj o os s v s1 vs s' :
    is_dist_or_callable o = true -> one o s = (Ok (Scalar v), s1) ->
    resolved one os s1 vs s' -> resolved one (o :: os) s (v :: vs) s'.
