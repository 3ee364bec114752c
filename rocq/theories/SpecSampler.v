(** What the sampling properties mean, stated without reference to how
    [sample] works. *)
From Verif Require Import Base M_Values M_Sampler.
Open Scope Q_scope.

(** The values in a sampling result. *)
Definition elems (v : val) : list pv := match v with Scalar x => [x] | Arr l => l end.

(** "n samples": a bare scalar for n = 1, an array of length n otherwise. *)
Definition n_samples (n : nat) (v : val) : Prop :=
  match n with
  | 1%nat => exists x, v = Scalar x
  | _ => exists l, v = Arr l /\ length l = n
  end.

(** Numpy's documented behaviour: a generator call that succeeds returns as many
    values as asked for ... *)
Definition right_length (Or : oracle) : Prop :=
  (forall r n g l g', drawf Or r n g = (Ok l, g') -> length l = n) /\
  (forall r n g l g', drawi Or r n g = (Ok l, g') -> length l = n).

(** ... inside the documented support. *)
Definition frange (r : freq) (x : Q) : Prop :=
  match r with
  | RUniform lo hi => lo < hi -> lo <= x /\ x < hi
  | RLognormal _ _ => 0 < x
  | RBeta _ _ => 0 <= x /\ x <= 1
  | RTri l m r => l <= x /\ x <= r
  | RPareto _ | RExp _ | RGamma _ _ | RChi _ => 0 <= x
  | RNormal _ _ | RStdT _ => True
  end.
Definition irange (r : ireq) (z : Z) : Prop :=
  match r with
  | RBinom n _ => (0 <= z <= n)%Z
  | RPois _ => (0 <= z)%Z
  | RGeom _ => (1 <= z)%Z
  | RInt lo hi => (lo <= z < hi)%Z
  end.
Definition in_support (Or : oracle) : Prop :=
  (forall r n g l g', drawf Or r n g = (Ok l, g') -> Forall (frange r) l) /\
  (forall r n g l g', drawi Or r n g = (Ok l, g') -> Forall (irange r) l).

(** Objects covered by "returns n samples": no correlation group, no t or log-t
    distribution without bounds or with equal bounds, and user functions that
    turn n samples into n samples (or into another covered object). *)
Definition keeps_n {T} (h : val -> state T -> res (val + obj T) * state T) : Prop :=
  forall n a s v s', n_samples n a -> h a s = (Ok (inl v), s') -> n_samples n v.
Definition keeps_n2 {T} (h : val -> val -> state T -> res (val + obj T) * state T) : Prop :=
  forall n a b s v s', n_samples n a -> n_samples n b -> h a b s = (Ok (inl v), s') -> n_samples n v.

Definition covered_leaf (k : leaf) : Prop :=
  match k with
  | LT x y _ _ | LLogT x y _ _ =>
      match x, y with
      | Some a, Some b => ~ num_q a == num_q b
      | _, _ => False
      end
  | _ => True
  end.

Fixpoint covered {T} (o : obj T) : Prop :=
  match o with
  | OLit _ | OOther => True
  | OCall f => forall s, match f s with (Ok o', _) => covered o' | _ => True end
  | ODist d => covered_dist d
  end
with covered_dist {T} (d : dist T) : Prop :=
  match d with
  | DLeaf k _ _ => covered_leaf k
  | DMixture _ ds _ _ => fold_right and True (map covered ds)
  | DComplex l r f =>
      covered l /\ covered r /\
      match f with
      | FUser1 h => keeps_n h /\
          (forall a s, match h a s with (Ok (inr o'), _) => covered o' | _ => True end)
      | FUser2 h => keeps_n2 h /\
          (forall a b s, match h a b s with (Ok (inr o'), _) => covered o' | _ => True end)
      | _ => True
      end
  | DCorr _ _ _ => False
  end.

(** Numeric value of a scalar (bools count as 0 and 1), up to equality of
    rationals. *)
Definition xsame (a b : xnum) : Prop :=
  match a, b with Fin x, Fin y => x == y | _, _ => a = b end.
Definition same_number (a b : pv) : Prop :=
  match as_x a, as_x b with
  | Some x, Some y => xsame x y
  | None, None => a = b
  | _, _ => False
  end.

(** Only strings. *)
Definition texts (l : list pv) : Prop := Forall (fun v => exists s, v = PStr s) l.

(** Clamping: raise to the lower bound, then lower to the upper bound.  nan has
    no order and is left alone. *)
Definition clamp (lo hi : option Q) (x : xnum) : xnum :=
  let y := match lo with
           | Some l => if xlt x (Fin l) then Fin l else x
           | None => x
           end in
  match hi with
  | Some h => if xlt (Fin h) y then Fin h else y
  | None => y
  end.
(** Not below the lower bound and not above the upper bound. *)
Definition within (lo hi : option Q) (x : xnum) : Prop :=
  match lo with Some l => xlt x (Fin l) = false | None => True end /\
  match hi with Some h => xlt (Fin h) x = false | None => True end.
(** The tightest combination of two optional bounds. *)
Definition tight_lower (a b : option Q) : option Q :=
  match a, b with
  | Some x, Some y => Some (if Qlt_bool x y then y else x)
  | Some x, None => Some x
  | None, o => o
  end.
Definition tight_upper (a b : option Q) : option Q :=
  match a, b with
  | Some x, Some y => Some (if Qlt_bool y x then y else x)
  | Some x, None => Some x
  | None, o => o
  end.
Definition q_of (b : option num) : option Q := option_map num_q b.

(** The same distribution without its own bounds. *)
Definition unclipped {T} (o : obj T) : obj T :=
  match o with
  | ODist (DLeaf k _ _) => ODist (DLeaf k None None)
  | ODist (DMixture ws ds _ _) => ODist (DMixture ws ds None None)
  | _ => o
  end.
Definition own_lower {T} (o : obj T) : option num :=
  match o with ODist (DLeaf _ l _) => l | ODist (DMixture _ _ l _) => l | _ => None end.
Definition own_upper {T} (o : obj T) : option num :=
  match o with ODist (DLeaf _ _ r) => r | ODist (DMixture _ _ _ r) => r | _ => None end.
Definition uncorrelated_top {T} (o : obj T) : Prop :=
  match o with ODist (DCorr _ _ _) => False | _ => True end.

(** Two scalars related by clamping. *)
Definition clamped (lo hi : option Q) (raw out : pv) : Prop :=
  match lo, hi with
  | None, None => out = raw
  | _, _ => match as_x raw, as_x out with
            | Some x, Some y => xsame y (clamp lo hi x)
            | _, _ => False
            end
  end.

(* ------------------------------------------------------------------ *)
(** * A concrete generator, to show the contracts can be met *)

(** A counter; the k-th draw is the fraction [(7 k + 3) mod 10 / 10]. *)
Definition ex_frac (k : nat) : Q := inject_Z ((7 * Z.of_nat k + 3) mod 10)%Z / 10.
Fixpoint ex_fracs (n k : nat) : list Q :=
  match n with O => [] | S n' => ex_frac k :: ex_fracs n' (S k) end.
Definition ex_float (r : freq) (u : Q) : Q :=
  match r with
  | RUniform lo hi => lo + u * (hi - lo)
  | RNormal m sd => m + (u - (1#2)) * sd
  | RLognormal _ _ => 1 + u
  | RStdT _ => u - (1#2)
  | RBeta _ _ => u
  | RTri l m r => l + u * (r - l)
  | RExp _ | RGamma _ _ | RPareto _ | RChi _ => u
  end.
Definition ex_int (r : ireq) (u : Q) : Z :=
  match r with
  | RBinom n _ => 0%Z
  | RPois _ => 1%Z
  | RGeom _ => 1%Z
  | RInt lo hi => (lo + Qfloor (u * inject_Z (hi - lo)))%Z
  end.
Definition ex_fbad (r : freq) : bool :=
  match r with
  | RTri l m r => Qlt_bool r l
  | _ => false
  end.
Definition ex_ibad (r : ireq) : bool :=
  match r with
  | RBinom n _ => (n <? 0)%Z
  | RGeom p => Qle_bool p 0
  | RInt lo hi => (hi <=? lo)%Z
  | _ => false
  end.
Definition ex_oracle : oracle := {|
  G := nat;
  drawf := fun r n g => if ex_fbad r then (Err (ValueError "bad parameter"), g)
                        else (Ok (map (ex_float r) (ex_fracs n g)), (g + n)%nat);
  drawi := fun r n g => if ex_ibad r then (Err (ValueError "bad parameter"), g)
                        else (Ok (map (ex_int r) (ex_fracs n g)), (g + n)%nat);
  ppf := fun q => 1;
  sqrt_ := fun q => 1;
  exp_ := fun q => 1;
  log_ := fun q => q; pow_ := fun x _ => x;
  fmt := fun _ => "num"%string;
  induce := fun _ cols => Ok cols;
  die_fuel := 20
|}.
Definition ex_state (k : nat) : state (G ex_oracle) := mkState k (fun _ _ => None).
