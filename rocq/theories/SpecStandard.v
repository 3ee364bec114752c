(** Distributions with parameters as rescaled standard ones. *)
From Verif Require Import Base M_Values M_Sampler SpecSampler SpecOps SpecRising.
Open Scope Q_scope.

Section Standard.
  Variable Or : oracle.
  Notation obj := (obj (G Or)).
  (** From every state of the generator, the draws for [r] are [a + b * z] for the draws [z]
      for [base], and leave the generator in the same state. *)
  Definition rescaled (base r : freq) (a b : Q) : Prop :=
    forall n g, exists zs g' xs, drawf Or base n g = (Ok zs, g') /\ drawf Or r n g = (Ok xs, g') /\
      Forall2 (fun z x => x == a + b * z) zs xs.
  (** What [numpy.random.Generator] does, in exact arithmetic: [uniform(lo, hi)] is
      [lo + (hi - lo) * random()], [normal(m, sd)] is [m + sd * standard_normal()],
      [exponential(s)] is [s * standard_exponential()] and [gamma(k, s)] is
      [s * standard_gamma(k)]. *)
  Definition standard_draws : Prop :=
    (forall lo hi, lo <= hi -> rescaled (RUniform 0 1) (RUniform lo hi) lo (hi - lo)) /\
    (forall m sd, 0 <= sd -> rescaled (RNormal 0 1) (RNormal m sd) m sd) /\
    (forall sc, 0 <= sc -> rescaled (RExp 1) (RExp sc) 0 sc) /\
    (forall k sc, 0 < k -> 0 <= sc -> rescaled (RGamma k 1) (RGamma k sc) 0 sc).

  (** ... and [lognormal(m, sd)] is the exponential, an increasing positive function, of
      [normal(m, sd)]. *)
  Definition exponential_draws : Prop :=
    exists e : Q -> Q, (forall x, 0 < e x) /\ (forall x y, x <= y -> e x <= e y) /\
    forall m sd, 0 <= sd -> forall n g, exists zs g' xs, drawf Or (RNormal m sd) n g = (Ok zs, g') /\
      drawf Or (RLognormal m sd) n g = (Ok xs, g') /\ Forall2 (fun z x => x == e z) zs xs.

  (** [n] equal numbers. *)
  Definition same_samples (n : nat) (v v' : val) : Prop :=
    exists xs xs', numbers n v xs /\ numbers n v' xs' /\ Forall2 Qeq xs xs'.
  (** Both can be sampled from every state, and differ in nothing. *)
  Definition alike (n : nat) (d d' : obj) : Prop :=
    forall s, exists v v' s', smp Or d n None None s = (Ok v, s') /\ smp Or d' n None None s = (Ok v', s') /\ same_samples n v v'.

  Definition plain_leaf (k : leaf) : obj := ODist (DLeaf k None None).
  (** [d * b + a] and [d * b] as written with operators. *)
  Definition times (d : obj) (b : num) : obj := ODist (DComplex d (OLit (num_pv b)) (FOp Mul)).
  Definition times_plus (d : obj) (b a : num) : obj := ODist (DComplex (times d b) (OLit (num_pv a)) (FOp Add)).
End Standard.

(** A generator of this kind. *)
Definition std_float (r : freq) (u : Q) : Q :=
  match r with
  | RUniform lo hi => lo + u * (hi - lo)
  | RNormal m sd => m + (u - (1#2)) * sd
  | RExp sc | RGamma _ sc => sc * u
  | RLognormal m sd => let x := m + (u - (1#2)) * sd in if Qlt_bool x 0 then 1 / (1 - x) else 1 + x
  | _ => 1
  end.
Definition std_bad (r : freq) : bool :=
  match r with RExp sc | RGamma _ sc => Qlt_bool sc 0 | RTri l m r => true | _ => false end.
Definition std_oracle : oracle := {|
  G := nat;
  drawf := fun r n g => if std_bad r then (Err (ValueError "bad parameter"), g)
                        else (Ok (map (std_float r) (ex_fracs n g)), (g + n)%nat);
  drawi := fun r n g => (Err Unmodelled, g);
  ppf := fun _ => 1; sqrt_ := fun _ => 1; exp_ := fun _ => 1; log_ := fun q => q; pow_ := fun x _ => x;
  fmt := fun _ => "num"%string; induce := fun _ cols => Ok cols; die_fuel := 0 |}.
Definition std_state (k : nat) : state (G std_oracle) := mkState k (fun _ _ => None).
