(** When one expression never has larger samples than another. *)
From Verif Require Import Base M_Values M_Sampler M_Ops SpecSampler SpecOps.
Open Scope Q_scope.

Section Rising.
  Variable Or : oracle.
  Notation obj := (obj (G Or)).
  (** The [n] samples [v] are the numbers [xs]. *)
  Definition numbers (n : nat) (v : val) (xs : list Q) : Prop := n_samples n v /\ Forall2 plain (elems v) xs.
  (** [n] numbers none of which is above its counterpart. *)
  Definition samples_below (n : nat) (v v' : val) : Prop :=
    exists xs xs', numbers n v xs /\ numbers n v' xs' /\ Forall2 Qle xs xs'.
  (** From every state of the generator: no sample of [d] is above that of [d'], and the
      generator is left in the same state. *)
  Definition never_above (n : nat) (d d' : obj) : Prop :=
    forall s v v' s1 s2, smp Or d n None None s = (Ok v, s1) -> smp Or d' n None None s = (Ok v', s2) ->
    samples_below n v v' /\ s1 = s2.

  (** Expressions of the same shape, with larger parts where that makes them larger. *)
  Inductive rises (n : nat) : obj -> obj -> Prop :=
  | r_part d d' : never_above n d d' -> rises n d d'
  | r_number c : rises n (OLit (num_pv c)) (OLit (num_pv c))
  | r_sum l l' r r' : r <> OLit PNone -> r' <> OLit PNone -> rises n l l' -> rises n r r' -> rises n (ODist (DComplex l r (FOp Add))) (ODist (DComplex l' r' (FOp Add)))
  | r_difference l l' r r' : r <> OLit PNone -> r' <> OLit PNone -> rises n l l' -> rises n r' r -> rises n (ODist (DComplex l r (FOp Sub))) (ODist (DComplex l' r' (FOp Sub)))
  | r_scaled l l' c : rises n l l' -> 0 <= num_q c ->
      rises n (ODist (DComplex l (OLit (num_pv c)) (FOp Mul))) (ODist (DComplex l' (OLit (num_pv c)) (FOp Mul)))
  | r_flipped l l' c : rises n l' l -> num_q c <= 0 ->
      rises n (ODist (DComplex l (OLit (num_pv c)) (FOp Mul))) (ODist (DComplex l' (OLit (num_pv c)) (FOp Mul)))
  | r_minus d d' : rises n (ODist d') (ODist d) -> rises n (ODist (op_neg d)) (ODist (op_neg d'))
  | r_max l l' r r' : r <> OLit PNone -> r' <> OLit PNone -> rises n l l' -> rises n r r' -> rises n (dist_max2 l r) (dist_max2 l' r')
  | r_min l l' r r' : r <> OLit PNone -> r' <> OLit PNone -> rises n l l' -> rises n r r' -> rises n (dist_min2 l r) (dist_min2 l' r').
End Rising.
