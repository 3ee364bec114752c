(** What Laplace's rules predict, and revising a probability by a likelihood ratio. *)
From Coq Require Import Reals.
From Verif Require Import Base M_Formulas SpecNormal SpecMoments.
Open Scope R_scope.

(** [m] is the average of [q x], where [x] has a density proportional to [f]. *)
Definition averaged (ar : (R -> R) -> R -> Prop) (f q : R -> R) (m : R) : Prop :=
  exists I, 0 < I /\ ar f I /\ ar (fun x => q x * f x) (m * I).
(** The likelihood of [s] successes in [n] trials, for the probability [x]. *)
Definition trials (s n : Z) (x : R) : R := powerRZ x s * powerRZ (1 - x) (n - s).
(** The likelihood of [s] events in the time [t], for the rate [x], up to a factor. *)
Definition events (s : Z) (t x : R) : R := powerRZ x s * exp (- (x * t)).
(** The probability of an event in the time [r]. *)
Definition some_event (r x : R) : R := 1 - exp (- (x * r)).
(** The prior of the rate: the same for every unit of time, or flat.  The first is used when
    the time was chosen to end with an event, and needs one. *)
Definition rate_prior (s : Z) (fixed : bool) (x : R) : R := if Z.eqb s 0 || fixed then 1 else / x.

(** A probability after evidence [k] times as likely if it is true; other values stay. *)
Definition revise (k : R) (v : rnum) : rnum :=
  match v with
  | RFin p => if Rle_dec p 0 then v else if Rle_dec 1 p then v else RFin (k * p / (k * p + (1 - p)))
  | _ => v
  end.
Definition revise_arg (k : R) (a : rarg) : rarg :=
  match a with RScalar v => RScalar (revise k v) | RSeq l => RSeq (map (revise k) l) end.
