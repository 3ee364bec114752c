(** Mean and variance of the distributions [update] takes, from their densities. *)
From Coq Require Import Reals.
From Verif Require Import Base M_Dists SpecNormal.
Open Scope R_scope.

(** The area under [f] right of 0, where [f] may be unbounded near 0. *)
Definition area_right (f : R -> R) (I : R) : Prop :=
  exists F, (forall x, 0 < x -> derivable_pt_lim F x (f x)) /\
    forall eps, 0 < eps -> exists d A, 0 < d /\ forall a b, 0 < a < d -> A <= b -> Rabs (F b - F a - I) < eps.
(** [m] and [v] are the mean and the variance of the quantity [q x], where [x] has a
    density proportional to [f] and areas are as [ar] says. *)
Definition mean_var (ar : (R -> R) -> R -> Prop) (f q : R -> R) (m v : R) : Prop :=
  exists I, 0 < I /\ ar f I /\ ar (fun x => q x * f x) (m * I) /\ ar (fun x => (q x - m) * (q x - m) * f x) (v * I).
(** Distributions without clips. *)
Definition moments_of (d : rdist) (m v : R) : Prop :=
  match d with
  | DNorm (mkNormal (Some mu) (Some s) None None) => 0 < s /\ mean_var whole_area (bell mu s) (fun x => x) m v
  | DLognorm (mkLognormal (Some mu) (Some s) _ _ None None) => 0 < s /\ mean_var whole_area (bell mu s) exp m v
  | DBeta a b => 0 < a /\ 0 < b /\ mean_var (area_within 0 1) (beta_shape a b) (fun x => x) m v
  | DGamma k th None None => 0 < k /\ 0 < th /\ mean_var area_right (gamma_shape k th) (fun x => x) m v
  | _ => False
  end.
Definition normals_or_betas (p e : rdist) : Prop :=
  match p, e with DNorm _, DNorm _ => True | DBeta _ _, DBeta _ _ => True | _, _ => False end.
