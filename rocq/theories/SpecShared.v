(** Specification vocabulary: the lists of the caller that an object refers to. *)
From Verif Require Import Base M_Weights M_Values M_Sampler M_Shared.

Inductive place : Type := Items (l : nat) | Dicts (l : nat) | Faces (l : nat).

(** The object [r] refers to the list or dict [p], itself or through a component. *)
Inductive refers {T} : held T -> place -> Prop :=
| ref_cat l : refers (HCat l) (Items l)
| ref_dict l : refers (HDict l) (Dicts l)
| ref_die n l : refers (HDie n l) (Faces l)
| ref_mix ws ds lc rc d p : In d ds -> refers d p -> refers (HMix ws ds lc rc) p.

(** The place [p] has the same contents in both heaps. *)
Definition unchanged {T} (h h' : heap T) (p : place) : Prop :=
  match p with
  | Items l => h_items h' l = h_items h l
  | Dicts l => h_dicts h' l = h_dicts h l
  | Faces l => h_faces h' l = h_faces h l
  end.

Definition item_held {T} (i : hitem T) : held T := match i with HPlain d | HPair _ d => d end.

(** An item of a list of components, as [mixture] is given it. *)
Definition item_now {T} (h : heap T) (i : hitem T) : M_Ops.mitem T :=
  match i with
  | HPlain d => M_Ops.MPlain (view h d)
  | HPair w d => M_Ops.MPair w (view h d)
  end.
