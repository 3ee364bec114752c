(** When one discrete distribution is everywhere larger than another. *)
From Coq Require Import Sorted.
From Verif Require Import Base M_Weights M_Values M_Sampler SpecWeights.
Open Scope Q_scope.

(** Weights and the numbers they belong to, as written in [discrete([[w, x], ...])]. *)
Definition entries := list (Q * num).
Definition written (l : entries) : leaf := LCatList (map (fun e => IPair (Num (fst e)) (num_pv (snd e))) l).
Definition worth (e : Q * num) : Q := num_q (snd e).
(** Weights the library accepts, two of them not zero. *)
Definition acceptable (l : entries) : Prop :=
  nonneg (map fst l) /\ 99#100 < total (map fst l) /\ total (map fst l) < 101#100 /\
  exists e e' a b c, l = a ++ e :: b ++ e' :: c /\ 0 < fst e /\ 0 < fst e'.
(** The numbers rise. *)
Definition ascending (l : entries) : Prop := StronglySorted (fun e e' => worth e <= worth e') l.
(** The weight of numbers up to [x]; less of it everywhere, with the same total. *)
Definition weight_upto (l : entries) (x : Q) : Q := total (map fst (filter (fun e => Qle_bool (worth e) x) l)).
Definition dominated (l l' : entries) : Prop :=
  total (map fst l) == total (map fst l') /\ forall x, weight_upto l' x <= weight_upto l x.
(** Every sample is at most the other one. *)
Definition pv_le (a b : pv) : Prop := exists x y, as_x a = Some (Fin x) /\ as_x b = Some (Fin y) /\ x <= y.
Definition samples_le (v v' : val) : Prop :=
  match v, v' with
  | Scalar a, Scalar b => pv_le a b
  | Arr l, Arr l' => Forall2 pv_le l l'
  | _, _ => False
  end.
