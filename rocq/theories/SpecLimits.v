(** What operations on infinities should mean: the limit of the operation on numbers that
    approach the operands. *)
From Coq Require Import Qabs.
From Verif Require Import Base M_Values.
Open Scope Q_scope.

Definition eventually (P : nat -> Prop) : Prop := exists N, forall n, (N <= n)%nat -> P n.
(** The sequence approaches the extended number; nothing approaches nan. *)
Definition tends (f : nat -> Q) (a : xnum) : Prop :=
  match a with
  | Fin q => forall e, 0 < e -> eventually (fun n => Qabs (f n - q) < e)
  | PInf => forall B, eventually (fun n => B < f n)
  | NInf => forall B, eventually (fun n => f n < B)
  | NaN => False
  end.
(** Every choice of approaching sequences leads to [r]. *)
Definition determined (op : Q -> Q -> Q) (a b r : xnum) : Prop :=
  forall f g, tends f a -> tends g b -> tends (fun n => op (f n) (g n)) r.
(** Different choices lead to different limits. *)
Definition undetermined (op : Q -> Q -> Q) (a b : xnum) : Prop :=
  exists f g r f' g' r', tends f a /\ tends g b /\ tends (fun n => op (f n) (g n)) r /\
    tends f' a /\ tends g' b /\ tends (fun n => op (f' n) (g' n)) r' /\ xeq r r' = false.
Definition finite_or_infinite (a : xnum) : Prop := a <> NaN.
(** The same for a divisor that approaches zero from above. *)
Definition tends_pos (g : nat -> Q) (b : xnum) : Prop :=
  tends g b /\ (xeq b (Fin 0) = true -> forall n, 0 < g n).
Definition quotient_determined (a b r : xnum) : Prop :=
  forall f g, tends f a -> tends_pos g b -> tends (fun n => f n / g n) r.
Definition quotient_undetermined (a b : xnum) : Prop :=
  exists f g r f' g' r', tends f a /\ tends_pos g b /\ tends (fun n => f n / g n) r /\
    tends f' a /\ tends_pos g' b /\ tends (fun n => f' n / g' n) r' /\ xeq r r' = false.
(** What an operation on extended numbers should return: nan for nan, the limit if there
    is one, and nan if there is none. *)
Definition limit_or_nan (a b r : xnum) (det undet : Prop) : Prop :=
  (a = NaN \/ b = NaN -> r = NaN) /\
  (a <> NaN -> b <> NaN -> (r <> NaN /\ det) \/ (r = NaN /\ undet)).
Definition limit_of (op : Q -> Q -> Q) (a b r : xnum) : Prop :=
  limit_or_nan a b r (determined op a b r) (undetermined op a b).
Definition quotient_of (a b r : xnum) : Prop :=
  limit_or_nan a b r (quotient_determined a b r) (quotient_undetermined a b).

(** Integers growing without bound in either direction. *)
Definition zs_tend (ks : nat -> Z) (b : xnum) : Prop := tends (fun n => inject_Z (ks n)) b.
