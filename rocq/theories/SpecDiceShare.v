(** Exploding dice: the sequences of rolls that make one throw, all sequences of the same
    length being equally likely. *)
From Verif Require Import Base SpecShare.
Open Scope Q_scope.

Definition face (n z : Z) : Prop := (1 <= z <= n)%Z.
(** One throw with [m] explosions: [m] rolls that explode and one that does not. *)
Definition throw_of (n : Z) (ex : list Z) (m : nat) (rs : list Z) : Prop :=
  exists bangs final, rs = bangs ++ [final] /\ length bangs = m /\
    (forall z, In z bangs -> face n z /\ In z ex) /\ face n final /\ ~ In final ex.
(** [m] rolls, all of which explode. *)
Definition still_going (n : Z) (ex : list Z) (m : nat) (rs : list Z) : Prop :=
  length rs = m /\ forall z, In z rs -> face n z /\ In z ex.
Definition rolls (n : Z) (m : nat) (rs : list Z) : Prop := length rs = m /\ forall z, In z rs -> face n z.
Definition sum (l : list Z) : Z := fold_right Z.add 0%Z l.
(** [l] lists exactly the things with [P], each once. *)
Definition lists {A} (l : list A) (P : A -> Prop) : Prop := NoDup l /\ forall a, In a l <-> P a.
(** The part of the expected total that is due to throws with fewer than [M] explosions,
    [ls m] being the throws with [m]: each has probability 1 / n^(m+1). *)
Fixpoint expected (n : Z) (ls : nat -> list (list Z)) (M : nat) : Q :=
  match M with
  | O => 0
  | S m => expected n ls m + inject_Z (sum (map sum (ls m))) / inject_Z (n ^ Z.of_nat (S m))
  end.
