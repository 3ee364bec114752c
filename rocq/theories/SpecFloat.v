(** The standard model of floating-point arithmetic. *)
From Coq Require Import Qabs.
From Verif Require Import Base M_Weights M_Float.
Open Scope Q_scope.

(** Every operation has relative error at most [u]; the two literals are within
    [u] of their values. *)
Record rounds (u : Q) (F : floats_impl) : Prop := {
  r_add : forall a b, Qabs (fadd F a b - (a + b)) <= u * Qabs (a + b);
  r_sub : forall a b, Qabs (fsub F a b - (a - b)) <= u * Qabs (a - b);
  r_div : forall a b, ~ b == 0 -> Qabs (fdiv F a b - a / b) <= u * Qabs (a / b);
  r_99 : Qabs (c99 F - (99#100)) <= u;
  r_101 : Qabs (c101 F - (101#100)) <= u }.
(** Unit roundoff of double precision. *)
Definition double_u : Q := 1 # 2 ^ 53.
(** Short enough a list that rounding cannot add up to a thousandth. *)
Definition short_for (u : Q) (n : nat) : Prop := inject_Z (Z.of_nat (S n)) * u <= 1 # 1000.
(** Exact arithmetic is one instance; so is rounding everything up a little. *)
Definition exact_floats : floats_impl :=
  {| fadd := Qplus; fsub := Qminus; fdiv := Qdiv; c99 := 99#100; c101 := 101#100 |}.
Definition high_floats : floats_impl :=
  {| fadd := fun a b => (a + b) * (1 + (1#1024)); fsub := fun a b => (a - b) * (1 + (1#1024));
     fdiv := fun a b => a / b * (1 + (1#1024)); c99 := 99#100; c101 := 101#100 |}.
