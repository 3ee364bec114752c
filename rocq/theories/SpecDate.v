(** Calendar days and how they are written. *)
From Coq Require Import Ascii String.
From Verif Require Import Base SpecIntText.
Open Scope Z_scope.

Definition leap_year (y : Z) : Prop := (4 | y) /\ ((100 | y) -> (400 | y)).
(** The number of days of a month. *)
Inductive month_length (y : Z) : Z -> Z -> Prop :=
| len_31 m : In m [1; 3; 5; 7; 8; 10; 12] -> month_length y m 31
| len_30 m : In m [4; 6; 9; 11] -> month_length y m 30
| len_28 : ~ leap_year y -> month_length y 2 28
| len_29 : leap_year y -> month_length y 2 29.
(** Year, month, day that exist. *)
Definition real_day (y m d : Z) : Prop := 1 <= y <= 9999 /\ exists n, month_length y m n /\ 1 <= d <= n.
(** The day after. *)
Inductive next_day : Z * Z * Z -> Z * Z * Z -> Prop :=
| next_in_month y m d n : month_length y m n -> d < n -> next_day (y, m, d) (y, m, d + 1)
| next_month y m n : month_length y m n -> m < 12 -> next_day (y, m, n) (y, m + 1, 1)
| next_year y : next_day (y, 12, 31) (y + 1, 1, 1).
(** [b] is [n] days after [a]. *)
Inductive days_after : nat -> Z * Z * Z -> Z * Z * Z -> Prop :=
| after_0 a : days_after 0 a a
| after_S n a b c : days_after n a b -> next_day b c -> days_after (S n) a c.

(** Texts YYYY-MM-DD; month and day may have one digit, or the day a blank for its first. *)
Definition digit_code (d : Z) (c : nat) : Prop := 0 <= d <= 9 /\ Z.of_nat c = 48 + d.
Inductive short : Z -> list nat -> Prop :=
| short_1 d c : 1 <= d -> digit_code d c -> short d [c]
| short_2 a b c1 c2 : 1 <= 10 * a + b -> digit_code a c1 -> digit_code b c2 -> short (10 * a + b) [c1; c2].
Inductive four : Z -> list nat -> Prop :=
| four_digits a b c d c1 c2 c3 c4 : digit_code a c1 -> digit_code b c2 -> digit_code c c3 -> digit_code d c4 ->
    four (1000 * a + 100 * b + 10 * c + d) [c1; c2; c3; c4].
Definition written (s : string) (y m d : Z) : Prop :=
  exists ty tm td, characters s = ty ++ [45%nat] ++ tm ++ [45%nat] ++ td /\ four y ty /\ short m tm /\
    (short d td \/ exists t, td = [32%nat; t] /\ short d [t]).
(** Times of a day, in microseconds. *)
Definition time_of_day (t : Z) : Prop := 0 <= t < 86400000000.
