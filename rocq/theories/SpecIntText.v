(** Integer numerals in texts. *)
From Coq Require Import Ascii String.
From Verif Require Import Base.
Open Scope nat_scope.

(** The character codes of a text. *)
Definition characters (s : string) : list nat := map nat_of_ascii (list_ascii_of_string s).
Definition blank (c : nat) : Prop := In c [9; 10; 11; 12; 13; 32].
(** Digits, single underscores allowed between them. *)
Inductive numeral : list nat -> list nat -> Prop :=
| num_one d : d <= 9 -> numeral [48 + d] [d]
| num_more d l ds : d <= 9 -> numeral l ds -> numeral (48 + d :: l) (d :: ds)
| num_under d l ds : d <= 9 -> numeral l ds -> numeral (48 + d :: 95 :: l) (d :: ds).
Fixpoint digits_value (ds : list nat) : Z :=
  match ds with [] => 0 | d :: ds' => Z.of_nat d * 10 ^ Z.of_nat (length ds') + digits_value ds' end%Z.
(** A text that stands for the integer [k]: blanks around, an optional sign directly
    before the digits, at most 4300 digits. *)
Definition denotes (s : string) (k : Z) : Prop :=
  exists before sign body after ds,
    characters s = before ++ sign ++ body ++ after /\ Forall blank before /\ Forall blank after /\
    numeral body ds /\ length ds <= 4300 /\
    ((sign = [] \/ sign = [43]) /\ k = digits_value ds \/ sign = [45] /\ k = (- digits_value ds)%Z).
Definition ascii_text (s : string) : Prop := Forall (fun c => c < 128) (characters s).
