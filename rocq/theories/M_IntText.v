(** Model of [int(text)], used by [__matmul__] (squigglepy/distributions.py:94-98).

    Simplifications: texts with characters above code 127 give [None] (Unmodelled
    where used); Python's limit is 4300 digits. *)
From Coq Require Import Ascii String.
From Verif Require Import Base.
Open Scope nat_scope.

Definition codes (s : string) : list nat := map nat_of_ascii (list_ascii_of_string s).
Definition is_space (c : nat) : bool := (Nat.leb 9 c && Nat.leb c 13) || Nat.eqb c 32.
Definition is_digit (c : nat) : bool := Nat.leb 48 c && Nat.leb c 57.
Fixpoint drop_spaces (l : list nat) : list nat :=
  match l with c :: l' => if is_space c then drop_spaces l' else l | [] => [] end.
Definition strip (l : list nat) : list nat := rev (drop_spaces (rev (drop_spaces l))).
(** Digits with single underscores between them: value and number of digits. *)
Fixpoint digits_of (l : list nat) (acc : Z) (count : nat) (after_digit : bool) : option (Z * nat) :=
  match l with
  | [] => if after_digit then Some (acc, count) else None
  | c :: l' =>
      if is_digit c then digits_of l' (10 * acc + Z.of_nat (c - 48))%Z (S count) true
      else if Nat.eqb c 95 && after_digit then digits_of l' acc count false
      else None
  end.
Definition unsigned (l : list nat) : option Z :=
  match digits_of l 0%Z 0 false with
  | Some (z, n) => if Nat.leb n 4300 then Some z else None
  | None => None
  end.
Definition signed (l : list nat) : option Z :=
  match l with
  | c :: l' =>
      if Nat.eqb c 43 then unsigned l'
      else if Nat.eqb c 45 then option_map Z.opp (unsigned l')
      else unsigned l
  | [] => None
  end.
(** [int(text)]; failure is ValueError, which [__matmul__] turns into its own. *)
Definition int_text (s : string) : res Z :=
  let l := codes s in
  if negb (forallb (fun c => Nat.ltb c 128) l) then Err Unmodelled
  else match signed (strip l) with
       | Some z => Ok z
       | None => Err (ValueError "number of samples must be an integer")
       end.
