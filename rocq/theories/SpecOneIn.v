(** Reading numbers with thousands separators. *)
From Coq Require Import Ascii.
From Verif Require Import Base M_Values M_OneIn.
Open Scope Q_scope.

Definition digit_value (c : ascii) : option Z :=
  let n := nat_of_ascii c in
  if (Nat.leb 48 n && Nat.leb n 57)%bool then Some (Z.of_nat n - 48)%Z else None.
(** A whole number, commas ignored. *)
Fixpoint read_int (acc : Z) (s : list ascii) : option Z :=
  match s with
  | [] => Some acc
  | c :: r => if Ascii.eqb c "," then read_int acc r
              else match digit_value c with Some d => read_int (10 * acc + d) r | None => None end
  end.
(** The digits after the point. *)
Fixpoint read_frac (s : list ascii) : option Q :=
  match s with
  | [] => Some 0
  | c :: r => match digit_value c, read_frac r with
              | Some d, Some f => Some ((inject_Z d + f) / 10)
              | _, _ => None
              end
  end.
Fixpoint split_point (s : list ascii) : list ascii * option (list ascii) :=
  match s with
  | [] => ([], None)
  | c :: r => if Ascii.eqb c "." then ([], Some r)
              else let (a, b) := split_point r in (c :: a, b)
  end.
Definition read_unsigned (s : list ascii) : option Q :=
  let (a, b) := split_point s in
  match read_int 0 a, b with
  | Some n, None => Some (inject_Z n)
  | Some n, Some f => match read_frac f with Some q => Some (inject_Z n + q) | None => None end
  | None, _ => None
  end.
Definition read_number (s : list ascii) : option Q :=
  match s with
  | c :: r => if Ascii.eqb c "-" then option_map Qopp (read_unsigned r) else read_unsigned s
  | [] => None
  end.
(** What "1 in X" says. *)
Definition reads_one_in (s : string) (q : Q) : Prop :=
  exists t r, s = String.string_of_list_ascii (String.list_ascii_of_string "1 in " ++ t) /\
              read_number t = Some r /\ r == q.
(** Commas in the right places: counting from the right, exactly the characters at
    positions 3, 7, 11, ... are commas, and the first character is not. *)
Definition comma_places (s : list ascii) : Prop :=
  (forall i, (i < length s)%nat -> (nth i (rev s) "0"%char = ","%char <-> Nat.modulo i 4 = 3%nat)) /\
  (forall c r, s = c :: r -> c <> ","%char).

(** The number itself. *)
Definition one_value (x : one_num) : Q := match x with OInt z => inject_Z z | OFlt q => q end.
