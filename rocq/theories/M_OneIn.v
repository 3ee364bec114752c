(** Model of [one_in], squigglepy/utils.py:403-427, with [_round], utils.py:123-132.

    Simplifications: [p] is an exact Python number (numpy numbers would give inf instead of
    raising for 0); the text of a float is modelled when it has at most 15 significant
    digits, which is when printing recovers the decimal number, and is not below 0.0001
    in size, where Python switches to exponents; other texts are [Unmodelled]. *)
From Coq Require Import Ascii.
From Verif Require Import Base M_Values M_Ops.
Open Scope Q_scope.

(** The number: an int when [digits <= 0]. *)
Inductive one_num : Type := OInt (z : Z) | OFlt (q : Q).
Definition one_in_num (p : Q) (digits : option Z) : res one_num :=
  if Qeq_bool p 0 then Err ZeroDivisionError
  else match digits with
       | None => Ok (OFlt (1 / p))
       | Some d => let r := np_round (1 / p) d in
                   if (d <=? 0)%Z then Ok (OInt (Qfloor r)) else Ok (OFlt r)
       end.

(** Decimal digits, last one first. *)
Fixpoint dec (fuel : nat) (n : Z) : list Z :=
  match fuel with
  | O => []
  | S f => if (n <? 10)%Z then [n] else (n mod 10)%Z :: dec f (n / 10)
  end.
Definition decimal (n : Z) : list Z := dec (S (Z.to_nat (Z.log2 n))) n.
Definition digit (d : Z) : ascii := ascii_of_nat (48 + Z.to_nat d).
Definition comma : ascii := ",".
(** The digits with a comma before every third, last one first. *)
Fixpoint group (i : nat) (ds : list Z) : list ascii :=
  match ds with
  | [] => []
  | d :: r => if Nat.eqb i 3 then comma :: digit d :: group 1 r else digit d :: group (S i) r
  end.
Definition grouped (n : Z) : list ascii := rev (group 0 (decimal n)).
(** The last [k] digits of [n], and without the zeros at the end (keeping one digit). *)
Fixpoint low_digits (k : nat) (n : Z) : list Z :=
  match k with O => [] | S k' => (n mod 10)%Z :: low_digits k' (n / 10) end.
Fixpoint strip_zeros (l : list Z) : list Z :=
  match l with
  | 0%Z :: ((_ :: _) as r) => strip_zeros r
  | _ => l
  end.
Definition minus (z : Z) : list ascii := if (z <? 0)%Z then ["-"%char] else [].
(** [{:,}] of an int, and of the float k / 10^d. *)
Definition int_text (z : Z) : list ascii := minus z ++ grouped (Z.abs z).
Definition float_text (d : nat) (k : Z) : list ascii :=
  let t := (10 ^ Z.of_nat d)%Z in
  minus k ++ grouped (Z.abs k / t) ++ "."%char :: map digit (rev (strip_zeros (low_digits d (Z.abs k mod t)))).

(** [one_in(p, digits, verbose=True)]. *)
Definition one_in_text (p : Q) (digits : option Z) : res string :=
  do x <- one_in_num p digits;
  let prefix := String.list_ascii_of_string "1 in " in
  match x, digits with
  | OInt z, _ => Ok (String.string_of_list_ascii (prefix ++ int_text z))
  | OFlt q, Some d =>
      let k := Qfloor (q * pow10 d) in
      if (Z.abs k <? 10 ^ 15)%Z && ((k =? 0)%Z || (10 ^ d <=? Z.abs k * 10 ^ 4)%Z)
      then Ok (String.string_of_list_ascii (prefix ++ float_text (Z.to_nat d) k))
      else Err Unmodelled
  | OFlt _, None => Err Unmodelled
  end.
