(** Double precision arithmetic (IEEE 754 binary64, the floats of Python and numpy), and the
    code that picks mixture components and splits work between cores in that arithmetic.

    Simplifications: the exponent is unbounded, so there is no overflow and no underflow;
    zero has no sign. *)
From Verif Require Import Base M_Values M_Ops M_Pick M_Float.
Open Scope Q_scope.

Definition pow2 (e : Z) : Q := Qpower 2 e.
(** The exponent of the last of the 53 binary digits of a positive number. *)
Definition last_digit (q : Q) : Z :=
  let e := (Z.log2 (Qnum q) - Z.log2 (Zpos (Qden q)) - 52)%Z in
  if Qlt_bool q (pow2 (e + 52)) then (e - 1)%Z else e.
Definition rnd_pos (q : Q) : Q :=
  let e := last_digit q in inject_Z (round_half_even (q * pow2 (- e))) * pow2 e.
(** The double nearest to [q], ties to even. *)
Definition rnd (q : Q) : Q :=
  match Qnum q with Z0 => 0 | Zpos _ => rnd_pos q | Zneg _ => - rnd_pos (- q) end.
(** Python's [+], [-], [/] and the literals 0.99 and 1.01; fractions are kept reduced. *)
Definition binary64 : floats_impl :=
  {| fadd := fun a b => Qred (rnd (a + b)); fsub := fun a b => Qred (rnd (a - b));
     fdiv := fun a b => Qred (rnd (a / b)); c99 := Qred (rnd (99#100)); c101 := Qred (rnd (101#100)) |}.

Section Pick.
  Variable F : floats_impl.
  (** [np.cumsum(weights)] (samplers.py:739 and 769), a running sum that starts with the
      first weight itself. *)
  Fixpoint fl_cumsum_from (acc : Q) (ws : list Q) : list Q :=
    match ws with [] => [] | w :: r => fadd F acc w :: fl_cumsum_from (fadd F acc w) r end.
  Definition fl_cumsum (ws : list Q) : list Q :=
    match ws with [] => [] | w :: r => w :: fl_cumsum_from w r end.
  (** samplers.py:762-767, comparisons of floats are exact. *)
  Definition fl_small_pick (ws : list Q) (r : Q) : res nat := scan (fl_cumsum ws) r 0 (Err NameError).
  (** samplers.py:734-737. *)
  Definition fl_large_pick (ws : list Q) (r : Q) : res nat :=
    match bisect_left (fl_cumsum ws) r with
    | None => Err Unmodelled
    | Some i => if Nat.ltb i (length ws) then Ok i else Err IndexError
    end.
  (** [_core_cuts], utils.py:181-185, with [math.floor(n / cores)] a float division. *)
  Definition fl_core_cuts (n : Z) (cores : nat) : res (list Z) :=
    let q := Qfloor (fdiv F (inject_Z n) (inject_Z (Z.of_nat cores))) in
    let cuts := repeat q cores in
    let delta := (n - fold_left Z.add cuts 0)%Z in
    match rev cuts with
    | [] => Err IndexError
    | c :: r => Ok (rev r ++ [(c + delta)%Z])
    end.
End Pick.
