(** Rounding to digits and the diversity test in double precision.

    [_round] (squigglepy/utils.py:123-132) of one number, with [np.round] of numpy 2.4:
    multiply by the power of ten, round to an integer, divide again; for negative digits
    the other way round.  [one_in] (utils.py:403-427) without its text.
    [has_sufficient_sample_diversity] (correlation.py:330-348).

    Simplifications: finite doubles with unbounded exponent (M_Double); at most 22 digits,
    so that the power of ten is a double. *)
From Verif Require Import Base M_Values M_Ops M_Pick M_Corr M_Double M_DoubleProb.
Open Scope Q_scope.

Definition ten (d : Z) : Q := inject_Z (10 ^ d).
(** [np.round(x, d)]. *)
Definition fl_np_round (x : Q) (d : Z) : Q :=
  if (0 <=? d)%Z then ddiv (inject_Z (round_half_even (dmul x (ten d)))) (ten d)
  else dmul (inject_Z (round_half_even (ddiv x (ten (- d))))) (ten (- d)).
(** [one_in(p, digits, verbose=False)]; [int(...)] when [digits <= 0] does not change a
    whole number. *)
Definition fl_one_in (p : Q) (d : Z) : Q := fl_np_round (ddiv 1 p) d.

(** [unique_samples / n_samples >= 0.7 and unique_samples >= absolute_threshold]. *)
Definition fl_diverse (min_u : Z) (col : list Q) : bool :=
  let u := Z.of_nat (length (np_unique col)) in
  Qle_bool (Qred (rnd (7#10))) (ddiv (inject_Z u) (inject_Z (Z.of_nat (length col)))) && (min_u <=? u)%Z.
