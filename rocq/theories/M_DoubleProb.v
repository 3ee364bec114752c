(** Probabilities computed in double precision: [simple_bayes] (squigglepy/bayes.py),
    [p_to_odds], [odds_to_p], [laplace], [event_occurs] and [bucket_percentages]
    (squigglepy/utils.py).

    Simplifications: arguments are finite; the exponent is unbounded (M_Double). *)
From Verif Require Import Base M_Float M_Double.
Open Scope Q_scope.

Definition dadd (a b : Q) : Q := Qred (rnd (a + b)).
Definition dsub (a b : Q) : Q := Qred (rnd (a - b)).
Definition dmul (a b : Q) : Q := Qred (rnd (a * b)).
Definition ddiv (a b : Q) : Q := Qred (rnd (a / b)).

(** bayes.py:60. *)
Definition fl_simple_bayes (lh lnh prior : Q) : res Q :=
  let a := dmul lh prior in
  let d := dadd a (dmul lnh (dsub 1 prior)) in
  if Qeq_bool d 0 then Err ZeroDivisionError else Ok (ddiv a d).
(** utils.py:683-688 for a number. *)
Definition fl_p_to_odds (p : Q) : res Q :=
  if Qle_bool p 0 || Qle_bool 1 p then Err (ValueError "p must be between 0 and 1")
  else let d := dsub 1 p in if Qeq_bool d 0 then Err ZeroDivisionError else Ok (ddiv p d).
(** utils.py:713-718 for a number. *)
Definition fl_odds_to_p (o : Q) : res Q :=
  if Qle_bool o 0 then Err (ValueError "odds must be greater than 0") else Ok (ddiv o (dadd 1 o)).
(** utils.py:796-797 (only [n] given): [(s + 1) / (n + 2)], a correctly rounded quotient of ints. *)
Definition fl_laplace (s n : Z) : Q := ddiv (inject_Z (s + 1)) (inject_Z (n + 2)).
(** utils.py:356: [uniform(0, 1) < p], the draw being [k / 2^53]. *)
Definition fl_event_occurs (p : Q) (k : Z) : bool := Qlt_bool (inject_Z k * pow2 (-53)) p.
(** utils.py:1374: [v / total * 100]. *)
Definition fl_percentage (v total : Z) : Q := dmul (ddiv (inject_Z v) (inject_Z total)) 100.
