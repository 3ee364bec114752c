(** Parameters computed in double precision: the normal distribution of an interval
    (squigglepy/distributions.py), the normal update (squigglepy/bayes.py) and the Kelly
    fraction (squigglepy/utils.py).

    Simplifications: arguments are finite; the exponent is unbounded (M_Double); the
    results are taken before [round]. *)
From Coq Require Import Qabs.
From Verif Require Import Base M_Float M_Double M_DoubleProb.
Open Scope Q_scope.

(** distributions.py:697-698 and 707-711 with [x] and [y] given: mean and sd.  [sigma] is
    [scipy.stats.norm.ppf(0.5 + 0.5 * (credibility / 100))]. *)
Definition fl_norm_params (x y sigma : Q) : res (Q * Q) :=
  if Qlt_bool y x then Err (ValueError "`high value` cannot be lower than `low value`")
  else let mean := ddiv (dadd x y) 2 in Ok (mean, ddiv (dsub y mean) sigma).
(** bayes.py:358-366: mean and variance of the posterior; [pv] and [ev] are the squared
    sds, and the square root of the variance is not taken. *)
Definition fl_update (pm pv em ev w : Q) : Q * Q :=
  let d := dadd (dmul w pv) ev in
  (ddiv (dadd (dmul ev pm) (dmul w (dmul pv em))) d, ddiv (dmul ev pv) d).
(** utils.py:962. *)
Definition fl_adj_price (my market deference : Q) : Q :=
  dadd (dmul my (dsub 1 deference)) (dmul market deference).
(** utils.py:963. *)
Definition fl_kelly (my market deference : Q) : Q :=
  let adj := fl_adj_price my market deference in
  Qabs (dsub adj (dmul (dsub 1 adj) (ddiv market (dsub 1 market)))).
(** utils.py:965. *)
Definition fl_expected_roi (my market deference : Q) : Q :=
  Qabs (dsub (ddiv (fl_adj_price my market deference) market) 1).
