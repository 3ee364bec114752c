(** The Kelly criterion on a binary market. *)
From Coq Require Import Qabs Reals.
From Verif Require Import Base M_Kelly.
Open Scope Q_scope.

(** A share costs [market] and pays 1 if the event happens. *)
Definition price (p : Q) : Prop := 0 < p /\ p < 1.
Definition share (x : Q) : Prop := 0 <= x /\ x <= 1.

(** The probability bet on: a mixture of one's own and the market's. *)
Definition belief (my market deference : Q) : Q := my + deference * (market - my).
(** Kelly's fraction for a belief [p]: edge over odds. *)
Definition fraction (p market : Q) : Q := (p - market) / (1 - market).

(** What a stake at a price gains: it buys [stake / market] shares, each of which pays 1
    if the bet is won; and the expectation of that for a belief [p]. *)
Definition profit (won : bool) (stake market : Q) : Q := if won then stake / market - stake else - stake.
Definition expected_profit (p stake market : Q) : Q :=
  p * profit true stake market + (1 - p) * profit false stake market.

(** Expected logarithm of wealth after staking the fraction [f]: with probability [p]
    the stake becomes f/m, otherwise it is lost. *)
Open Scope R_scope.
Definition log_growth (p m f : R) : R := p * ln (1 - f + f / m) + (1 - p) * ln (1 - f).
