(** Exponential bounds on how often percentiles of samples are off. *)
From Verif Require Import Base M_Percentiles SpecShare SpecProgram SpecLarge SpecIndep SpecChernoff.
Open Scope Q_scope.

(** Numbers below and above a percentile, ranks on both sides of it, and the two free bases of the bounds. *)
Record guard : Type := Guard { low : Q; high : Q; rank_low : nat; rank_high : nat; base_low : Q; base_high : Q }.
Definition guards (n : nat) (p : Q) (g : guard) : Prop :=
  qnat (rank_low g) <= qnat n * (p / 100) /\ qnat n * (p / 100) < qnat (rank_high g) /\ 1 <= base_low g /\ 0 < base_high g <= 1.
(** The bound of C201 on at least [rank_low] samples below [low], and on at most [rank_high] samples up to [high]. *)
Definition misses (e : dexp) (n : nat) (g : guard) : Q :=
  npow (1 + chance (prog_of e) (fun x => Qlt_bool x (low g)) * (base_low g - 1)) n / npow (base_low g) (rank_low g) +
  npow (1 + chance (prog_of e) (fun x => Qle_bool x (high g)) * (base_high g - 1)) n / npow (base_high g) (rank_high g).
Definition ends (g : guard) : Q * Q := (low g, high g).
