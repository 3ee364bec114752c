(** Percentiles of samples near the percentiles of the law. *)
From Verif Require Import Base M_Percentiles SpecShare SpecProgram SpecLarge SpecIndep.
Open Scope Q_scope.

(** [a] lies below and [b] above the percentile [p] of the expression, with a margin [d] and
    what the rank of a percentile among [n] samples can be off. *)
Definition encloses (e : dexp) (p : Q) (n : nat) (d a b : Q) : Prop :=
  chance (prog_of e) (fun x => Qlt_bool x a) + d + 1 / qnat n <= p / 100 /\
  p / 100 + d + 1 / qnat n < chance (prog_of e) (fun x => Qle_bool x b).
Definition within (a b x : Q) : bool := Qle_bool a x && Qle_bool x b.
(** [get_percentiles(xs, p)] is between [a] and [b]. *)
Definition percentile_within (argsort : list Q -> list nat) (p a b : Q) (xs : list Q) : bool :=
  match get_percentiles argsort xs (POne p) None false None with Ok (One v) => within a b v | _ => false end.
(** [get_median_and_ci(xs, credibility=c)] has its three numbers between the given ones. *)
Definition interval_within (argsort : list Q -> list nat) (c : Q) (low mid high : Q * Q) (xs : list Q) : bool :=
  match get_median_and_ci argsort xs c None None with
  | Ok r => within (fst low) (snd low) (md_low r) && within (fst mid) (snd mid) (md_median r) && within (fst high) (snd high) (md_high r)
  | Err _ => false
  end.
(** [get_mean_and_ci(xs, credibility=c)] has its mean within [t] of [y] and both ends between the
    given numbers. *)
Definition mean_interval_within (argsort : list Q -> list nat) (c t y : Q) (low high : Q * Q) (xs : list Q) : bool :=
  match get_mean_and_ci argsort xs c None None with
  | Ok r => negb (far t (mc_mean r) y) && within (fst low) (snd low) (mc_low r) && within (fst high) (snd high) (mc_high r)
  | Err _ => false
  end.
