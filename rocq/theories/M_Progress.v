(** Progress bars of [sample] and [bayesnet] with [verbose=True]: which bars a call that
    returns has shown, as (total, number of ticks).  [_init_tqdm], [_tick_tqdm] and
    [_flush_tqdm] are utils.py:205-227; without [verbose] no bar is made. *)
From Verif Require Import Base M_Weights M_Pick M_Values M_Sampler.
Open Scope nat_scope.

(** [tqdm_samples = n if _multicore_tqdm_cores == 1 else _multicore_tqdm_n]
    (samplers.py:744, 771, 1085). *)
Definition bar_total (n mn mc : nat) : nat := if Nat.eqb mc 1 then n else mn.

Section Bars.
  Context {Gt : Type}.

  (** [sample(o, n, verbose=True, _multicore_tqdm_n=mn, _multicore_tqdm_cores=mc)] may
      show the bar.  Nested calls without [verbose] show none (samplers.py:730, 766,
      768, 1095, 1222); operands of operators are sampled with [verbose] and the
      default single core counts (samplers.py:1213-1219).  Whether a correlated
      distribution samples its group depends on the state; a bar that one of the
      members shows may then be shown (samplers.py:1122, 861-868). *)
  Inductive shows : nat -> nat -> nat -> obj Gt -> nat * nat -> Prop :=
  (** One tick of size [mc] for each of the [n] calls, samplers.py:1078-1090. *)
  | bar_calls n mn mc f : 1 < n -> shows n mn mc (OCall f) (bar_total n mn mc, n * mc)
  (** And for each result, samplers.py:1099-1103. *)
  | bar_results n mn mc f : shows n mn mc (OCall f) (n * mc, n * mc)
  (** [_mixture_sample_for_large_n], samplers.py:732-734: one tick per component. *)
  | bar_presample n mn mc ws ds lc rc : 1 < length ds -> 100 < n ->
      shows n mn mc (ODist (DMixture ws ds lc rc)) (length ds, length ds)
  (** One tick of size [mc] per sample, samplers.py:737-745 and 771-779. *)
  | bar_mixture n mn mc ws ds lc rc : 1 < length ds ->
      shows n mn mc (ODist (DMixture ws ds lc rc)) (bar_total n mn mc, n * mc)
  | bar_left n mn mc l r f b : shows n 1 1 l b -> shows n mn mc (ODist (DComplex l r f)) b
  | bar_right n mn mc l r f b : r <> OLit PNone -> shows n 1 1 r b -> shows n mn mc (ODist (DComplex l r f)) b
  | bar_group n mn mc g i members d b : In d members -> shows n 1 1 (ODist d) b ->
      shows n mn mc (ODist (DCorr g i members)) b.

  (** The samples of the calling process, the last of [cores] (utils.py:181-185). *)
  Definition own_part (n cores : nat) : nat := n - pred cores * (n / cores).

  (** [sample(o, n, cores=cores, verbose=True)]: one core, or the calling process's own
      batch (samplers.py:1020-1037) and the collection of the files
      (samplers.py:1046-1053). *)
  Inductive call_shows (n cores : nat) (o : obj Gt) : nat * nat -> Prop :=
  | bar_single b : cores <= 1 -> shows n 1 1 o b -> call_shows n cores o b
  | bar_own b : 1 < cores -> shows (own_part n cores) n cores o b -> call_shows n cores o b
  | bar_collect : 1 < cores -> call_shows n cores o (cores, cores).
End Bars.

(** [bayesnet(f, n, cores=cores, verbose=True)] without a cache: bayes.py:203-212,
    220-224 (the calling process passes its number of cores as tick size) and 247-254. *)
Definition net_bars (n cores : nat) : list (nat * nat) :=
  if Nat.eqb cores 1 then [(n, n)]
  else [(n, own_part n cores * cores); (cores, cores)].
