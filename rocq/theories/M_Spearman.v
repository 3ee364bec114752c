(** Model of [scipy.stats.spearmanr(samples).statistic] as called in
    squigglepy/correlation.py:306: Pearson's coefficient of average ranks, in exact real
    arithmetic. *)
From Coq Require Import Reals Qreals.
From Verif Require Import Base M_Corr M_Iman.
Open Scope R_scope.

(** [scipy.stats.rankdata(l)], ties get the average of their ranks. *)
Definition rank_avg (l : list Q) : list R :=
  map (fun x => INR (length (filter (fun y => Qlt_bool y x) l)) + (INR (length (filter (fun y => Qeq_bool y x) l)) + 1) / 2) l.
(** Entry [i], [j]: [np.corrcoef] of the ranked columns. *)
Definition spearman_stat (cols : list (list Q)) : nat -> nat -> R :=
  corrcoef (length (hd [] cols)) (fun r c => nth r (rank_avg (nth c cols [])) 0).
