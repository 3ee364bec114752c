(** C205: percentiles of samples far from those of the law are exponentially rare. *)
From Coq Require Import Qabs ZArith Lia Lqa.
From Verif Require Import Base M_Weights M_Values M_Sampler M_Ops M_Percentiles M_SampleApi M_Bayesnet SpecSampler SpecWeights SpecOps SpecBayes SpecShare SpecPercentiles P_Percentiles4 P_Program P_Chernoff P_PctSharp Props_Program Props_Large Props_Indep Props_PctNear.
From Verif Require Import SpecProgram SpecLarge SpecIndep SpecColumns SpecPctNear SpecChernoff SpecPctSharp.
Open Scope Q_scope.

(** [get_percentiles] of [n] samples of an expression is between the ends of a guard but for the
    bounds of C201 on both sides, whatever bases are chosen. *)
Theorem C205_percentile :
  forall Or N ahead, (0 < N)%nat -> right_length Or -> reads_all Or N ahead ->
  forall argsort e n p g ss, sorts_numbers argsort -> sound e -> (1 <= n)%nat -> percent p -> guards n p g ->
  each_once N (n * work e) (map (coming Or ahead (n * work e)) ss) ->
  1 - misses e n g - qnat (n * spread e) / qnat N <=
  qnat (count (samples_in Or (obj_of e) n (percentile_within argsort p (low g) (high g))) ss) / qnat (N ^ (n * work e)).
Proof. exact @percentile_sharp. Qed.
Print Assumptions C205_percentile.

(** The median and both ends of the interval of [get_median_and_ci] likewise. *)
Theorem C205_interval :
  forall Or N ahead, (0 < N)%nat -> right_length Or -> reads_all Or N ahead ->
  forall argsort e n c g1 g2 g3 ss, sorts_numbers argsort -> sound e -> (1 <= n)%nat -> percent c ->
  guards n ((100 - c) / 2) g1 -> guards n 50 g2 -> guards n (100 - (100 - c) / 2) g3 ->
  each_once N (n * work e) (map (coming Or ahead (n * work e)) ss) ->
  1 - (misses e n g1 + misses e n g2 + misses e n g3) - qnat (n * spread e) / qnat N <=
  qnat (count (samples_in Or (obj_of e) n (interval_within argsort c (ends g1) (ends g2) (ends g3))) ss) / qnat (N ^ (n * work e)).
Proof. exact @interval_sharp. Qed.
Print Assumptions C205_interval.

(** If less than [a] has a probability below [p] percent, and up to [b] one above, the probability
    that the percentile [p] of independent samples is not between them falls at least
    geometrically with their number; [u / v] and [u' / v] are shares between these probabilities. *)
Theorem C205_geometric :
  forall argsort e p a b u u' v, sorts_numbers argsort -> sound e -> percent p -> (1 <= v)%nat ->
  chance (prog_of e) (fun x => Qlt_bool x a) * qnat v < qnat u -> qnat u <= qnat v * (p / 100) ->
  qnat v * (p / 100) < qnat u' -> qnat u' < chance (prog_of e) (fun x => Qle_bool x b) * qnat v ->
  exists r, 0 <= r /\ r < 1 /\ forall m, (1 <= m)%nat -> 1 - 2 * npow r m <= chance (repeated (v * m) (prog_of e)) (percentile_within argsort p a b).
Proof. exact percentile_geometric. Qed.
Print Assumptions C205_geometric.

(** The median of 400 samples of [sq.die(6) + sq.die(6)] is 7 in 99 of 100 cases; C194 needs
    10,000 samples for that. *)
Definition seven : guard := Guard 7 7 200 201 (7#5) (5#7).
Example C205_sat :
  right_length (tape_oracle 4) /\ reads_all (tape_oracle 4) 4 (tape_ahead 4) /\ sorts_numbers argsort0 /\ sound two_dice /\
  guards 400 50 seven /\ misses two_dice 400 seven < 1#100 /\
  chance (prog_of two_dice) (fun x => Qlt_bool x 7) * qnat 24 < qnat 12 /\ qnat 24 * (50 / 100) < qnat 13 /\
  qnat 13 < chance (prog_of two_dice) (fun x => Qle_bool x 7) * qnat 24.
Proof.
  destruct C194_sat as (A & B & C & _). split; [exact A|]. split; [exact B|]. split; [exact C|].
  split. { assert (D : sound (XChoice (CDie 6))); [|split; exact D]. split; [cbn; lia|]. split; [discriminate|]. intros w v I. vm_compute in I. repeat (destruct I as [I|I]; [inversion I; reflexivity|]). destruct I. }
  split; [repeat split; vm_compute; try discriminate; reflexivity|]. split.
  { assert (X : misses two_dice 400 seven == npow (7#6) 400 / npow (7#5) 200 + npow (5#6) 400 / npow (5#7) 201); [|rewrite X; vm_compute; reflexivity].
    unfold misses. cbn [seven low high rank_low rank_high base_low base_high].
    rewrite (npow_same (1 + chance (prog_of two_dice) (fun x => Qlt_bool x 7) * ((7#5) - 1)) (7#6)) by (vm_compute; reflexivity).
    rewrite (npow_same (1 + chance (prog_of two_dice) (fun x => Qle_bool x 7) * ((5#7) - 1)) (5#6)) by (vm_compute; reflexivity). reflexivity. }
  repeat split; vm_compute; reflexivity.
Qed.
(** Two throws of a die with four sides: their median is between 2 and 3 for 10 of the 16 sequences. *)
Example C205_samples_sat :
  guards 2 50 (Guard 2 3 1 2 2 (1#2)) /\
  count (samples_in (tape_oracle 4) (obj_of die4) 2 (percentile_within argsort0 50 2 3)) (map (tape_state 4) (seqs 4 2)) = 10%nat.
Proof. split; [repeat split; vm_compute; try discriminate; reflexivity|vm_compute; reflexivity]. Qed.
