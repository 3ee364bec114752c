(** C204: percentiles and averages of estimates are accurate in double precision. *)
From Coq Require Import Permutation Qabs Lia Lqa.
From Verif Require Import Base M_Values M_Sampler M_Percentiles M_Double M_DoublePct M_Ieee M_DoubleMean M_DoubleExpr SpecPercentiles SpecPctOrder SpecSampler SpecRising SpecFloat SpecDouble SpecDoubleMean SpecAccuracy SpecSummary
  P_Percentiles4 P_Summary Props_Accuracy.
Open Scope Q_scope.

(** If every sample is off by at most the share [t] of it, so is every percentile, also if the
    errors change the order of the samples. *)
Theorem C204_percentiles :
  forall t as1 as2 xs ys pa reverse, sorts_numbers as1 -> sorts_numbers as2 -> 0 <= t -> t < 1 ->
  good_call xs None (plist pa) -> all_within t xs ys ->
  exists o o', get_percentiles as1 xs pa None reverse None = Ok o /\ get_percentiles as2 ys pa None reverse None = Ok o' /\ out_within t o o'.
Proof. exact percentiles_within. Qed.
Print Assumptions C204_percentiles.

(** So are the median and both ends of the credible intervals. *)
Theorem C204_intervals :
  forall t as1 as2 xs ys c, sorts_numbers as1 -> sorts_numbers as2 -> 0 <= t -> t < 1 -> xs <> [] -> percent c -> all_within t xs ys ->
  exists r r' m m', get_median_and_ci as1 xs c None None = Ok r /\ get_median_and_ci as2 ys c None None = Ok r' /\
    get_mean_and_ci as1 xs c None None = Ok m /\ get_mean_and_ci as2 ys c None None = Ok m' /\
    within t (md_low r) (md_low r') /\ within t (md_median r) (md_median r') /\ within t (md_high r) (md_high r') /\
    within t (mc_low m) (mc_low m') /\ within t (mc_high m) (mc_high m').
Proof. exact ci_within. Qed.
Print Assumptions C204_intervals.

(** And the average of samples that are not negative, added in double precision in any order, is
    off by [t] and two more roundings per sample. *)
Theorem C204_average :
  forall t xs ys m, 0 <= t -> t <= 1 # 2 -> xs <> [] -> Forall (Qle 0) xs -> all_within t xs ys -> short_for double_u (length ys) -> averages_to ys m ->
  within (t + 2 * inject_Z (Z.of_nat (length xs)) * double_u) (average xs) m.
Proof. exact average_within. Qed.
Print Assumptions C204_average.

(** With the percentile computed in double precision too, the error is that and what C157 allows. *)
Theorem C204_machine :
  forall t xs ys p r lo hi, 0 <= t -> t < 1 -> xs <> [] -> all_within t xs ys -> Forall is_double ys ->
  (Z.of_nat (length xs) <= 2 ^ 53)%Z -> percent p -> 0 <= lo -> all_between lo hi xs -> percentile_of xs p r ->
  Qabs (fl_percentile ys p - r) <= t * r + double_u * (3 * inject_Z (Z.of_nat (length xs - 1)) * ((1 + t) * hi - (1 - t) * lo) + 7 * ((1 + t) * hi)).
Proof. exact machine_percentile. Qed.
Print Assumptions C204_machine.

(** So percentiles of [n] samples of an estimate made of positive numbers, sampled in double
    precision, have the accuracy of a single sample, and averages lose 2 [n] roundings at
    most; the last line has the percentile computed in double precision. *)
Theorem C204_summaries :
  forall Or n e s xs s', (1 <= n)%nat -> estimates Or n e s xs s' -> (steps e <= 1000)%nat ->
  exists v ys, smp Or (fobj e) n None None s = (Ok v, s') /\ numbers n v xs /\ fl_run Or e n s = (Ok (map Fin ys), s') /\
    (forall as1 as2 pa reverse, sorts_numbers as1 -> sorts_numbers as2 -> (forall p, In p (plist pa) -> percent p) ->
      exists o o', get_percentiles as1 xs pa None reverse None = Ok o /\ get_percentiles as2 ys pa None reverse None = Ok o' /\
        out_within (inject_Z (Z.of_nat (S (steps e))) * double_u) o o') /\
    (forall m, short_for double_u n -> averages_to ys m -> within (inject_Z (Z.of_nat (S (steps e) + 2 * n)) * double_u) (average xs) m) /\
    (forall p r lo hi, (Z.of_nat n <= 2 ^ 53)%Z -> percent p -> 0 <= lo -> all_between lo hi xs -> percentile_of xs p r ->
      let t := inject_Z (Z.of_nat (S (steps e))) * double_u in
      Qabs (fl_percentile ys p - r) <= t * r + double_u * (3 * inject_Z (Z.of_nat (n - 1)) * ((1 + t) * hi - (1 - t) * lo) + 7 * ((1 + t) * hi))).
Proof. exact summaries. Qed.
Print Assumptions C204_summaries.

(** Samples of any sign: -1 and 1 average to 0, but off by a share of each they need not. *)
Theorem C204_signs :
  exists t xs ys, 0 < t /\ t <= 1 # 10 /\ Forall2 (fun x y => Qabs (y - x) <= t * Qabs x) xs ys /\ average xs == 0 /\ ~ average ys == 0.
Proof.
  exists (1 # 10), [-(1); 1], [-(1); 11 # 10]. split; [reflexivity|]. split; [discriminate|]. split; [repeat constructor; vm_compute; discriminate|].
  split; [reflexivity|discriminate].
Qed.
Print Assumptions C204_signs.

Example C204_sat :
  sorts_numbers argsort0 /\ short_for double_u 3 /\ percent 50 /\
  get_percentiles argsort0 [10; 11; 30] (POne 50) None false None = Ok (One 11.00) /\
  get_percentiles argsort0 [11; 10; 33] (POne 50) None false None = Ok (One 11.00) /\ all_within (1 # 10) [10; 11; 30] [11; 10; 33] /\
  (steps trial <= 1000)%nat /\
  exists xs s' ys m, estimates ex_oracle 3 trial (ex_state 0) xs s' /\ fl_run ex_oracle trial 3 (ex_state 0) = (Ok (map Fin ys), s') /\ averages_to ys m.
Proof.
  split; [exact argsort0_sorts|]. split; [vm_compute; repeat split; discriminate|]. split; [split; discriminate|]. split; [vm_compute; reflexivity|]. split; [vm_compute; reflexivity|].
  split; [repeat constructor; vm_compute; discriminate|]. destruct C202_sat as [K (xs & s' & E & L & ys & R & F)]. split; [rewrite K; lia|].
  destruct F as [|x1 a ? ? _ [|x2 b ? ? _ [|x3 c ? ? _ [|]]]]; try discriminate L.
  exists [x1; x2; x3], s', [a; b; c], (fl_mean (Plus (Plus (Term a) (Term b)) (Term c))). split; [exact E|]. split; [exact R|].
  eexists. split; [|reflexivity]. apply Permutation_refl.
Qed.
