(** C69-C73, C100-C103: percentiles and credible intervals. *)
From Coq Require Import Permutation Sorted Reals Qreals.
From Verif Require Import Base M_Values M_Ops SpecRound M_Formulas M_Percentiles M_LogPercentiles SpecPercentiles
  P_Percentiles P_Percentiles2 P_Percentiles3 P_Percentiles4 P_Percentiles5 P_ZeroWeight.
Open Scope Q_scope.

(* ---------------------------------------------------------------- C69 *)
(** Several percentiles: the dict has exactly the labels asked for, each with the
    rounded percentile, between the bounds of the data and monotone. *)
Theorem C69_values :
  forall argsort data ps w digits lo hi, sorts_numbers argsort -> length ps <> 1%nat -> good_call data w ps ->
  all_between lo hi data ->
  exists d, get_percentiles argsort data (PList ps) w false digits = Ok (Dict d) /\
    dict_over ps d (fun p v => exists r, percentile_is data w p r /\ v == round_to digits r /\ lo <= r /\ r <= hi) /\
    forall p q u v, In p ps -> In q ps -> p <= q -> dget d p = Some u -> dget d q = Some v -> u <= v.
Proof. exact gp_dict. Qed.
Print Assumptions C69_values.
Theorem C69_single :
  forall argsort, sorts_numbers argsort ->
  forall data pa p weights reverse digits, plist pa = [p] -> good_call data weights [p] ->
  exists v, get_percentiles argsort data pa weights reverse digits = Ok (One (round_to digits v)) /\
            percentile_is data weights p v.
Proof. exact get_single. Qed.
Print Assumptions C69_single.
(** The percentiles 0 and 100 are the extremes; single percentiles rise. *)
Theorem C69_extremes :
  forall argsort data reverse digits m, sorts_numbers argsort ->
  (smallest data m ->
   exists v, get_percentiles argsort data (POne 0) None reverse digits = Ok (One v) /\ v == round_to digits m) /\
  (largest data m ->
   exists v, get_percentiles argsort data (POne 100) None reverse digits = Ok (One v) /\ v == round_to digits m).
Proof. exact gp_extremes. Qed.
Print Assumptions C69_extremes.
Theorem C69_monotone :
  forall argsort data weights reverse digits p q, sorts_numbers argsort -> good_call data weights [p; q] -> p <= q ->
  exists u v, get_percentiles argsort data (POne p) weights reverse digits = Ok (One u) /\
    get_percentiles argsort data (POne q) weights reverse digits = Ok (One v) /\ u <= v.
Proof. exact gp_single_mono. Qed.
Print Assumptions C69_monotone.
Theorem C69_order_independent :
  forall as1 as2 data data' pa reverse digits, sorts_numbers as1 -> sorts_numbers as2 -> Permutation data data' ->
  good_call data None (plist pa) ->
  exists o o', get_percentiles as1 data pa None reverse digits = Ok o /\
               get_percentiles as2 data' pa None reverse digits = Ok o' /\ same_out o o'.
Proof. exact gp_perm. Qed.
Print Assumptions C69_order_independent.
(** [reverse]: the i-th value goes to the i-th label from the end. *)
Theorem C69_reverse :
  forall argsort, sorts_numbers argsort ->
  forall data ps weights digits i, length ps <> 1%nat -> good_call data weights ps -> different ps -> (i < length ps)%nat ->
  exists d v, get_percentiles argsort data (PList ps) weights true digits = Ok (Dict d) /\
    dget d (nth (length ps - 1 - i) ps 0) = Some (round_to digits v) /\ percentile_is data weights (nth i ps 0) v.
Proof. exact get_reversed. Qed.
Print Assumptions C69_reverse.
Theorem C69_rejects :
  forall argsort data pa reverse digits p, In p (plist pa) -> ~ percent p ->
  get_percentiles argsort data pa None reverse digits = Err (ValueError "Percentiles must be in the range [0, 100]").
Proof. exact gp_rejects. Qed.
Print Assumptions C69_rejects.
Example C69_sat :
  sorts_numbers argsort0 /\ good_call [3; 1; 2] None [25; 50] /\ different [25; 50] /\
  get_percentiles argsort0 [3; 1; 2] (PList [25; 50]) None false (Some 1%Z) = Ok (Dict [(25, 15 # 10); (50, 20 # 10)]) /\
  get_percentiles argsort0 [3; 1; 2] (PList [25; 50]) None true (Some 1%Z) = Ok (Dict [(50, 15 # 10); (25, 20 # 10)]) /\
  ~ percent 101.
Proof.
  split; [exact argsort0_sorts|]. split. { split; [discriminate|]. simpl. intros p [<-|[<-|[]]]; split; discriminate. }
  split. { repeat constructor; simpl; intuition discriminate. }
  split; [reflexivity|]. split; [reflexivity|]. intros [_ H]. now apply H.
Qed.

(* ---------------------------------------------------------------- C70 *)
Theorem C70_spec :
  forall argsort data ps w digits lo hi, sorts_numbers argsort -> length ps <> 1%nat -> usable_weights data w ->
  all_between lo hi data ->
  exists d, get_percentiles argsort data (PList ps) (Some w) false digits = Ok (Dict d) /\
    dict_over ps d (fun p v => exists r, weighted_percentile_of data w p r /\ v == round_to digits r /\ lo <= r /\ r <= hi) /\
    forall p q u v, In p ps -> In q ps -> p <= q -> dget d p = Some u -> dget d q = Some v -> u <= v.
Proof. intros argsort data ps w. exact (gp_dict argsort data ps (Some w)). Qed.
Print Assumptions C70_spec.
Theorem C70_extremes :
  forall argsort data weights reverse digits m, sorts_numbers argsort -> positive_weights data weights ->
  (smallest data m ->
   exists v, get_percentiles argsort data (POne 0) (Some weights) reverse digits = Ok (One v) /\ v == round_to digits m) /\
  (largest data m ->
   exists v, get_percentiles argsort data (POne 100) (Some weights) reverse digits = Ok (One v) /\ v == round_to digits m).
Proof. exact gp_weighted_extremes. Qed.
Print Assumptions C70_extremes.
Theorem C70_scale :
  forall argsort data w k pa reverse digits, sorts_numbers argsort -> 0 < k -> usable_weights data w ->
  exists o o', get_percentiles argsort data pa (Some w) reverse digits = Ok o /\
    get_percentiles argsort data pa (Some (map (fun x => k * x) w)) reverse digits = Ok o' /\ same_out o o'.
Proof. exact gp_scale. Qed.
Print Assumptions C70_scale.
(** Permuting data together with their weights is harmless when the data differ ... *)
Theorem C70_permute_partial :
  forall as1 as2 data w data' w' pa reverse digits, sorts_numbers as1 -> sorts_numbers as2 ->
  usable_weights data w -> length w' = length data' -> Permutation (combine data w) (combine data' w') -> different data ->
  exists o o', get_percentiles as1 data pa (Some w) reverse digits = Ok o /\
    get_percentiles as2 data' pa (Some w') reverse digits = Ok o' /\ same_out o o'.
Proof. exact gp_weighted_perm. Qed.
Print Assumptions C70_permute_partial.
(** ... but not in general, whatever the sorting algorithm does with ties. *)
Theorem C70_permute_refuted :
  forall argsort, sorts_numbers argsort ->
  exists data weights data' weights' p v v', positive_weights data weights /\
    Permutation (combine data weights) (combine data' weights') /\ length weights' = length data' /\ percent p /\
    get_percentiles argsort data (POne p) (Some weights) false None = Ok (One v) /\
    get_percentiles argsort data' (POne p) (Some weights') false None = Ok (One v') /\ ~ v == v'.
Proof. exact ties_differ. Qed.
Print Assumptions C70_permute_refuted.
Theorem C70_mismatch :
  forall argsort data pa w reverse digits, length data <> length w ->
  get_percentiles argsort data pa (Some w) reverse digits = Err (ValueError "Data and weights must be of the same length").
Proof. exact gp_mismatch. Qed.
Print Assumptions C70_mismatch.
Example C70_sat :
  sorts_numbers argsort0 /\ usable_weights [0; 10] [1; 3] /\ positive_weights [0; 10] [1; 3] /\ different [0; 10] /\
  get_percentiles argsort0 [0; 10] (PList [0; 100]) (Some [1; 3]) false (Some 0%Z) = Ok (Dict [(0, 0); (100, 10)]).
Proof.
  split; [exact argsort0_sorts|]. assert (P : positive_weights [0; 10] [1; 3]).
  { split; [reflexivity|]. split; [discriminate|]. simpl. intros x [<-|[<-|[]]]; reflexivity. }
  split; [now apply positive_usable|]. split; auto. split; [repeat constructor; simpl; intuition discriminate|]. reflexivity.
Qed.

(* ---------------------------------------------------------------- C71 *)
Theorem C71_equal_weights_refuted :
  forall argsort, sorts_numbers argsort ->
  exists data w p v v', 0 < w /\ percent p /\
    get_percentiles argsort data (POne p) (Some (repeat w (length data))) false None = Ok (One v) /\
    get_percentiles argsort data (POne p) None false None = Ok (One v') /\ ~ v == v'.
Proof. exact equal_differ. Qed.
Print Assumptions C71_equal_weights_refuted.
(** What holds: with equal weights the percentile q sits at (50 + q (n-1)) / n. *)
Theorem C71_shifted_partial :
  forall argsort data w q reverse digits, sorts_numbers argsort -> 0 < w -> data <> [] -> percent q ->
  exists v v', get_percentiles argsort data
      (POne ((50 + q * inject_Z (Z.of_nat (length data - 1))) / inject_Z (Z.of_nat (length data))))
      (Some (repeat w (length data))) reverse digits = Ok (One v) /\
    get_percentiles argsort data (POne q) None reverse digits = Ok (One v') /\ v == v'.
Proof. exact gp_equal_weights. Qed.
Print Assumptions C71_shifted_partial.
(** So the medians agree. *)
Theorem C71_median_partial :
  forall argsort data w reverse digits, sorts_numbers argsort -> 0 < w -> data <> [] ->
  exists v v', get_percentiles argsort data (POne 50) (Some (repeat w (length data))) reverse digits = Ok (One v) /\
    get_percentiles argsort data (POne 50) None reverse digits = Ok (One v') /\ v == v'.
Proof. exact gp_equal_median. Qed.
Print Assumptions C71_median_partial.
Example C71_sat :
  sorts_numbers argsort0 /\ percent 25 /\
  exists v, get_percentiles argsort0 [0; 10; 40] (POne 25) None false None = Ok (One v) /\ v == 5 /\
  exists v', get_percentiles argsort0 [0; 10; 40] (POne ((50 + 25 * 2) / 3)) (Some (repeat 7 3)) false None = Ok (One v') /\ v' == 5.
Proof.
  split; [exact argsort0_sorts|]. split; [split; discriminate|]. eexists. split; [vm_compute; reflexivity|].
  split; [reflexivity|]. eexists. split; [vm_compute; reflexivity|reflexivity].
Qed.

(* ---------------------------------------------------------------- C72 *)
Theorem C72_median_and_ci :
  forall argsort, sorts_numbers argsort ->
  forall data c weights digits, good_ci data weights -> percent c ->
  exists r l m h, get_median_and_ci argsort data c weights digits = Ok r /\
    percentile_is data weights ((100 - c) / 2) l /\ percentile_is data weights 50 m /\
    percentile_is data weights (100 - (100 - c) / 2) h /\
    md_low r == round_to digits l /\ md_median r == round_to digits m /\ md_high r == round_to digits h /\
    md_low r <= md_median r /\ md_median r <= md_high r.
Proof. exact median_ci. Qed.
Print Assumptions C72_median_and_ci.
Theorem C72_mean_and_ci :
  forall argsort, sorts_numbers argsort ->
  forall data c weights digits lo hi, good_ci data weights -> percent c -> all_between lo hi data ->
  exists r l h, get_mean_and_ci argsort data c weights digits = Ok r /\
    percentile_is data weights ((100 - c) / 2) l /\ percentile_is data weights (100 - (100 - c) / 2) h /\
    mc_low r == round_to digits l /\ mc_high r == round_to digits h /\ mc_low r <= mc_high r /\
    mc_mean r = round_to digits (qsum data / qlen data) /\
    round_to digits lo <= mc_mean r /\ mc_mean r <= round_to digits hi.
Proof. exact mean_ci_spec. Qed.
Print Assumptions C72_mean_and_ci.
Theorem C72_nested :
  forall argsort, sorts_numbers argsort ->
  forall data c c' weights digits r r', good_ci data weights -> percent c -> percent c' -> c <= c' ->
  get_median_and_ci argsort data c weights digits = Ok r -> get_median_and_ci argsort data c' weights digits = Ok r' ->
  md_low r' <= md_low r /\ md_high r <= md_high r' /\ md_median r == md_median r'.
Proof. exact ci_nested. Qed.
Print Assumptions C72_nested.
Example C72_sat :
  good_ci [3; 1; 2] None /\ percent 90 /\ all_between 1 3 [3; 1; 2] /\
  get_median_and_ci argsort0 [3; 1; 2] 90 None (Some 1%Z) = Ok (MedianCI (20 # 10) (11 # 10) (29 # 10)).
Proof.
  split; [discriminate|]. split; [split; discriminate|]. split; [|reflexivity].
  simpl. intros x [<-|[<-|[<-|[]]]]; split; discriminate.
Qed.

(* ---------------------------------------------------------------- C73 *)
Theorem C73_weighted_mean_refuted :
  forall argsort, sorts_numbers argsort ->
  exists data weights r, positive_weights data weights /\ get_mean_and_ci argsort data 90 (Some weights) None = Ok r /\
    ~ weighted_mean_of data weights (mc_mean r).
Proof. exact mean_ignores_weights. Qed.
Print Assumptions C73_weighted_mean_refuted.
(** The reported mean does not depend on the weights at all. *)
Theorem C73_mean_unweighted :
  forall argsort data c w w' digits r r', sorts_numbers argsort -> good_ci data w -> good_ci data w' -> percent c ->
  get_mean_and_ci argsort data c w digits = Ok r -> get_mean_and_ci argsort data c w' digits = Ok r' -> mc_mean r = mc_mean r'.
Proof. exact mean_ci_mean. Qed.
Print Assumptions C73_mean_unweighted.
Example C73_sat :
  good_ci [0; 10] None /\ good_ci [0; 10] (Some [1; 3]) /\ weighted_mean_of [0; 10] [1; 3] (15 # 2) /\
  exists r, get_mean_and_ci argsort0 [0; 10] 90 (Some [1; 3]) (Some 0%Z) = Ok r /\ mc_mean r = 5.
Proof.
  split; [discriminate|]. split. { split; [reflexivity|]. split; [|reflexivity]. simpl. intros x [<-|[<-|[]]]; discriminate. }
  split; [reflexivity|]. eexists. split; reflexivity.
Qed.

(* ---------------------------------------------------------------- C100 *)
(** With [display=False] and digits the percentile is rounded before the logarithm is
    taken: a positive percentile can come out as minus infinity. *)
Theorem C100_log_refuted :
  forall argsort round_real,
  exists data p v, percentile_of data p v /\ 0 < v /\
    get_log_percentiles argsort round_real data (POne p) None false false (Some 1%Z) = Ok (LLog RMinf).
Proof. exact log_rounds_first. Qed.
Print Assumptions C100_log_refuted.
(** Without rounding, 10 to the power of the value is the percentile. *)
Theorem C100_unrounded_partial :
  forall argsort round_real data p weights reverse, sorts_numbers argsort -> good_call data weights [p] ->
  (forall x, In x data -> 0 < x) ->
  exists v x, percentile_is data weights p v /\
    get_log_percentiles argsort round_real data (POne p) weights reverse false None = Ok (LLog (RFin x)) /\
    (Rpower 10 x = Q2R v)%R.
Proof. exact log_unrounded. Qed.
Print Assumptions C100_unrounded_partial.
(** The same for a list: under each label, the logarithm of that percentile. *)
Theorem C100_list_partial :
  forall argsort round_real data ps weights reverse d,
  get_percentiles argsort data (PList ps) weights reverse None = Ok (Dict d) -> (forall kv, In kv d -> 0 < snd kv) ->
  exists ld, get_log_percentiles argsort round_real data (PList ps) weights reverse false None = Ok (LLogs ld) /\
    Forall2 (fun kv kx => fst kx = fst kv /\ exists x, snd kx = RFin x /\ (Rpower 10 x = Q2R (snd kv))%R) d ld.
Proof. exact log_list. Qed.
Print Assumptions C100_list_partial.
Example C100_sat :
  good_call [1 # 25] None [50] /\ (forall x, In x [1 # 25] -> 0 < x) /\
  get_percentiles (fun l => seq 0 (length l)) [100; 200] (PList [0; 100]) None false None = Ok (Dict [(0, 10000 # 100); (100, 20000 # 100)]).
Proof.
  split; [split; [discriminate|]; simpl; intros p [<-|[]]; split; discriminate|]. split; [|vm_compute; reflexivity].
  simpl. intros x [<-|[]]. reflexivity.
Qed.

(* ---------------------------------------------------------------- C101 *)
(** One percentile with [display=True] (the default) never gives a text. *)
Theorem C101_single_text_refuted :
  forall argsort round_real,
  (forall data p weights reverse digits x,
   get_log_percentiles argsort round_real data (POne p) weights reverse true digits = Ok x -> x = LNone) /\
  exists data p, get_log_percentiles argsort round_real data (POne p) None false true (Some 1%Z) = Ok LNone.
Proof.
  intros argsort round_real. split; [exact (log_single_display argsort round_real)|].
  exists [100], 50. reflexivity.
Qed.
Print Assumptions C101_single_text_refuted.

(* ---------------------------------------------------------------- C102 *)
Theorem C102_zero_weight_refuted :
  forall argsort, sorts_numbers argsort ->
  exists a b c v v', get_percentiles argsort [a; b; c] (POne 50) (Some [1; 0; 1]) false None = Ok (One v) /\
    get_percentiles argsort [a; c] (POne 50) (Some [1; 1]) false None = Ok (One v') /\ ~ v == v'.
Proof. exact zero_weight_matters. Qed.
Print Assumptions C102_zero_weight_refuted.

(** It changes only the percentiles strictly between its neighbours: not those up to the
    neighbour below ... *)
Theorem C102_below_partial :
  forall argsort d1 a b d2 w1 wa w2 p,
  sorts_numbers argsort -> StronglySorted Qlt (d1 ++ a :: b :: d2) -> length w1 = length d1 ->
  usable_weights (d1 ++ a :: b :: d2) (w1 ++ wa :: 0 :: w2) -> 0 < wa ->
  p / 100 * sum (w1 ++ wa :: 0 :: w2) <= sum w1 + wa / 2 ->
  exists v v', get_percentiles argsort (d1 ++ a :: b :: d2) (POne p) (Some (w1 ++ wa :: 0 :: w2)) false None = Ok (One v) /\
    get_percentiles argsort (d1 ++ a :: d2) (POne p) (Some (w1 ++ wa :: w2)) false None = Ok (One v') /\ v == v'.
Proof. exact zero_weight_below. Qed.
Print Assumptions C102_below_partial.
(** ... nor those from the neighbour above on. *)
Theorem C102_above_partial :
  forall argsort d1 b c d2 w1 wc w2 p,
  sorts_numbers argsort -> StronglySorted Qlt (d1 ++ b :: c :: d2) -> length w1 = length d1 ->
  usable_weights (d1 ++ b :: c :: d2) (w1 ++ 0 :: wc :: w2) ->
  sum w1 + wc / 2 <= p / 100 * sum (w1 ++ 0 :: wc :: w2) ->
  exists v v', get_percentiles argsort (d1 ++ b :: c :: d2) (POne p) (Some (w1 ++ 0 :: wc :: w2)) false None = Ok (One v) /\
    get_percentiles argsort (d1 ++ c :: d2) (POne p) (Some (w1 ++ wc :: w2)) false None = Ok (One v') /\ v == v'.
Proof. exact zero_weight_above. Qed.
Print Assumptions C102_above_partial.
Example C102_sat :
  StronglySorted Qlt ([0] ++ 5 :: 9 :: [20]) /\ usable_weights ([0] ++ 5 :: 9 :: [20]) ([1] ++ 1 :: 0 :: [2]) /\
  (25 / 100 * sum ([1] ++ 1 :: 0 :: [2]) <= sum [1] + 1 / 2) /\
  StronglySorted Qlt ([0; 5] ++ 9 :: 20 :: []) /\ usable_weights ([0; 5] ++ 9 :: 20 :: []) ([1; 1] ++ 0 :: 2 :: []) /\
  (sum [1; 1] + 2 / 2 <= 80 / 100 * sum ([1; 1] ++ 0 :: 2 :: [])).
Proof.
  split; [repeat constructor|]. split; [split; [reflexivity|]; split; [|reflexivity]; simpl; intros w H; decompose [or] H; subst; try contradiction; discriminate|].
  split; [discriminate|]. split; [repeat constructor|]. split; [|discriminate].
  split; [reflexivity|]; split; [|reflexivity]; simpl; intros w H; decompose [or] H; subst; try contradiction; discriminate.
Qed.

(* ---------------------------------------------------------------- C103 *)
(** [digits=None] with [display=True] never returns, whatever the data. *)
Theorem C103_no_digits_refuted :
  forall argsort round_real,
  (forall data pa weights reverse x, plist pa <> [] ->
   get_log_percentiles argsort round_real data pa weights reverse true None <> Ok x) /\
  exists data p, get_log_percentiles argsort round_real data (POne p) None false true None =
    Err (ValueError "Format specifier missing precision").
Proof.
  intros argsort round_real. split; [exact (log_no_digits argsort round_real)|]. exists [100], 50. reflexivity.
Qed.
Print Assumptions C103_no_digits_refuted.

(** With digits, the text of each percentile has that many; a negative number of digits
    raises. *)
Theorem C103_digits_written :
  forall argsort round_real data ps w reverse digits d,
  get_percentiles argsort data (PList ps) w reverse (Some digits) = Ok (Dict d) -> d <> [] ->
  ((0 <= digits)%Z -> get_log_percentiles argsort round_real data (PList ps) w reverse true (Some digits) =
     Ok (LTexts (map (fun kv => (fst kv, (snd kv, digits))) d))) /\
  ((digits < 0)%Z -> exists m, get_log_percentiles argsort round_real data (PList ps) w reverse true (Some digits) = Err (ValueError m)).
Proof. exact log_digits_written. Qed.
Print Assumptions C103_digits_written.
Example C103_sat :
  get_percentiles (fun l => seq 0 (length l)) [100; 200] (PList [0; 100]) None false (Some 0%Z) = Ok (Dict [(0, 100); (100, 200)]).
Proof. vm_compute; reflexivity. Qed.
