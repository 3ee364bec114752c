(** C155, C156: what percentiles mean. *)
From Coq Require Import Lqa.
From Verif Require Import Base M_Percentiles SpecPercentiles SpecPctUnits P_Percentiles4 P_PctUnits.
Open Scope Q_scope.

(* ---------------------------------------------------------------- C155 *)
(** A change of units a x + b with a > 0 changes every reported percentile the same way.
    With weights the data must differ, see [C70_permute_refuted] for the reason. *)
Theorem C155_units :
  forall as1 as2 data w pa reverse a b, sorts_numbers as1 -> sorts_numbers as2 -> 0 < a ->
  good_call data w (plist pa) -> w = None \/ different data ->
  exists o o', get_percentiles as1 data pa w reverse None = Ok o /\
    get_percentiles as2 (map (affine a b) data) pa w reverse None = Ok o' /\ same_out (out_map (affine a b) o) o'.
Proof. exact gp_affine. Qed.
Print Assumptions C155_units.
(** Reversing the sign of the data reverses the percentiles. *)
Theorem C155_sign :
  forall as1 as2 data p v, data <> [] -> percent p ->
  get_percentiles as1 data (POne p) None false None = Ok (One v) ->
  exists v', get_percentiles as2 (map Qopp data) (POne (100 - p)) None false None = Ok (One v') /\ v' == - v.
Proof. exact gp_opp. Qed.
Print Assumptions C155_sign.

Example C155_sat :
  sorts_numbers argsort0 /\ good_call [3; 1; 2] None [25; 50] /\ percent 25 /\
  get_percentiles argsort0 [3; 1; 2] (PList [25; 50]) None false None = Ok (Dict [(25, 1.50); (50, 2.00)]) /\
  get_percentiles argsort0 (map (affine 10 5) [3; 1; 2]) (PList [25; 50]) None false None = Ok (Dict [(25, 20.00); (50, 25.00)]) /\
  get_percentiles argsort0 [3; 1; 2] (POne 25) None false None = Ok (One 1.50) /\
  get_percentiles argsort0 (map Qopp [3; 1; 2]) (POne (100 - 25)) None false None = Ok (One (-1.50)).
Proof.
  split; [exact argsort0_sorts|]. split; [split; [discriminate|intros p [<-|[<-|[]]]; split; discriminate]|].
  split; [split; discriminate|]. repeat split; reflexivity.
Qed.

(* ---------------------------------------------------------------- C156 *)
(** Of n data, fewer than (n-1) p / 100 + 1 lie below percentile p and more than
    (n-1) p / 100 are at most percentile p. *)
Theorem C156_share_below :
  forall argsort data p v, sorts_numbers argsort -> data <> [] -> percent p ->
  get_percentiles argsort data (POne p) None false None = Ok (One v) ->
  count (count_below data v) < count (length data - 1) * (p / 100) + 1 /\
  count (length data - 1) * (p / 100) < count (count_upto data v).
Proof. exact gp_share. Qed.
Print Assumptions C156_share_below.
(** With weights, the weight below percentile p is p / 100 of all weight, up to half of the
    largest weight. *)
Theorem C156_weight_below :
  forall argsort data w m p v, sorts_numbers argsort -> usable_weights data w -> percent p ->
  (forall x, In x w -> x <= m) -> get_percentiles argsort data (POne p) (Some w) false None = Ok (One v) ->
  weight_below data w v <= sum w * (p / 100) + m / 2 /\ sum w * (p / 100) - m / 2 <= weight_upto data w v.
Proof. exact gp_weighted_share. Qed.
Print Assumptions C156_weight_below.
(** So a credible interval of c percent covers c percent of the data. *)
Theorem C156_interval_covers :
  forall argsort data c r, sorts_numbers argsort -> data <> [] -> percent c ->
  get_median_and_ci argsort data c None None = Ok r ->
  count (length data - 1) * (c / 100) - 1 < count (count_inside data (md_low r) (md_high r)) /\
  count (count_below data (md_low r)) < count (length data - 1) * ((100 - c) / 200) + 1.
Proof. exact ci_covers. Qed.
Print Assumptions C156_interval_covers.
Example C156_sat :
  sorts_numbers argsort0 /\ percent 50 /\ usable_weights [0; 10] [1; 3] /\ (forall x, In x [1; 3] -> x <= 3) /\
  get_percentiles argsort0 [3; 1; 2] (POne 25) None false None = Ok (One 1.50) /\
  count_below [3; 1; 2] 1.50 = 1%nat /\ count_upto [3; 1; 2] 1.50 = 1%nat /\
  get_percentiles argsort0 [0; 10] (POne 50) (Some [1; 3]) false None = Ok (One (192000 # 25600)) /\
  get_median_and_ci argsort0 [3; 1; 2] 50 None None = Ok (MedianCI 2.00 (300 # 200) (500 # 200)) /\
  count_inside [3; 1; 2] (300 # 200) (500 # 200) = 1%nat.
Proof.
  split; [exact argsort0_sorts|]. split; [split; discriminate|]. split.
  - split; [reflexivity|]. split; [intros w [<-|[<-|[]]]; discriminate|reflexivity].
  - split; [intros x [<-|[<-|[]]]; discriminate|]. repeat split; reflexivity.
Qed.
