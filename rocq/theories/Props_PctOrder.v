(** C173: percentiles follow the data. *)
From Coq Require Import Reals Lqa Qabs.
From Verif Require Import Base M_Formulas M_Percentiles M_LogPercentiles SpecPercentiles SpecPctOrder SpecLogOrder P_Percentiles4
  P_PctOrder P_LogOrder.
Open Scope Q_scope.

(* ---------------------------------------------------------------- C173 *)
(** When no datum falls, no reported percentile falls, rounded or not.  With weights the
    data must differ and keep their order, see [C173_weighted_refuted] for the reason. *)
Theorem C173_rise :
  forall as1 as2 data data' w pa reverse digits, sorts_numbers as1 -> sorts_numbers as2 ->
  good_call data w (plist pa) -> risen data data' -> w = None \/ (different data /\ same_order data data') ->
  exists o o', get_percentiles as1 data pa w reverse digits = Ok o /\ get_percentiles as2 data' pa w reverse digits = Ok o' /\
    out_le o o'.
Proof. exact gp_rise. Qed.
Print Assumptions C173_rise.
(** When no datum moves by more than e, no percentile moves by more than e. *)
Theorem C173_robust :
  forall e as1 as2 data data' w pa reverse, sorts_numbers as1 -> sorts_numbers as2 ->
  good_call data w (plist pa) -> moved e data data' -> w = None \/ (different data /\ same_order data data') ->
  exists o o', get_percentiles as1 data pa w reverse None = Ok o /\ get_percentiles as2 data' pa w reverse None = Ok o' /\
    out_close e o o'.
Proof. exact gp_moved. Qed.
Print Assumptions C173_robust.
(** So all three numbers of a credible interval rise with the data. *)
Theorem C173_intervals :
  forall as1 as2 data data' c digits r r' s s', sorts_numbers as1 -> sorts_numbers as2 -> data <> [] -> percent c ->
  risen data data' ->
  get_median_and_ci as1 data c None digits = Ok r -> get_median_and_ci as2 data' c None digits = Ok r' ->
  get_mean_and_ci as1 data c None digits = Ok s -> get_mean_and_ci as2 data' c None digits = Ok s' ->
  (md_low r <= md_low r' /\ md_median r <= md_median r' /\ md_high r <= md_high r') /\
  (mc_low s <= mc_low s' /\ mc_mean s <= mc_mean s' /\ mc_high s <= mc_high s').
Proof. exact ci_rise. Qed.
Print Assumptions C173_intervals.
(** Logarithms of percentiles, or the numbers written in their texts, rise with data that
    are not negative; a percentile rounded to 0 gives minus infinity, which is below all. *)
Theorem C173_logs :
  forall as1 as2 rr data data' w pa reverse display digits, sorts_numbers as1 -> sorts_numbers as2 -> rising_round rr ->
  good_call data w (plist pa) -> risen data data' -> w = None \/ (different data /\ same_order data data') ->
  (forall x, In x data -> 0 <= x) -> (forall d, digits = Some d -> (0 < d)%Z) -> (display = true -> digits <> None) ->
  exists l l', get_log_percentiles as1 rr data pa w reverse display digits = Ok l /\
    get_log_percentiles as2 rr data' pa w reverse display digits = Ok l' /\ logs_le l l'.
Proof. exact logs_rise. Qed.
Print Assumptions C173_logs.
(** Without the condition on the order it is false with weights: a datum can rise and a
    percentile fall, whatever argsort does. *)
Theorem C173_weighted_refuted :
  exists data data' w p, usable_weights data w /\ percent p /\ risen data data' /\ different data /\ different data' /\
  forall as1 as2, sorts_numbers as1 -> sorts_numbers as2 ->
  exists v v', get_percentiles as1 data (POne p) (Some w) false None = Ok (One v) /\
    get_percentiles as2 data' (POne p) (Some w) false None = Ok (One v') /\ v' < v.
Proof. exact weighted_falls. Qed.
Print Assumptions C173_weighted_refuted.

Example C173_sat :
  sorts_numbers argsort0 /\ good_call [3; 1; 2] None [25; 50] /\ risen [3; 1; 2] [3; 5; 2] /\ moved 4 [3; 1; 2] [3; 5; 2] /\
  get_percentiles argsort0 [3; 1; 2] (PList [25; 50]) None false None = Ok (Dict [(25, 1.50); (50, 2.00)]) /\
  get_percentiles argsort0 [3; 5; 2] (PList [25; 50]) None false None = Ok (Dict [(25, 2.50); (50, 3.00)]) /\
  good_call [0; 10] (Some [1; 3]) [50] /\ different [0; 10] /\ same_order [0; 10] [4; 10] /\ risen [0; 10] [4; 10] /\
  (exists v v', get_percentiles argsort0 [0; 10] (POne 50) (Some [1; 3]) false None = Ok (One v) /\
     get_percentiles argsort0 [4; 10] (POne 50) (Some [1; 3]) false None = Ok (One v') /\ v == 15 / 2 /\ v' == 17 / 2) /\
  rising_round (fun _ x => x) /\
  (exists x, get_log_percentiles argsort0 (fun _ x => x) [0; 1] (PList [0; 100]) None false false (Some 1%Z) =
     Ok (LLogs [(0, RMinf); (100, RFin x)])) /\
  ~ same_order [0; 10; 11; 100] [0; 12; 11; 100].
Proof.
  split; [exact argsort0_sorts|]. split; [split; [discriminate|intros p [<-|[<-|[]]]; split; discriminate]|].
  split; [repeat constructor; discriminate|]. split; [repeat constructor; discriminate|].
  split; [reflexivity|]. split; [reflexivity|].
  split; [split; [reflexivity|]; split; [intros w [<-|[<-|[]]]; discriminate|reflexivity]|].
  split; [unfold different; cbn; repeat constructor; cbn; intuition discriminate|].
  split; [split; [reflexivity|]; intros [|[|i]] [|[|j]] I J; cbn in *; try lia; intros H; try discriminate; try reflexivity|].
  split; [repeat constructor; discriminate|].
  split; [eexists; eexists; split; [reflexivity|]; split; [reflexivity|]; split; reflexivity|].
  split; [intros d x y L; exact L|]. split; [eexists; reflexivity|].
  intros [_ H]. specialize (H 1%nat 2%nat). cbn in H. specialize (H ltac:(lia) ltac:(lia) ltac:(reflexivity)). discriminate.
Qed.
