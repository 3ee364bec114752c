(** Parameters computed in double precision (C147-C149). *)
From Coq Require Import Qabs Lqa.
From Verif Require Import Base M_Float M_Double M_DoubleProb M_DoubleParams SpecWeights SpecFloat SpecDouble SpecKelly SpecDoubleParams
  P_Double P_DoubleProb P_DoubleParams P_DoubleParams2.
Open Scope Q_scope.

(* ---------------------------------------------------------------- C147 *)
(** The mean is a double nearest to the middle and inside the interval; the sd is not
    negative. *)
Theorem C147_mean :
  forall x y sigma, is_double x -> is_double y -> x <= y -> 0 < sigma ->
  exists m s, fl_norm_params x y sigma = Ok (m, s) /\ nearest_double ((x + y) / 2) m /\ x <= m <= y /\ 0 <= s.
Proof.
  intros x y sigma Dx Dy L SG. eexists; eexists. split; [now apply norm_params_eq|].
  split; [now apply mean_nearest|]. split; [now apply mean_between|now apply sd_nonneg].
Qed.
Print Assumptions C147_mean.
(** Wherever there is room for a double inside the interval, the mean is inside and the
    sd is positive. *)
Theorem C147_room_partial :
  forall x y sigma z, is_double x -> is_double y -> x <= y -> 0 < sigma -> is_double z -> x < z -> z < y ->
  exists m s, fl_norm_params x y sigma = Ok (m, s) /\ x < m /\ m < y /\ 0 < s.
Proof.
  intros x y sigma z Dx Dy L SG Dz A B. eexists; eexists. split; [now apply norm_params_eq|]. now apply (room_between x y sigma Dx Dy L SG z).
Qed.
Print Assumptions C147_room_partial.
(** Without room an interval of positive length can become a constant. *)
Theorem C147_room_refuted :
  forall sigma, 0 < sigma -> exists x y m s, is_double x /\ is_double y /\ x < y /\
  fl_norm_params x y sigma = Ok (m, s) /\ m == y /\ s == 0.
Proof. exact interval_collapses. Qed.
Print Assumptions C147_room_refuted.
(** The interval of the distribution built is the requested one up to rounding. *)
Theorem C147_interval :
  forall x y sigma m s, is_double x -> is_double y -> x <= y -> 0 < sigma -> fl_norm_params x y sigma = Ok (m, s) ->
  Qabs (m + s * sigma - y) <= (5#2) * double_u * (y - x) /\
  Qabs (m - s * sigma - x) <= (5#2) * double_u * (y - x) + double_u * Qabs (x + y).
Proof.
  intros x y sigma m s Dx Dy L SG E. rewrite (norm_params_eq x y sigma L) in E. injection E as <- <-.
  now apply interval_back.
Qed.
Print Assumptions C147_interval.
Theorem C147_rejects :
  forall x y sigma, y < x -> exists e, fl_norm_params x y sigma = Err (ValueError e).
Proof.
  intros x y sigma L. unfold fl_norm_params. destruct (Qlt_bool y x) eqn:E; [eexists; reflexivity|].
  apply negb_false_iff, Qle_bool_iff in E. lra.
Qed.
Print Assumptions C147_rejects.
Example C147_sat : is_double 1 /\ is_double 2 /\ is_double (3#2) /\ 1 < (3#2) /\ (3#2) < 2 /\
  fl_norm_params 1 2 (1#2) = Ok (3#2, 1) /\ exists e, fl_norm_params 2 1 (1#2) = Err (ValueError e).
Proof.
  split; [exists 1%Z, 0%Z; split; [small|reflexivity]|]. split; [exists 1%Z, 1%Z; split; [small|reflexivity]|].
  split; [exists 3%Z, (-1)%Z; split; [small|reflexivity]|].
  split; [reflexivity|]. split; [reflexivity|]. split; [vm_compute; reflexivity|]. eexists. vm_compute. reflexivity.
Qed.

(* ---------------------------------------------------------------- C148 *)
(** The posterior is the precision-weighted average up to a few units in the last place of
    its terms, and keeps a positive variance. *)
Theorem C148_close_partial :
  forall pm pv em ev w, 0 < pv -> 0 < ev -> 0 <= w ->
  Qabs (fst (fl_update pm pv em ev w) - pooled_mean pm pv em ev w) <= 7 * double_u * pooled_mean (Qabs pm) pv (Qabs em) ev w /\
  Qabs (snd (fl_update pm pv em ev w) - / pooled_precision pv ev w) <= 5 * double_u * / pooled_precision pv ev w.
Proof. exact update_close. Qed.
Print Assumptions C148_close_partial.
Theorem C148_positive_variance :
  forall pm pv em ev w, 0 < pv -> 0 < ev -> 0 <= w -> 0 < snd (fl_update pm pv em ev w).
Proof. exact update_var_pos. Qed.
Print Assumptions C148_positive_variance.
(** Evidence with the mean of the prior can still move the mean. *)
Theorem C148_agreeing_refuted :
  exists m pv ev, is_double m /\ is_double pv /\ is_double ev /\ 0 < pv /\ 0 < ev /\
  pooled_mean m pv m ev 1 == m /\ m < fst (fl_update m pv m ev 1).
Proof. exact agreeing_moves. Qed.
Print Assumptions C148_agreeing_refuted.
Example C148_sat : fl_update 1 1 3 1 1 = (2, 1#2) /\ pooled_mean 1 1 3 1 1 == 2.
Proof. split; vm_compute; reflexivity. Qed.

(* ---------------------------------------------------------------- C149 *)
Theorem C149_close_partial :
  forall my market d, price my -> price market -> share d ->
  Qabs (fl_kelly my market d - Qabs (fraction (belief my market d) market)) <= 9 * double_u / (1 - market).
Proof. exact kelly_close. Qed.
Print Assumptions C149_close_partial.
Theorem C149_roi_partial :
  forall my market d, price my -> price market -> share d ->
  Qabs (fl_expected_roi my market d - Qabs (belief my market d / market - 1)) <= 11 * double_u / market.
Proof. exact roi_close. Qed.
Print Assumptions C149_roi_partial.
(** Next to price 1 the error is as large as it can be: nothing should be bet, and
    everything is. *)
Theorem C149_close_refuted :
  exists p d, is_double p /\ is_double d /\ price p /\ share d /\
  fraction (belief p p d) p == 0 /\ fl_kelly p p d == 1.
Proof. exact everything_on_nothing. Qed.
Print Assumptions C149_close_refuted.
Example C149_sat : price (3#4) /\ price (1#2) /\ share (1#2) /\ fl_kelly (3#4) (1#2) (1#2) == 1#4 /\
  fraction (belief (3#4) (1#2) (1#2)) (1#2) == 1#4 /\ fl_expected_roi (3#4) (1#2) (1#2) == 1#4.
Proof. split; [split; small|]. split; [split; small|]. split; [split; small|]. split; [|split]; vm_compute; reflexivity. Qed.
