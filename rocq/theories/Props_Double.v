(** C127-C129: picking components, splitting work and checking weights in double precision;
    also that double precision is an instance of the rounding assumed in C121 and C122. *)
From Coq Require Import Qabs.
From Verif Require Import Base M_Weights M_Pick M_Float M_Double SpecWeights SpecFloat SpecDouble P_Float P_Double.
Open Scope Q_scope.

(** [rnd] gives the nearest double; hence binary64 arithmetic has relative error 2^-53. *)
Theorem C121_nearest_double : forall q, nearest_double q (rnd q).
Proof. exact rnd_nearest. Qed.
Print Assumptions C121_nearest_double.
Theorem C121_binary64 : rounds double_u binary64.
Proof. exact binary64_rounds. Qed.
Print Assumptions C121_binary64.

(** C127.  There are cut points, each within [slack] of the exact cumulative weight, such that
    component i is picked exactly for the draws between cut i and cut i + 1. *)
Theorem C127_cut_points :
  forall ws, nonneg ws -> Forall is_double ws -> ws <> [] -> (Z.of_nat (length ws) <= 2 ^ 43 - 1)%Z ->
  exists cut : nat -> Q,
    (forall i, (i <= length ws)%nat -> Qabs (cut i - total (firstn i ws)) <= slack double_u (length ws) * total ws) /\
    (forall r i, fl_large_pick binary64 ws r = Ok i <-> (i < length ws)%nat /\ (i = 0%nat \/ cut i < r) /\ r <= cut (S i)) /\
    (forall r i, fl_small_pick binary64 ws r = Ok i <-> (i < length ws)%nat /\ (i = 0%nat \/ cut i < r) /\ (S i = length ws \/ r <= cut (S i))) /\
    (forall r, fl_large_pick binary64 ws r = Err IndexError <-> cut (length ws) < r).
Proof. exact cut_points. Qed.
Print Assumptions C127_cut_points.
(** So a pick can only fail for a draw within [slack] of the total. *)
Theorem C127_rarely_fails_partial :
  forall ws r, nonneg ws -> Forall is_double ws -> ws <> [] -> (Z.of_nat (length ws) <= 2 ^ 43 - 1)%Z ->
  r <= (1 - slack double_u (length ws)) * total ws -> exists i, fl_large_pick binary64 ws r = Ok i /\ (i < length ws)%nat.
Proof. exact rarely_fails. Qed.
Print Assumptions C127_rarely_fails_partial.
(** Up to 100 samples, every draw picks, in any arithmetic. *)
Theorem C127_small_never_fails :
  forall F ws r, ws <> [] -> exists i, fl_small_pick F ws r = Ok i /\ (i < length ws)%nat.
Proof. exact fl_small_total. Qed.
Print Assumptions C127_small_never_fails.
(** With more than 100 samples it can fail even for the weights the library itself assigns:
    seven equal weights 1/7 add up to 1 - 2^-52, below the largest possible draw. *)
Theorem C127_picks_refuted :
  exists (vs : list Z) ws r, fl_finish binary64 (fl_equal binary64 (length vs)) vs = Ok (ws, vs) /\
    Forall is_double ws /\ uniform_draw r /\ fl_large_pick binary64 ws r = Err IndexError.
Proof. exact seven_fail. Qed.
Print Assumptions C127_picks_refuted.
Example C127_sat :
  let ws := [rnd (1#10); rnd (2#10); rnd (7#10)] in
  nonneg ws /\ Forall is_double ws /\ ~ total ws == 1 /\
  fl_large_pick binary64 ws (1#4) = Ok 1%nat /\ fl_small_pick binary64 ws (999#1000) = Ok 2%nat.
Proof.
  cbv zeta. split; [repeat constructor; discriminate|]. split; [repeat constructor; apply rnd_double|].
  split; [vm_compute; discriminate|]. split; vm_compute; reflexivity.
Qed.

(** C128.  The float division in [_core_cuts] does no harm. *)
Theorem C128_split_exact :
  forall n k, (0 <= n < 2 ^ 53)%Z -> (0 < k)%nat -> fl_core_cuts binary64 n k = core_cuts n k.
Proof. exact fl_cuts_exact. Qed.
Print Assumptions C128_split_exact.
Theorem C128_split_total :
  forall F n k cuts, fl_core_cuts F n k = Ok cuts -> length cuts = k /\ fold_right Z.add 0%Z cuts = n.
Proof. exact fl_cuts_total. Qed.
Print Assumptions C128_split_total.
Example C128_sat :
  fl_core_cuts binary64 10 4 = Ok [2; 2; 2; 4]%Z /\ fl_core_cuts binary64 (2 ^ 53 - 1) 3 = core_cuts (2 ^ 53 - 1) 3 /\
  fl_core_cuts binary64 (2 ^ 54 - 1) 2 <> core_cuts (2 ^ 54 - 1) 2.
Proof. repeat split; vm_compute; try reflexivity. discriminate. Qed.

(** C129.  Ten weights 0.1 (as doubles, adding up to more than 1) and eleven values: the
    rounded sum is below 1, so the eleventh value gets the weight 2^-53. *)
Theorem C129_too_many_values_refuted :
  exists ws (vs : list Z) ws' , Forall is_double ws /\ 1 < total ws /\ S (length ws) = length vs /\
    fl_finish binary64 ws vs = Ok (ws', vs) /\ last ws' 0 == 1 # 2 ^ 53.
Proof. exact eleven_accepted. Qed.
Print Assumptions C129_too_many_values_refuted.
(** It is noticed when the weights add up to clearly more than 1. *)
Theorem C129_noticed_partial :
  forall u F, rounds u F -> 0 <= u -> u <= 1 -> forall (A : Type) ws (vs : list A),
  nonneg ws -> short_for u (length ws) -> S (length ws) = length vs -> 1002 # 1000 <= total ws ->
  exists m, fl_finish F ws vs = Err (ValueError m).
Proof. exact too_many_noticed. Qed.
Print Assumptions C129_noticed_partial.
Example C129_sat : is_value_error (fl_finish binary64 [rnd (1#2); rnd (51#100)] [1%Z; 2%Z; 3%Z]) = true.
Proof. vm_compute; reflexivity. Qed.
