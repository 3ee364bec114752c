(** Weights under floating-point rounding (C121, C122). *)
From Coq Require Import Qabs.
From Verif Require Import Base M_Weights SpecWeights P_Weights M_Float SpecFloat P_Float.
Open Scope Q_scope.

(* ---------------------------------------------------------------- C121 *)
(** Weights left out are accepted however 1/n and its sum round, and no value is lost. *)
Theorem C121_equal_weights_accepted :
  forall u F, rounds u F -> 0 <= u -> u <= 1 -> forall (A : Type) (vs : list A),
  vs <> [] -> short_for u (length vs) ->
  exists w, fl_finish F (fl_equal F (length vs)) vs = Ok (repeat w (length vs), vs) /\
    Qabs (w - 1 / inject_Z (Z.of_nat (length vs))) <= u / inject_Z (Z.of_nat (length vs)).
Proof. intros u F R U0 U1 A. exact (fl_equal_accepted u F R U0 U1). Qed.
Print Assumptions C121_equal_weights_accepted.
(** For double precision: up to 2^43 - 1 values. *)
Theorem C121_double :
  forall n, (Z.of_nat n <= 2 ^ 43 - 1)%Z -> short_for double_u n.
Proof. exact double_short. Qed.
Print Assumptions C121_double.
Theorem C121_exact_instance :
  forall (A : Type) ws (vs : list A), fl_finish exact_floats ws vs = fst (finish false (map Num ws) PCaller vs) /\
  map Num (fl_equal exact_floats (length vs)) = equal_weights (length vs).
Proof. intros A ws vs. split; [exact (exact_is_finish ws vs)|exact (exact_equal (length vs))]. Qed.
Print Assumptions C121_exact_instance.

Example C121_sat : rounds double_u exact_floats /\ rounds (1#1024) high_floats /\
  fl_finish exact_floats (fl_equal exact_floats 3) [1%Z; 2%Z; 3%Z] = Ok ([1#3; 1#3; 1#3], [1%Z; 2%Z; 3%Z]).
Proof. split; [apply exact_rounds; discriminate|split; [exact high_rounds|reflexivity]]. Qed.

(* ---------------------------------------------------------------- C122 *)
(** The sum is never misjudged by more than rounding allows. *)
Theorem C122_near_one_accepted :
  forall u F, rounds u F -> 0 <= u -> u <= 1 -> forall (A : Type) ws (vs : list A),
  Forall (fun w => 0 <= w) ws -> short_for u (length ws) -> length ws = length vs ->
  995#1000 <= total ws -> total ws <= 1005#1000 ->
  exists r, fl_finish F ws vs = Ok r /\
    combine (fst r) (snd r) = filter (fun p => Qlt_bool 0 (fst p)) (combine ws vs).
Proof. intros u F R U0 U1 A. exact (fl_accepts u F R U0 U1). Qed.
Print Assumptions C122_near_one_accepted.
Theorem C122_far_from_one_rejected :
  forall u F, rounds u F -> 0 <= u -> u <= 1 -> forall (A : Type) ws (vs : list A),
  Forall (fun w => 0 <= w) ws -> short_for u (length ws) -> length ws = length vs ->
  total ws <= 98#100 \/ 102#100 <= total ws -> fl_finish F ws vs = Err (ValueError "weights don't sum to 1").
Proof. intros u F R U0 U1 A. exact (fl_rejects u F R U0 U1). Qed.
Print Assumptions C122_far_from_one_rejected.
Theorem C122_inferred_last_weight :
  forall u F, rounds u F -> 0 <= u -> u <= 1 -> forall (A : Type) ws (vs : list A),
  Forall (fun w => 0 <= w) ws -> short_for u (length ws) -> S (length ws) = length vs -> total ws <= 998#1000 ->
  exists w, fl_finish F ws vs = filter_loop (ws ++ [w])%list vs /\ 0 <= w /\ Qabs (total ws + w - 1) <= 3#1000.
Proof. intros u F R U0 U1 A. exact (fl_inferred u F R U0 U1). Qed.
Print Assumptions C122_inferred_last_weight.
Theorem C122_normalized :
  forall u F, rounds u F -> 0 <= u -> u <= 1 -> forall ws,
  Forall (fun w => 0 <= w) ws -> short_for u (length ws) -> 0 < total ws ->
  998#1000 <= total (fl_normalize F ws) /\ total (fl_normalize F ws) <= 1003#1000 /\
  Forall (fun w => 0 <= w) (fl_normalize F ws).
Proof. intros u F R U0 U1. exact (fl_normalized u F R U0 U1). Qed.
Print Assumptions C122_normalized.

Example C122_sat :
  fl_finish exact_floats [1#2; 1#2] [1%Z; 2%Z] = Ok ([1#2; 1#2], [1%Z; 2%Z]) /\
  fl_finish exact_floats [1#2; 1#4] [1%Z; 2%Z] = Err (ValueError "weights don't sum to 1") /\
  short_for double_u 2.
Proof. repeat split; try (vm_compute; reflexivity). unfold short_for, double_u. vm_compute. discriminate. Qed.
