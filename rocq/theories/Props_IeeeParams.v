(** C170: normal intervals and updates in IEEE arithmetic with its range. *)
From Coq Require Import Qabs Lqa.
From Verif Require Import Base M_Values M_Double M_DoubleProb M_DoubleParams M_Ieee M_IeeeParams SpecWeights SpecDouble SpecDoubleParams SpecIeee SpecIeeeParams
  P_Double P_DoublePct P_DoubleParams P_IeeePct P_IeeeParams.
From Coq.Floats Require Import SpecFloat.
Open Scope Q_scope.

(** Where the sum of the ends does not overflow, the mean is in the interval and the sd is
    finite; *)
Theorem C170_interval_partial : forall x y sigma, finite64 x -> finite64 y -> x <= y -> 1 <= sigma -> Qabs (x + y) < limit64 ->
  exists m s, ieee_norm_params x y sigma = Ok (Fin m, Fin s) /\ x <= m /\ m <= y /\ 0 <= s.
Proof. intros x y sigma X Y L S B. apply interval_finite; auto using finite64_u, finite64_bound. Qed.
Print Assumptions C170_interval_partial.
(** where it does, mean and sd are infinite, and one of them is minus infinity. *)
Theorem C170_interval_overflow : forall x y sigma, x <= y -> 0 < sigma ->
  (limit64 <= x + y -> ieee_norm_params x y sigma = Ok (PInf, NInf)) /\ (x + y <= - limit64 -> ieee_norm_params x y sigma = Ok (NInf, PInf)).
Proof. exact interval_overflow. Qed.
Print Assumptions C170_interval_overflow.
(** So a finite interval can have a negative sd. *)
Theorem C170_interval_refuted : exists x y, finite64 x /\ finite64 y /\ x < y /\ forall sigma, 0 < sigma -> ieee_norm_params x y sigma = Ok (PInf, NInf).
Proof.
  exists (inject_Z (2 ^ 52) * pow2 971), (inject_Z (2 ^ 52 + 1) * pow2 971).
  split; [exists (S754_finite false 4503599627370496 971); split; [reflexivity|apply Qeq_refl]|].
  split; [exists (S754_finite false 4503599627370497 971); split; [reflexivity|apply Qeq_refl]|].
  split; [reflexivity|]. intros sigma S. apply C170_interval_overflow; auto; vm_compute; discriminate.
Qed.
Print Assumptions C170_interval_refuted.
Theorem C170_interval_rejects : forall x y sigma, y < x -> exists e, ieee_norm_params x y sigma = Err (ValueError e).
Proof. exact interval_rejects. Qed.
Print Assumptions C170_interval_rejects.

(** Updating with moderate numbers is the arithmetic of C148, *)
Theorem C170_update_partial : forall pm ps em es w, moderate pm -> moderate em -> moderate w -> 0 <= w -> moderate_sd ps -> moderate_sd es ->
  exists m v, ieee_update pm ps em es w = Ok (Fin m, Fin v) /\
  m == fst (fl_update pm (dmul ps ps) em (dmul es es) w) /\ v == snd (fl_update pm (dmul ps ps) em (dmul es es) w).
Proof. intros. now apply update_in_range. Qed.
Print Assumptions C170_update_partial.
(** so that the posterior variance is positive. *)
Theorem C170_variance_partial : forall pm ps em es w, moderate pm -> moderate em -> moderate w -> 0 <= w -> moderate_sd ps -> moderate_sd es ->
  exists m v, ieee_update pm ps em es w = Ok (Fin m, Fin v) /\ 0 < v.
Proof. intros. now apply update_positive. Qed.
Print Assumptions C170_variance_partial.
(** With small or large sds the variance becomes zero or infinite, or an exception is raised. *)
Theorem C170_variance_refuted :
  (exists m, ieee_update 0 (pow2 (-300)) 0 (pow2 (-300)) 1 = Ok (m, Fin 0)) /\
  (exists m, ieee_update 0 (pow2 300) 0 (pow2 300) 1 = Ok (m, PInf)) /\
  ieee_update 0 (pow2 (-600)) 0 (pow2 (-600)) 1 = Err ZeroDivisionError /\
  ieee_update 0 (pow2 600) 0 (pow2 600) 1 = Err OverflowError.
Proof. split; [eexists; vm_compute; reflexivity|]. split; [eexists; vm_compute; reflexivity|]. split; vm_compute; reflexivity. Qed.
Print Assumptions C170_variance_refuted.
Example C170_sat : finite64 1 /\ finite64 3 /\ Qabs (1 + 3) < limit64 /\ moderate 0 /\ moderate 1 /\ moderate_sd 1 /\
  (exists m s, ieee_norm_params 1 3 1 = Ok (Fin m, Fin s) /\ m == 2 /\ s == 1) /\
  exists m v, ieee_update 0 1 1 1 1 = Ok (Fin m, Fin v) /\ m == 1#2 /\ v == 1#2.
Proof.
  split; [exists (S754_finite false 4503599627370496 (-52)); split; [reflexivity|vm_compute; reflexivity]|].
  split; [exists (S754_finite false 6755399441055744 (-51)); split; [reflexivity|vm_compute; reflexivity]|].
  split; [vm_compute; reflexivity|]. split; [left; reflexivity|].
  split; [right; split; vm_compute; discriminate|]. split; [split; vm_compute; discriminate|].
  split; (eexists; eexists; split; [vm_compute; reflexivity|]; split; vm_compute; reflexivity).
Qed.
