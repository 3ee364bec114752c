(** C168: what the parameters of PERT distributions mean for their density. *)
From Coq Require Import Reals Lra QArith Qreals.
From Verif Require Import Base M_Sampler SpecNormal P_PertArea.
Open Scope R_scope.

(** C85 says that samples are draws of a beta distribution stretched to the interval from
    [l] to [r].  Divided by its area, its density has mean (l + lam * m + r) / (lam + 2), *)
Theorem C168_moments : forall l m r lam : Q, (l <= m)%Q -> (m <= r)%Q -> (l < r)%Q -> (0 <= lam)%Q ->
  let f := stretched_beta (Q2R l) (Q2R r) (Q2R (pert_alpha l m r lam)) (Q2R (pert_beta l m r lam)) in
  let mean := (Q2R l + Q2R lam * Q2R m + Q2R r) / (Q2R lam + 2) in
  exists I, 0 < I /\ area_within (Q2R l) (Q2R r) f I /\ area_within (Q2R l) (Q2R r) (fun x => x * f x) (mean * I) /\
    area_within (Q2R l) (Q2R r) (fun x => (x - mean) * (x - mean) * f x) ((mean - Q2R l) * (Q2R r - mean) / (Q2R lam + 3) * I).
Proof. exact pert_moments. Qed.
Print Assumptions C168_moments.
(** rises up to the mode and falls from there; *)
Theorem C168_mode : forall l m r lam : Q, (l <= m)%Q -> (m <= r)%Q -> (l < r)%Q -> (0 < lam)%Q ->
  let f := stretched_beta (Q2R l) (Q2R r) (Q2R (pert_alpha l m r lam)) (Q2R (pert_beta l m r lam)) in
  forall x y, Q2R l < x -> x < y -> y < Q2R r -> (y <= Q2R m -> f x < f y) /\ (Q2R m <= x -> f y < f x).
Proof.
  intros l m r lam LM MR LR P f x y X XY Y. assert (K : 0 < Q2R lam) by (rewrite <- RMicromega.Q2R_0; now apply Qlt_Rlt). apply Qlt_le_weak in P.
  split; intro; [apply pert_rises|apply pert_falls]; auto.
Qed.
Print Assumptions C168_mode.
(** and is flat for lam = 0. *)
Theorem C168_flat : forall l m r lam : Q, (l < r)%Q -> (lam == 0)%Q ->
  forall x, stretched_beta (Q2R l) (Q2R r) (Q2R (pert_alpha l m r lam)) (Q2R (pert_beta l m r lam)) x = 1.
Proof.
  intros l m r lam LR Z x. apply pert_flat; auto. rewrite <- RMicromega.Q2R_0. now apply Qeq_eqR.
Qed.
Print Assumptions C168_flat.
Example C168_sat : (0 <= 1)%Q /\ (1 <= 4)%Q /\ (0 < 4)%Q /\ (pert_alpha 0 1 4 4 == 2)%Q /\ (pert_beta 0 1 4 4 == 4)%Q.
Proof. repeat split; discriminate || reflexivity. Qed.
