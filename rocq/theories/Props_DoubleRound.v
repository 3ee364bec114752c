(** C159, C160: rounding to digits and the diversity test in double precision. *)
From Coq Require Import Qabs.
From Verif Require Import Base M_Values M_Corr M_Double M_DoubleProb M_DoubleRound SpecFloat SpecDouble SpecCorr P_Double P_DoubleRound.
Open Scope Q_scope.

Theorem C159_monotone : forall x y d, x <= y -> fl_np_round x d <= fl_np_round y d.
Proof. exact fl_round_mono. Qed.
Print Assumptions C159_monotone.
(** A number already rounded stays. *)
Theorem C159_fixed_partial : forall d k, (Z.abs k <= 2 ^ 50)%Z ->
  fl_np_round (rnd (inject_Z k / Qpower 10 d)) d == rnd (inject_Z k / Qpower 10 d).
Proof. exact fl_round_fixed. Qed.
Print Assumptions C159_fixed_partial.
Theorem C159_error_partial : forall x d,
  Qabs (fl_np_round x d - x) <= (1 + double_u) * ((1#2) / Qpower 10 d) + 3 * double_u * Qabs x.
Proof. exact fl_round_error. Qed.
Print Assumptions C159_error_partial.
(** The double 2.675, less than 2.675, rounds to 2.68. *)
Theorem C159_nearest_refuted : exists x d k k', is_double x /\ fl_np_round x d == rnd (inject_Z k / Qpower 10 d) /\
  Qabs (inject_Z k' / Qpower 10 d - x) < Qabs (inject_Z k / Qpower 10 d - x).
Proof. exact fl_round_not_nearest. Qed.
Print Assumptions C159_nearest_refuted.
(** one_in(1 / k) is k. *)
Theorem C159_one_in : forall k, (0 < k <= 2 ^ 50)%Z -> fl_one_in (rnd (1 / inject_Z k)) 0 == inject_Z k.
Proof. exact one_in_back. Qed.
Print Assumptions C159_one_in.
Example C159_sat :
  fl_np_round (rnd (314159#100000)) 2 == rnd (314#100) /\ fl_np_round (5#2) 0 == 2 /\ fl_np_round (7#2) 0 == 4 /\ fl_np_round 1250 (-2) == 1200 /\
  fl_one_in (rnd (1#49)) 0 == 49 /\ ~ ddiv 1 (rnd (1#49)) == 49 /\ fl_one_in (rnd (3#100)) 2 == rnd (3333#100).
Proof. repeat split; try (vm_compute; reflexivity). intros H. vm_compute in H. discriminate. Qed.

(** C160. *)
Theorem C160_exact : forall min_u col, col <> [] -> (Z.of_nat (length col) <= 2 ^ 49)%Z ->
  (fl_diverse min_u col = true <-> enough min_u col).
Proof. exact fl_diverse_exact. Qed.
Print Assumptions C160_exact.
Example C160_sat :
  fl_diverse 5 [1; 2; 3; 4; 5; 6; 7; 7; 7; 7] = true /\ fl_diverse 5 [1; 2; 3; 4; 5; 6; 6; 6; 6; 6] = false /\ fl_diverse 8 [1; 2; 3; 4; 5; 6; 7; 7; 7; 7] = false.
Proof. vm_compute. auto. Qed.
