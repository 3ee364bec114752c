(** C164: percentiles in IEEE arithmetic with its range. *)
From Coq Require Import Qabs Lqa.
From Verif Require Import Base M_Values M_Percentiles M_Double M_DoubleProb M_Ieee M_IeeePct SpecDouble SpecIeee SpecPercentiles P_IeeePct.
From Coq.Floats Require Import SpecFloat.
Open Scope Q_scope.

(** Data that span less than the limit of overflow have finite percentiles among them; *)
Theorem C164_between_partial : forall data lo hi p, data <> [] -> Forall finite64 data -> (Z.of_nat (length data) <= 2 ^ 53)%Z ->
  all_between lo hi data -> hi - lo < limit64 -> percent p ->
  exists r, same (ieee_percentile data p) (Fin r) /\ lo <= r /\ r <= hi.
Proof. intros. now apply ieee_between. Qed.
Print Assumptions C164_between_partial.
(** two data that do not have NaN, then infinity, then minus infinity for percentiles. *)
Theorem C164_overflow : forall a b data p, finite64 b -> limit64 <= b - a -> data = [a; b] \/ data = [b; a] ->
  (p == 0 -> ieee_percentile data p = NaN) /\ (0 < p -> p <= 49 -> ieee_percentile data p = PInf) /\
  (50 <= p -> p <= 99 -> ieee_percentile data p = NInf) /\ (p == 100 -> same (ieee_percentile data p) (Fin b)).
Proof. intros. now apply (apart_results a b). Qed.
Print Assumptions C164_overflow.
(** So percentiles of finite data need not be finite, or rise. *)
Theorem C164_finite_refuted : exists data, Forall finite64 data /\ data <> [] /\
  ieee_percentile data 0 = NaN /\ ieee_percentile data 25 = PInf /\ ieee_percentile data 75 = NInf.
Proof.
  set (b := inject_Z (2 ^ 53 - 1) * Qpower 2 971). set (a := inject_Z (- (2 ^ 53 - 1)) * Qpower 2 971).
  assert (Fa : finite64 a) by (exists (S754_finite true 9007199254740991 971); split; [reflexivity|apply Qeq_refl]).
  assert (Fb : finite64 b) by (exists (S754_finite false 9007199254740991 971); split; [reflexivity|apply Qeq_refl]).
  assert (L : limit64 <= b - a) by (vm_compute; discriminate).
  exists [a; b]. split; [repeat constructor; auto|]. split; [discriminate|].
  destruct (C164_overflow a b [a; b] 0 Fb L (or_introl eq_refl)) as [A _].
  destruct (C164_overflow a b [a; b] 25 Fb L (or_introl eq_refl)) as (_ & B & _).
  destruct (C164_overflow a b [a; b] 75 Fb L (or_introl eq_refl)) as (_ & _ & C & _).
  split; [apply A; reflexivity|]. split; [apply B; [reflexivity|discriminate]|apply C; discriminate].
Qed.
Print Assumptions C164_finite_refuted.
Example C164_sat :
  same (ieee_percentile [3; 1; 2; 5; 4] 50) (Fin 3) /\ same (ieee_percentile [1; 2] 10) (Fin (rnd (11#10))) /\
  (* half of the smallest gap is lost *)
  same (ieee_percentile [0; pow2 (-1074)] 25) (Fin 0) /\ same (ieee_percentile [0; pow2 (-1074)] 75) (Fin (pow2 (-1074))) /\
  finite64 1 /\ finite64 2 /\ all_between 1 2 [1; 2] /\ 2 - 1 < limit64 /\ percent 10.
Proof.
  repeat match goal with |- _ /\ _ => split end; try (vm_compute; reflexivity); try discriminate.
  - exists (S754_finite false 4503599627370496 (-52)). split; reflexivity.
  - exists (S754_finite false 4503599627370496 (-51)). split; reflexivity.
  - intros x [<-|[<-|[]]]; split; discriminate.
  - split; discriminate.
Qed.
