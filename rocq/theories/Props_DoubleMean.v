(** C180, C181: shares and averages of samples in double precision. *)
From Coq Require Import Permutation Qabs.
From Verif Require Import Base M_Double M_DoubleProb M_DoubleMean SpecFloat SpecDouble SpecDoubleMean P_DoubleMean.
Open Scope Q_scope.

(** C180.  Whatever the order of additions, the reported share of up to 2^53 cases is the double
    nearest to the exact share, and lies between 0 and 1 ... *)
Theorem C180_nearest :
  forall bs p, (cases bs <= 2 ^ 53)%Z -> reported bs p ->
  (exists e, nearest_double (inject_Z (occurrences bs) / inject_Z (cases bs)) e /\ p == e) /\ 0 <= p <= 1.
Proof. exact report_close. Qed.
Print Assumptions C180_nearest.
(** ... 1 only when it always happened and 0 only when it never did ... *)
Theorem C180_certain :
  forall bs p, (cases bs <= 2 ^ 53)%Z -> reported bs p ->
  (p == 1 <-> Forall (fun b => b = true) bs) /\ (p == 0 <-> Forall (fun b => b = false) bs).
Proof. exact report_certain. Qed.
Print Assumptions C180_certain.
(** ... up to 2^51 cases the count can be read off the share, and shares order as counts do ... *)
Theorem C180_recovers :
  forall bs p, (cases bs <= 2 ^ 51)%Z -> reported bs p ->
  Qabs (p * inject_Z (cases bs) - inject_Z (occurrences bs)) <= 1 # 4.
Proof. exact report_recovers. Qed.
Print Assumptions C180_recovers.
Theorem C180_order :
  forall bs cs p q, (cases bs <= 2 ^ 51)%Z -> cases bs = cases cs -> reported bs p -> reported cs q ->
  ((occurrences bs < occurrences cs)%Z <-> p < q) /\ (occurrences bs = occurrences cs <-> p == q).
Proof. exact report_order. Qed.
Print Assumptions C180_order.
(** ... the shares of an event and its opposite add up to 1 within 2^-53 ... *)
Theorem C180_opposite :
  forall bs p q, (cases bs <= 2 ^ 53)%Z -> reported bs p -> reported (map negb bs) q -> Qabs (p + q - 1) <= double_u.
Proof. exact report_complement. Qed.
Print Assumptions C180_opposite.
(** ... and multiplying a conditional share by the share of its condition in doubles gives the share
    of both within a relative 5 * 2^-53. *)
Theorem C180_chain :
  forall (E : Type) (a b : E -> bool) (es : list E) p q r, (cases (map b es) <= 2 ^ 53)%Z ->
  reported (map a (filter b es)) p -> reported (map b es) q -> reported (map (fun e => a e && b e) es) r ->
  Qabs (dmul p q - r) <= 5 * double_u * r.
Proof. exact report_both. Qed.
Print Assumptions C180_chain.
Example C180_sat : (exists p, reported [true; false; false] p /\ p == rnd (1 # 3)) /\
  (exists p, reported [true; true] p /\ p == 1) /\ (forall bs, bs <> [] -> exists p, reported bs p).
Proof.
  split; [|split].
  - eexists. split.
    + exists (Plus (Term 1) (Plus (Term 0) (Term 0))). split; [apply Permutation_refl | reflexivity].
    + vm_compute. reflexivity.
  - eexists. split.
    + exists (Plus (Term 1) (Term 1)). split; [apply Permutation_refl | reflexivity].
    + vm_compute. reflexivity.
  - exact report_exists.
Qed.

(** C181.  In whatever order a list of numbers is added, the average is within
    1.002 * 2^-53 times the sum of their sizes of the exact one ... *)
Theorem C181_close :
  forall l m, short_for double_u (length l) -> averages_to l m ->
  Qabs (m - exactly l / inject_Z (Z.of_nat (length l))) <= (1002 # 1000) * double_u * magnitude l.
Proof. exact mean_error. Qed.
Print Assumptions C181_close.
(** ... and no smaller numbers added in the same order have no smaller an average ... *)
Theorem C181_monotone : forall s t, no_larger s t -> fl_mean s <= fl_mean t.
Proof. exact mean_mono. Qed.
Print Assumptions C181_monotone.
(** ... but the average of three equal numbers can be larger than each, and the order of
    additions can change the average. *)
Theorem C181_between_refuted : exists x m, is_double x /\ averages_to [x; x; x] m /\ x < m.
Proof. exact mean_outside. Qed.
Print Assumptions C181_between_refuted.
Theorem C181_order_refuted : exists l m m', Forall is_double l /\ averages_to l m /\ averages_to l m' /\ ~ m == m'.
Proof. exact order_matters. Qed.
Print Assumptions C181_order_refuted.
Example C181_sat : short_for double_u 3 /\ (exists m, averages_to [1; 2; 6] m /\ m == 3) /\
  no_larger (Plus (Term 1) (Term 2)) (Plus (Term 1) (Term 4)).
Proof.
  split; [vm_compute; discriminate|]. split.
  - eexists. split.
    + exists (Plus (Term 1) (Plus (Term 6) (Term 2))). split; [|reflexivity]. apply perm_skip, perm_swap.
    + vm_compute. reflexivity.
  - repeat constructor; vm_compute; discriminate.
Qed.
