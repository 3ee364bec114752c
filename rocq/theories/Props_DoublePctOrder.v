(** C175: percentiles follow the data in double precision, but for rounding. *)
From Coq Require Import Qabs Lqa Permutation.
From Verif Require Import Base M_Percentiles M_Float M_Double M_DoubleProb M_DoublePct SpecFloat SpecDouble SpecPercentiles SpecPctOrder
  P_Double P_DoublePct P_DoublePctOrder.
Open Scope Q_scope.

(* ---------------------------------------------------------------- C175 *)
(** [data] finite doubles, at most 2^53 of them.  Their order in the list does not matter. *)
Theorem C175_reorder_partial : forall data data' p, data <> [] -> Forall is_double data -> (Z.of_nat (length data) <= 2 ^ 53)%Z ->
  percent p -> Permutation data data' -> fl_percentile data p == fl_percentile data' p.
Proof. exact fl_percentile_perm. Qed.
Print Assumptions C175_reorder_partial.
(** When no datum falls, a percentile falls by rounding errors at most; *)
Theorem C175_rise_partial : forall data data' p lo hi M, data <> [] -> Forall is_double data -> (Z.of_nat (length data) <= 2 ^ 53)%Z ->
  Forall is_double data' -> percent p -> risen data data' -> all_between lo hi data -> all_between lo hi data' ->
  Qabs lo <= M -> Qabs hi <= M -> fl_percentile data p <= fl_percentile data' p + 10 * double_u * M.
Proof. exact fl_rise. Qed.
Print Assumptions C175_rise_partial.
(** when none moves by more than e, no percentile moves by more than e and rounding errors; *)
Theorem C175_robust_partial : forall e data data' p lo hi M, data <> [] -> Forall is_double data ->
  (Z.of_nat (length data) <= 2 ^ 53)%Z -> Forall is_double data' -> percent p -> moved e data data' ->
  all_between lo hi data -> all_between lo hi data' -> Qabs lo <= M -> Qabs hi <= M ->
  Qabs (fl_percentile data p - fl_percentile data' p) <= e + 10 * double_u * M.
Proof. exact fl_robust. Qed.
Print Assumptions C175_robust_partial.
(** at a rank computed exactly, such as 0 or 100, there are none; *)
Theorem C175_rank_partial : forall data data' p k, data <> [] -> Forall is_double data -> (Z.of_nat (length data) <= 2 ^ 53)%Z ->
  Forall is_double data' -> percent p -> is_double (p / 100) ->
  inject_Z (Z.of_nat (length data - 1)) * (p / 100) == inject_Z (Z.of_nat k) -> risen data data' ->
  fl_percentile data p <= fl_percentile data' p.
Proof. exact fl_rise_rank. Qed.
Print Assumptions C175_rank_partial.
(** but elsewhere there can be: raising 1.1 to the next double lowers the 40th percentile of
    1.1 and 7. *)
Theorem C175_rise_refuted : exists data data' p, Forall is_double data /\ Forall is_double data' /\ data <> [] /\ is_double p /\
  percent p /\ risen data data' /\ fl_percentile data' p < fl_percentile data p.
Proof.
  exists [rnd (11#10); 7], [rnd (11#10) + pow2 (-52); 7], 40.
  assert (S : is_double 7) by (exists 7%Z, 0%Z; split; [lia|reflexivity]).
  assert (D : is_double (rnd (11#10) + pow2 (-52))).
  { eapply is_double_compat; [|apply (rnd_double (rnd (11#10) + pow2 (-52)))]. vm_compute. reflexivity. }
  split; [constructor; [apply rnd_double|constructor; [exact S|constructor]]|].
  split; [constructor; [exact D|constructor; [exact S|constructor]]|].
  split; [discriminate|]. split; [exists 5%Z, 3%Z; split; [lia|reflexivity]|].
  split; [split; discriminate|]. split.
  - constructor; [vm_compute; discriminate|constructor; [apply Qle_refl|constructor]].
  - vm_compute. reflexivity.
Qed.
Print Assumptions C175_rise_refuted.
Example C175_sat :
  Forall is_double [3; 1; 2; 5; 4] /\ Forall is_double [3; 6; 2; 5; 4] /\ risen [3; 1; 2; 5; 4] [3; 6; 2; 5; 4] /\
  moved 5 [3; 1; 2; 5; 4] [3; 6; 2; 5; 4] /\ all_between 1 6 [3; 1; 2; 5; 4] /\ all_between 1 6 [3; 6; 2; 5; 4] /\
  fl_percentile [3; 1; 2; 5; 4] 50 == 3 /\ fl_percentile [3; 6; 2; 5; 4] 50 == 4 /\ is_double (50 / 100) /\
  inject_Z (Z.of_nat (length [3; 1; 2; 5; 4] - 1)) * (50 / 100) == inject_Z 2.
Proof.
  assert (I : forall n, (Z.abs n <= 2 ^ 53)%Z -> is_double (inject_Z n)) by (intros; now apply is_double_int).
  assert (D : forall n, (Z.abs n <= 100)%Z -> is_double (inject_Z n)) by (intros; apply I; lia). clear I.
  split. { repeat (constructor; [apply D; lia|]). constructor. }
  split. { repeat (constructor; [apply D; lia|]). constructor. }
  split. { repeat (constructor; [discriminate|]). constructor. }
  split. { repeat (constructor; [discriminate|]). constructor. }
  split. { unfold all_between; simpl; intuition subst; discriminate. }
  split. { unfold all_between; simpl; intuition subst; discriminate. }
  split. { vm_compute. reflexivity. }
  split. { vm_compute. reflexivity. }
  split; [exists 1%Z, (-1)%Z; split; [lia|reflexivity]|reflexivity].
Qed.
