(** C157, C158: percentiles in double precision. *)
From Coq Require Import Qabs Sorted.
From Verif Require Import Base M_Values M_Percentiles M_Float M_Double M_DoubleProb M_DoublePct SpecFloat SpecDouble SpecPercentiles P_Double P_DoublePct.
Open Scope Q_scope.

(** C157. [data] finite doubles, at most 2^53 of them. *)
Theorem C157_between_partial : forall data p lo hi, data <> [] -> Forall is_double data -> (Z.of_nat (length data) <= 2 ^ 53)%Z ->
  percent p -> all_between lo hi data -> lo <= fl_percentile data p /\ fl_percentile data p <= hi.
Proof. intros. now apply fl_percentile_between. Qed.
Print Assumptions C157_between_partial.
Theorem C157_monotone_partial : forall data p q, data <> [] -> Forall is_double data -> (Z.of_nat (length data) <= 2 ^ 53)%Z ->
  percent p -> percent q -> p <= q -> fl_percentile data p <= fl_percentile data q.
Proof. intros. now apply fl_percentile_mono. Qed.
Print Assumptions C157_monotone_partial.
Theorem C157_rank_partial : forall data p k, data <> [] -> Forall is_double data -> (Z.of_nat (length data) <= 2 ^ 53)%Z ->
  percent p -> is_double (p / 100) -> inject_Z (Z.of_nat (length data - 1)) * (p / 100) == inject_Z (Z.of_nat k) ->
  exists v, order_stat data k v /\ fl_percentile data p == v.
Proof. intros. now apply fl_percentile_rank. Qed.
Print Assumptions C157_rank_partial.
Theorem C157_close_partial : forall data p r lo hi M, data <> [] -> Forall is_double data -> (Z.of_nat (length data) <= 2 ^ 53)%Z ->
  percent p -> all_between lo hi data -> Qabs lo <= M -> Qabs hi <= M -> percentile_of data p r ->
  Qabs (fl_percentile data p - r) <= double_u * (3 * inject_Z (Z.of_nat (length data - 1)) * (hi - lo) + 7 * M).
Proof. intros. now apply fl_percentile_close. Qed.
Print Assumptions C157_close_partial.
(** The 7th percentile of the numbers 0 to 100 is none of them. *)
Theorem C157_rank_refuted : exists data p k, Forall is_double data /\ is_double p /\ percent p /\
  inject_Z (Z.of_nat (length data - 1)) * (p / 100) == inject_Z (Z.of_nat k) /\
  (forall v, In v data -> ~ fl_percentile data p == v).
Proof. exact rank_missed. Qed.
Print Assumptions C157_rank_refuted.
Example C157_sat :
  fl_percentile [3; 1; 2; 5; 4] 50 == 3 /\ fl_percentile [3; 1; 2; 5; 4] 25 == 2 /\ fl_percentile [3; 1] 0 == 1 /\
  fl_percentile [3; 1] 100 == 3 /\ fl_percentile [1; 2] 50 == 3#2 /\
  (* np.percentile([1, 2], 10) = 1.1 *)
  fl_percentile [1; 2] 10 == rnd (11#10) /\ ~ fl_percentile [1; 2] 10 == 11#10.
Proof. repeat split; try (vm_compute; reflexivity). intros H. vm_compute in H. discriminate. Qed.

(** C158. Along points that rise and heights that do not fall. *)
Theorem C158_ends_partial : forall pts x, climbing pts ->
  (forall q, located pts x None (Some q) -> fl_interp pts x == snd q) /\
  (forall q, located pts x (Some q) None -> fl_interp pts x == snd q) /\
  (forall q q', located pts x (Some q) (Some q') -> x == fst q -> fl_interp pts x == snd q).
Proof. exact weighted_ends. Qed.
Print Assumptions C158_ends_partial.
Theorem C158_left_partial : forall pts x q q', climbing pts -> Forall is_double (map snd pts) ->
  located pts x (Some q) (Some q') -> snd q <= fl_interp pts x.
Proof. exact weighted_left. Qed.
Print Assumptions C158_left_partial.
Theorem C158_close_partial : forall pts x q q' M, climbing pts -> Forall is_double (map snd pts) ->
  located pts x (Some q) (Some q') -> Qabs (snd q) <= M -> Qabs (snd q') <= M ->
  Qabs (fl_interp pts x - height q q' x) <= 14 * double_u * M.
Proof. exact weighted_close. Qed.
Print Assumptions C158_close_partial.
(** Every number is somewhere. *)
Theorem C158_located : forall pts x, pts <> [] -> exists a b, located pts x a b.
Proof. exact located_exists. Qed.
Print Assumptions C158_located.
(** A smaller percentage can give more than the next datum, a larger percentage that datum. *)
Theorem C158_monotone_refuted : exists total data weights p p' y, total = 13 /\ weights = [1; 9; 3] /\
  climbing (combine (fl_points total weights) data) /\ Forall is_double data /\ In y data /\
  is_double p /\ is_double p' /\ percent p /\ percent p' /\ p < p' /\
  fl_weighted_percentile total data weights p' == y /\ y < fl_weighted_percentile total data weights p.
Proof. exact weighted_overshoot. Qed.
Print Assumptions C158_monotone_refuted.
Example C158_sat :
  fl_weighted_percentile 4 [1; 2; 3] [1; 2; 1] 50 == 2 /\ fl_weighted_percentile 4 [1; 2; 3] [1; 2; 1] 0 == 1 /\
  fl_weighted_percentile 4 [1; 2; 3] [1; 2; 1] 100 == 3 /\
  climbing (combine (fl_points 4 [1; 2; 1]) [1; 2; 3]) /\
  located (combine (fl_points 4 [1; 2; 1]) [1; 2; 3]) (1#4) (Some (ddiv 1 8, 1)) (Some (ddiv 1 2, 2)) /\
  fl_weighted_percentile 4 [1; 2; 3] [1; 2; 1] 25 == rnd (4#3).
Proof.
  repeat split; try (vm_compute; reflexivity).
  - match goal with |- climbing ?l => let r := eval vm_compute in l in change l with r end.
    repeat constructor; simpl; reflexivity || discriminate.
  - match goal with |- located ?l _ _ _ => let r := eval vm_compute in l in change l with r end.
    apply (LBetween _ _ [] (ddiv 1 8, 1) (ddiv 1 2, 2) [(7#8, 3)]); [reflexivity|discriminate|reflexivity].
Qed.
