(** Lemmas for [Props_DoublePctOrder]. *)
From Coq Require Import Qabs Lqa Setoid Qround Sorted Permutation.
From Verif Require Import Base M_Values M_Ops M_Percentiles M_Float M_Double M_DoubleProb M_DoublePct
  SpecFloat SpecDouble SpecPercentiles SpecPctOrder P_Support P_Float P_Double P_Percentiles P_DoublePct P_PctOrder.
Open Scope Q_scope.

Lemma same_position l m p : length l = length m -> fl_position l p = fl_position m p.
Proof. intros E. unfold fl_position. now rewrite E. Qed.

(** The neighbours of two lists of the same length, with the same place between them. *)
Lemma two_neighbours l m p : l <> [] -> Forall is_double l -> (Z.of_nat (length l) <= 2 ^ 53)%Z -> Forall is_double m ->
  length l = length m -> percent p ->
  exists i a b c d t s, (i <= length l - 1)%nat /\
    order_stat l i a /\ order_stat l (Nat.min (S i) (length l - 1)) b /\
    order_stat m i c /\ order_stat m (Nat.min (S i) (length l - 1)) d /\
    is_double a /\ is_double b /\ a <= b /\ is_double c /\ is_double d /\ c <= d /\
    is_double t /\ is_double s /\ 0 <= t /\ t <= 1 /\ t == s /\ t == rnd (fl_position l p - inject_Z (Z.of_nat i)) /\
    fl_percentile l p == fl_lerp a b t /\ fl_percentile m p == fl_lerp c d s.
Proof.
  intros NE DD LEN DM EL P.
  assert (NM : m <> []) by (intros ->; destruct l; simpl in *; congruence).
  assert (LM : (Z.of_nat (length m) <= 2 ^ 53)%Z) by (rewrite <- EL; auto).
  destruct (percentile_between_neighbours l NE DD LEN p P) as (i & a & b & t & V0 & V1 & A & B & Da & Db & AB & Dt & T0 & T1 & ET & E1).
  destruct (percentile_between_neighbours m NM DM LM p P) as (j & c & d & s & W0 & W1 & C & D & Dc & Dd & CD & Ds & S0 & S1 & ES & E2).
  cbv zeta in *. pose proof (same_position l m p EL) as EP. rewrite <- EP, <- EL in *. set (v := fl_position l p) in *.
  assert (I : i = j) by (apply Nat.le_antisymm; apply (same_rank v); lra). subst j.
  exists i, a, b, c, d, t, s. repeat match goal with |- _ /\ _ => split end; auto; try apply A; try apply B; try apply C; try apply D.
  - destruct (position_range l LEN p P) as [_ V]. fold v in V.
    apply inject_nat_le. lra.
  - rewrite ET, ES. reflexivity.
Qed.

Lemma lerp_compat a b t c d s : a == c -> b == d -> t == s -> fl_lerp a b t == fl_lerp c d s.
Proof.
  intros E1 E2 E3. destruct (Qlt_le_dec t (1#2)) as [L|L].
  - rewrite !lerp_low by lra. apply rnd_compat. apply Qplus_comp; [exact E1|]. apply rnd_compat. rewrite E3.
    rewrite (rnd_compat (b - a) (d - c)); [reflexivity|]. now rewrite E1, E2.
  - rewrite !lerp_high by lra. apply rnd_compat. apply Qplus_comp; [exact E2|]. apply Qopp_comp, rnd_compat.
    rewrite (rnd_compat (b - a) (d - c)) by now rewrite E1, E2. rewrite (rnd_compat (1 - t) (1 - s)) by now rewrite E3. reflexivity.
Qed.

Lemma fl_percentile_perm l m p : l <> [] -> Forall is_double l -> (Z.of_nat (length l) <= 2 ^ 53)%Z -> percent p ->
  Permutation l m -> fl_percentile l p == fl_percentile m p.
Proof.
  intros NE DD LEN P PM.
  assert (DM : Forall is_double m) by (rewrite Forall_forall in *; intros x I; apply DD; eapply Permutation_in; [symmetry; exact PM|exact I]).
  destruct (two_neighbours l m p NE DD LEN DM (Permutation_length PM) P)
    as (i & a & b & c & d & t & s & _ & A & B & C & D & _ & _ & _ & _ & _ & _ & _ & _ & _ & _ & TS & _ & -> & ->).
  apply lerp_compat; auto.
  - apply (order_stat_unique m i); auto. now apply (order_stat_perm l).
  - apply (order_stat_unique m (Nat.min (S i) (length l - 1))); auto. now apply (order_stat_perm l).
Qed.

Lemma fl_percentile_upto e l m p lo hi M : l <> [] -> Forall is_double l -> (Z.of_nat (length l) <= 2 ^ 53)%Z -> Forall is_double m ->
  percent p -> Forall2 (upto e) l m -> all_between lo hi l -> all_between lo hi m -> Qabs lo <= M -> Qabs hi <= M ->
  fl_percentile l p <= fl_percentile m p + e + 10 * double_u * M.
Proof.
  intros NE DD LEN DM P F HL HM ML MH.
  destruct (two_neighbours l m p NE DD LEN DM (upto_length e l m F) P)
    as (i & a & b & c & d & t & s & _ & A & B & C & D & Da & Db & AB & Dc & Dd & CD & Dt & Ds & T0 & T1 & TS & _ & -> & ->).
  pose proof (order_stat_upto e l m _ _ _ F A C) as X. pose proof (order_stat_upto e l m _ _ _ F B D) as Y.
  apply Qabs_Qle_condition in ML, MH.
  destruct (HL a (proj1 A)), (HL b (proj1 B)), (HM c (proj1 C)), (HM d (proj1 D)).
  assert (K1 : Qabs (fl_lerp a b t - (a + (b - a) * t)) <= 5 * double_u * M)
    by (apply lerp_close; auto; apply Qabs_Qle_condition; lra).
  assert (K2 : Qabs (fl_lerp c d t - (c + (d - c) * t)) <= 5 * double_u * M)
    by (apply lerp_close; auto; apply Qabs_Qle_condition; lra).
  rewrite <- (lerp_compat c d t c d s (Qeq_refl _) (Qeq_refl _) TS).
  apply Qabs_Qle_condition in K1, K2. set (u := double_u) in *.
  pose proof (Qmult_le_0_compat (c + e - a) (1 - t) ltac:(lra) ltac:(lra)).
  pose proof (Qmult_le_0_compat (d + e - b) t ltac:(lra) ltac:(lra)). lra.
Qed.

Lemma fl_rise l m p lo hi M : l <> [] -> Forall is_double l -> (Z.of_nat (length l) <= 2 ^ 53)%Z -> Forall is_double m ->
  percent p -> risen l m -> all_between lo hi l -> all_between lo hi m -> Qabs lo <= M -> Qabs hi <= M ->
  fl_percentile l p <= fl_percentile m p + 10 * double_u * M.
Proof.
  intros NE DD LEN DM P F HL HM ML MH.
  assert (F' : Forall2 (upto 0) l m).
  { unfold risen in F. clear -F. induction F; constructor; auto. unfold upto. lra. }
  pose proof (fl_percentile_upto 0 l m p lo hi M NE DD LEN DM P F' HL HM ML MH). lra.
Qed.

Lemma fl_robust e l m p lo hi M : l <> [] -> Forall is_double l -> (Z.of_nat (length l) <= 2 ^ 53)%Z -> Forall is_double m ->
  percent p -> moved e l m -> all_between lo hi l -> all_between lo hi m -> Qabs lo <= M -> Qabs hi <= M ->
  Qabs (fl_percentile l p - fl_percentile m p) <= e + 10 * double_u * M.
Proof.
  intros NE DD LEN DM P F HL HM ML MH.
  assert (F' : Forall2 (upto e) l m /\ Forall2 (upto e) m l).
  { unfold moved in F. clear -F. split; induction F as [|x y l m H F IH]; constructor; auto;
      apply Qabs_Qle_condition in H; unfold upto; lra. }
  destruct F' as [F1 F2]. pose proof (upto_length e l m F1) as EL.
  pose proof (fl_percentile_upto e l m p lo hi M NE DD LEN DM P F1 HL HM ML MH).
  assert (NM : m <> []) by (intros ->; destruct l; simpl in *; congruence).
  assert (LM : (Z.of_nat (length m) <= 2 ^ 53)%Z) by (rewrite <- EL; auto).
  pose proof (fl_percentile_upto e m l p lo hi M NM DM LM DD P F2 HM HL ML MH).
  apply Qabs_Qle_condition. split; lra.
Qed.

(** Exactly, at a rank computed exactly. *)
Lemma fl_rise_rank l m p k : l <> [] -> Forall is_double l -> (Z.of_nat (length l) <= 2 ^ 53)%Z -> Forall is_double m ->
  percent p -> is_double (p / 100) -> inject_Z (Z.of_nat (length l - 1)) * (p / 100) == inject_Z (Z.of_nat k) -> risen l m ->
  fl_percentile l p <= fl_percentile m p.
Proof.
  intros NE DD LEN DM P DP K F.
  assert (F' : Forall2 (upto 0) l m).
  { unfold risen in F. clear -F. induction F; constructor; auto. unfold upto. lra. }
  pose proof (upto_length 0 l m F') as EL.
  assert (NM : m <> []) by (intros ->; destruct l; simpl in *; congruence).
  assert (LM : (Z.of_nat (length m) <= 2 ^ 53)%Z) by (rewrite <- EL; auto).
  destruct (fl_percentile_rank l NE DD LEN p k P DP K) as (v & V & ->). rewrite EL in K.
  destruct (fl_percentile_rank m NM DM LM p k P DP K) as (w & W & ->).
  pose proof (order_stat_upto 0 l m _ _ _ F' V W). lra.
Qed.

