(** Lemmas about weighted percentiles. *)
From Coq Require Import Lqa Setoid Permutation Sorted.
From Verif Require Import Base M_Values M_Ops M_Percentiles SpecPercentiles P_Support P_Ctor P_Round P_Percentiles P_Weights.
Open Scope Q_scope.

Lemma sum_total l : qsum l == sum l.
Proof. rewrite qsum_total. induction l; simpl; [reflexivity|]. now rewrite IHl. Qed.
Lemma sum_app a b : sum (a ++ b) == sum a + sum b.
Proof. induction a; simpl; [ring|]. rewrite IHa. ring. Qed.
Lemma sum_perm a b : Permutation a b -> sum a == sum b.
Proof. induction 1; simpl; [reflexivity|now rewrite IHPermutation|ring|now rewrite IHPermutation1]. Qed.
Lemma sum_nonneg l : (forall w, In w l -> 0 <= w) -> 0 <= sum l.
Proof. induction l; simpl; intros H; [lra|]. pose proof (H a ltac:(now left)). pose proof (IHl ltac:(intros; apply H; now right)). lra. Qed.

(* ------------------------------------------------- interpolation *)
Definition rising (pts : list (Q * Q)) : Prop := StronglySorted (fun a b => fst a <= fst b /\ snd a <= snd b) pts.

Lemma slope_form x x0 y0 x1 y1 : x0 <= x -> x < x1 ->
  (y1 - y0) / (x1 - x0) * (x - x0) + y0 == y0 + (y1 - y0) * ((x - x0) / (x1 - x0)) /\
  0 <= (x - x0) / (x1 - x0) /\ (x - x0) / (x1 - x0) <= 1.
Proof.
  intros A B. split; [field; lra|]. split.
  - apply Qle_shift_div_l; lra.
  - apply Qle_shift_div_r; lra.
Qed.
Lemma interp_from_low x pts : forall x0 y0, x0 <= x -> rising ((x0, y0) :: pts) -> y0 <= interp_from x x0 y0 pts.
Proof.
  induction pts as [|[x1 y1] r IH]; intros x0 y0 L R; simpl; [lra|].
  inversion R as [|? ? R' F]; subst. inversion F as [|? ? [F1 F2] _]; subst. cbn [fst snd] in *.
  destruct (Qle_bool x1 x) eqn:E.
  - apply Qle_bool_iff in E. apply Qle_trans with y1; auto.
  - apply qle_false in E. destruct (slope_form x x0 y0 x1 y1 L E) as (Eq & T0 & T1). rewrite Eq.
    apply step_value; auto.
Qed.
Lemma interp_from_high x hi pts : forall x0 y0, x0 <= x -> rising ((x0, y0) :: pts) ->
  y0 <= hi -> (forall q, In q pts -> snd q <= hi) -> interp_from x x0 y0 pts <= hi.
Proof.
  induction pts as [|[x1 y1] r IH]; intros x0 y0 L R Y H; simpl; [lra|].
  inversion R as [|? ? R' F]; subst. inversion F as [|? ? [F1 F2] _]; subst. cbn [fst snd] in *.
  pose proof (H (x1, y1) ltac:(now left)) as H1. cbn [snd] in H1.
  destruct (Qle_bool x1 x) eqn:E.
  - apply Qle_bool_iff in E. apply IH; auto. intros; apply H; now right.
  - apply qle_false in E. destruct (slope_form x x0 y0 x1 y1 L E) as (Eq & T0 & T1). rewrite Eq.
    apply Qle_trans with y1; auto. apply step_value; auto.
Qed.
Lemma interp_from_mono x x' pts : forall x0 y0, x0 <= x -> x <= x' -> rising ((x0, y0) :: pts) ->
  interp_from x x0 y0 pts <= interp_from x' x0 y0 pts.
Proof.
  induction pts as [|[x1 y1] r IH]; intros x0 y0 L M R; simpl; [lra|].
  inversion R as [|? ? R' F]; subst. inversion F as [|? ? [F1 F2] _]; subst. cbn [fst snd] in *.
  destruct (Qle_bool x1 x) eqn:E.
  - apply Qle_bool_iff in E. assert (Qle_bool x1 x' = true) as -> by (apply Qle_bool_iff; lra). apply IH; auto.
  - apply qle_false in E. destruct (slope_form x x0 y0 x1 y1 L E) as (Eq & T0 & T1).
    destruct (Qle_bool x1 x') eqn:E'.
    + apply Qle_bool_iff in E'. rewrite Eq. apply Qle_trans with y1; [now apply step_value|]. now apply interp_from_low.
    + apply qle_false in E'. destruct (slope_form x' x0 y0 x1 y1 ltac:(lra) E') as (Eq' & T0' & T1').
      rewrite Eq, Eq'. assert ((x - x0) / (x1 - x0) <= (x' - x0) / (x1 - x0)) as K.
      { unfold Qdiv. apply Qmult_le_compat_r; [lra|]. apply Qlt_le_weak, Qinv_lt_0_compat. lra. }
      pose proof (Qmult_le_0_compat (y1 - y0) ((x' - x0) / (x1 - x0) - (x - x0) / (x1 - x0)) ltac:(lra) ltac:(lra)). lra.
Qed.
Lemma np_interp_between pts x lo hi : pts <> [] -> rising pts -> (forall q, In q pts -> lo <= snd q /\ snd q <= hi) ->
  lo <= np_interp pts x /\ np_interp pts x <= hi.
Proof.
  destruct pts as [|[x0 y0] r]; intros N R H; [congruence|]. destruct (H (x0, y0) ltac:(now left)) as [A B]. cbn [snd] in *.
  simpl. destruct (Qlt_bool x x0) eqn:E; [auto|]. apply qlt_false in E. split.
  - apply Qle_trans with y0; auto. now apply interp_from_low.
  - apply interp_from_high; auto. intros q I. apply (H q). now right.
Qed.
Lemma np_interp_mono pts x x' : rising pts -> x <= x' -> np_interp pts x <= np_interp pts x'.
Proof.
  destruct pts as [|[x0 y0] r]; intros R M; simpl; [lra|]. destruct (Qlt_bool x x0) eqn:E.
  - apply qlt_true in E. destruct (Qlt_bool x' x0) eqn:E'; [lra|]. apply qlt_false in E'. now apply interp_from_low.
  - apply qlt_false in E. assert (Qlt_bool x' x0 = false) as -> by (apply qlt_false; lra). now apply interp_from_mono.
Qed.
(** Only the values of the points matter. *)
Definition same_pts (a b : Q * Q) : Prop := fst a == fst b /\ snd a == snd b.
Lemma qle_bool_compat a b c d : a == b -> c == d -> Qle_bool a c = Qle_bool b d.
Proof. intros E F. apply eq_true_iff_eq. rewrite !Qle_bool_iff. now rewrite E, F. Qed.
Lemma interp_from_compat x x' a b : x == x' -> Forall2 same_pts a b -> forall x0 y0 x0' y0', x0 == x0' -> y0 == y0' ->
  interp_from x x0 y0 a == interp_from x' x0' y0' b.
Proof.
  intros Ex. induction 1 as [|[x1 y1] [x1' y1'] a b [E1 E2] F IH]; intros x0 y0 x0' y0' EX EY; simpl in *; auto.
  rewrite (qle_bool_compat x1 x1' x x') by auto. destruct (Qle_bool x1' x'); [now apply IH|].
  now rewrite EX, EY, E1, E2, Ex.
Qed.
Lemma np_interp_compat a b x x' : x == x' -> Forall2 same_pts a b -> np_interp a x == np_interp b x'.
Proof.
  intros Ex [|[x0 y0] [x0' y0'] a' b' [E1 E2] F]; simpl in *; [reflexivity|].
  unfold Qlt_bool. rewrite (qle_bool_compat x0 x0' x x') by auto. destruct (Qle_bool x0' x'); simpl; auto.
  now apply interp_from_compat.
Qed.

(* ------------------------------------------------- the points *)
Lemma quantile_points_length T ws : forall acc, length (quantile_points T acc ws) = length ws.
Proof. induction ws; intros acc; simpl; auto. Qed.
Lemma quantile_points_nth T ws : forall acc i, (i < length ws)%nat ->
  nth i (quantile_points T acc ws) 0 == (acc + sum (firstn i ws) + nth i ws 0 / 2) / T.
Proof.
  induction ws as [|w ws IH]; intros acc i L; simpl in L; [lia|]. destruct i as [|i]; simpl.
  - unfold Qdiv. apply Qmult_comp; [|reflexivity]. change (/ 2) with (1#2). ring.
  - rewrite IH by lia. unfold Qdiv. ring.
Qed.
Lemma quantile_points_low T ws : 0 < T -> (forall w, In w ws -> 0 <= w) -> forall acc x, In x (quantile_points T acc ws) -> acc / T <= x.
Proof.
  intros HT. assert (TI : 0 <= / T) by (apply Qlt_le_weak, Qinv_lt_0_compat; auto).
  induction ws as [|w ws IH]; intros H acc x I; simpl in I; [contradiction|].
  pose proof (H w ltac:(now left)) as W. destruct I as [<-|I].
  - unfold Qdiv. apply Qmult_le_compat_r; auto. lra.
  - apply Qle_trans with ((acc + w) / T).
    + unfold Qdiv. apply Qmult_le_compat_r; auto. lra.
    + apply IH; auto. intros; apply H; now right.
Qed.
Lemma quantile_points_sorted T ws : 0 < T -> (forall w, In w ws -> 0 <= w) -> forall acc, StronglySorted Qle (quantile_points T acc ws).
Proof.
  intros HT. assert (TI : 0 <= / T) by (apply Qlt_le_weak, Qinv_lt_0_compat; auto).
  induction ws as [|w ws IH]; intros H acc; simpl; constructor.
  - apply IH. intros; apply H; now right.
  - apply Forall_forall. intros x I. apply quantile_points_low in I; auto; [|intros; apply H; now right].
    apply Qle_trans with ((acc + w) / T); auto. unfold Qdiv. apply Qmult_le_compat_r; auto.
    pose proof (H w ltac:(now left)). lra.
Qed.
Lemma combine_rising xs : forall ys, StronglySorted Qle xs -> StronglySorted Qle ys -> rising (combine xs ys).
Proof.
  induction xs as [|x xs IH]; intros [|y ys] X Y; simpl; try constructor.
  - inversion X; inversion Y; subst. now apply IH.
  - inversion X as [|? ? ? FX]; inversion Y as [|? ? ? FY]; subst. rewrite Forall_forall in *.
    intros [a b] I. simpl. split; [apply FX; eapply in_combine_l; eauto|apply FY; eapply in_combine_r; eauto].
Qed.
Lemma sorted_by_nth l : (forall i j, (i <= j < length l)%nat -> nth i l 0 <= nth j l 0) -> StronglySorted Qle l.
Proof.
  induction l as [|x l IH]; intros H; constructor.
  - apply IH. intros i j L. apply (H (S i) (S j)). simpl. lia.
  - apply Forall_forall. intros y I. apply (In_nth _ _ 0) in I as (j & L & <-). apply (H 0%nat (S j)). simpl. lia.
Qed.

Section W.
  Variable argsort : list Q -> list nat.
  Hypothesis sorts : sorts_numbers argsort.

  Lemma argsort_length l : length (argsort l) = length l.
  Proof. destruct (sorts l) as [P _]. apply Permutation_length in P. now rewrite seq_length in P. Qed.
  Lemma argsort_in l k : In k (argsort l) -> (k < length l)%nat.
  Proof. destruct (sorts l) as [P _]. intros I. apply (Permutation_in _ P) in I. apply in_seq in I. lia. Qed.
  Lemma nth_map_in {A B} (f : A -> B) l i d d' : (i < length l)%nat -> nth i (map f l) d = f (nth i l d').
  Proof. revert i. induction l; intros [|i] L; simpl in *; try lia; auto. apply IHl. lia. Qed.
  Lemma picked_sorted data : StronglySorted Qle (map (fun k => nth k data 0) (argsort data)).
  Proof.
    apply sorted_by_nth. intros i j L. rewrite map_length, argsort_length in L.
    rewrite !(nth_map_in _ _ _ _ 0%nat) by (rewrite argsort_length; lia). now apply (sorts data).
  Qed.
  Lemma picked_perm (A : Type) (l : list A) d data : length l = length data ->
    Permutation (map (fun k => nth k l d) (argsort data)) l.
  Proof.
    intros E. destruct (sorts data) as [P _]. rewrite <- E in P.
    apply (Permutation_map (fun k => nth k l d)) in P. rewrite P. clear P.
    assert (map (fun k => nth k l d) (seq 0 (length l)) = l) as ->; [|reflexivity].
    clear. induction l as [|x l IH]; simpl; auto. f_equal. rewrite <- seq_shift, map_map. apply IH.
  Qed.

  (** The sorted pairs the computation works on. *)
  Definition pairs (data weights : list Q) : list (Q * Q) :=
    map (fun k => nth k (combine data weights) (0, 0)) (argsort data).
  Lemma pairs_perm data weights : length weights = length data -> Permutation (pairs data weights) (combine data weights).
  Proof. intros E. apply picked_perm. rewrite combine_length. lia. Qed.
  Lemma pairs_fst data weights : length weights = length data ->
    map fst (pairs data weights) = map (fun k => nth k data 0) (argsort data).
  Proof.
    intros E. unfold pairs. rewrite map_map. apply map_ext_in. intros k I. apply argsort_in in I.
    rewrite combine_nth by auto. reflexivity.
  Qed.
  Lemma pairs_snd data weights : length weights = length data ->
    map snd (pairs data weights) = map (fun k => nth k weights 0) (argsort data).
  Proof.
    intros E. unfold pairs. rewrite map_map. apply map_ext_in. intros k I. apply argsort_in in I.
    rewrite combine_nth by auto. reflexivity.
  Qed.
  Lemma pairs_sorted data weights : length weights = length data -> sorted_pairs (pairs data weights).
  Proof.
    intros E i j L. unfold datum. assert (LP : length (pairs data weights) = length data) by (unfold pairs; rewrite map_length; apply argsort_length).
    assert (N : forall i, (i < length data)%nat -> fst (nth i (pairs data weights) (0, 0)) = nth (nth i (argsort data) 0%nat) data 0).
    { intros k K. rewrite <- (map_nth fst (pairs data weights) (0, 0) k), pairs_fst by auto.
      rewrite (nth_map_in _ _ _ _ 0%nat) by (rewrite argsort_length; lia). reflexivity. }
    rewrite !N by lia. apply (sorts data). lia.
  Qed.
  Lemma pairs_length data weights : length (pairs data weights) = length data.
  Proof. unfold pairs. rewrite map_length. apply argsort_length. Qed.

  Lemma points_rising data weights : usable_weights data weights -> rising (weighted_points argsort data weights).
  Proof.
    intros (E & W & T). unfold weighted_points. apply combine_rising; [|apply picked_sorted].
    apply quantile_points_sorted; [now rewrite sum_total|].
    intros w I. apply W. apply (Permutation_in w (picked_perm Q weights 0 data E) I).
  Qed.
  Lemma points_nonempty data weights : usable_weights data weights -> weighted_points argsort data weights <> [].
  Proof.
    intros (E & W & T). unfold weighted_points.
    assert (L : length (argsort data) <> 0%nat).
    { rewrite argsort_length. destruct data; simpl; auto. destruct weights; [|discriminate]. simpl in T. lra. }
    destruct (argsort data); simpl in *; [congruence|discriminate].
  Qed.
  Lemma points_values data weights q : length weights = length data -> In q (weighted_points argsort data weights) -> In (snd q) data.
  Proof.
    intros E I. destruct q as [a b]. apply in_combine_r in I. simpl.
    apply (Permutation_in b (picked_perm Q data 0 data eq_refl) I).
  Qed.

  Lemma weighted_ok data weights ps : usable_weights data weights ->
    weighted_percentile argsort data weights ps = Ok (map (fun p => np_interp (weighted_points argsort data weights) (p / 100)) ps).
  Proof.
    intros (E & W & T). unfold weighted_percentile. rewrite (proj2 (Nat.eqb_eq (length data) (length weights))) by auto.
    cbn [negb]. assert (forallb (fun w => Qle_bool 0 w) weights = true) as ->.
    { apply forallb_forall. intros w I. apply Qle_bool_iff. auto. }
    assert (Qlt_bool 0 (qsum weights) = true) as -> by (apply qlt_true; now rewrite sum_total).
    destruct data; [|reflexivity]. destruct weights; [|discriminate]. simpl in T. lra.
  Qed.
  Lemma weighted_between data weights p lo hi : usable_weights data weights -> all_between lo hi data ->
    lo <= np_interp (weighted_points argsort data weights) p /\ np_interp (weighted_points argsort data weights) p <= hi.
  Proof.
    intros U B. apply np_interp_between; [now apply points_nonempty|now apply points_rising|].
    intros q I. apply B. apply (points_values data weights q); auto. apply U.
  Qed.

  (* ------------------------------------------------- the specification *)
  Lemma interp_from_spec x : forall pts x0 y0, x0 <= x ->
    let all := (x0, y0) :: pts in
    let r := interp_from x x0 y0 pts in
    (fst (nth (length pts) all (0,0)) <= x /\ r = snd (nth (length pts) all (0,0))) \/
    exists i, (S i < length all)%nat /\ fst (nth i all (0,0)) <= x /\ x < fst (nth (S i) all (0,0)) /\
      r == snd (nth i all (0,0)) + (snd (nth (S i) all (0,0)) - snd (nth i all (0,0))) *
           ((x - fst (nth i all (0,0))) / (fst (nth (S i) all (0,0)) - fst (nth i all (0,0)))).
  Proof.
    induction pts as [|[x1 y1] pts IH]; intros x0 y0 L all r.
    - left. subst all r. simpl. split; auto.
    - destruct (Qle_bool x1 x) eqn:E.
      + apply Qle_bool_iff in E as E'. specialize (IH x1 y1 E'). cbv zeta in IH.
        assert (R : r = interp_from x x1 y1 pts) by (subst r; simpl; now rewrite E). rewrite R. clear R r.
        destruct IH as [[A B]|(i & A & B & C & D)].
        * left. split; auto.
        * right. exists (S i). split; [simpl in *; lia|]. split; auto.
      + right. exists 0%nat. apply qle_false in E as E'. split; [simpl; lia|]. simpl. split; auto. split; auto.
        subst r. simpl. rewrite E. apply (slope_form x x0 y0 x1 y1); auto.
  Qed.

  Lemma points_nth data weights i : length weights = length data -> (i < length data)%nat ->
    fst (nth i (weighted_points argsort data weights) (0,0)) == point (pairs data weights) i /\
    snd (nth i (weighted_points argsort data weights) (0,0)) = datum (pairs data weights) i.
  Proof.
    intros E L. unfold weighted_points. rewrite combine_nth by (rewrite quantile_points_length, !map_length; reflexivity).
    cbn [fst snd]. split.
    - rewrite quantile_points_nth by (rewrite map_length, argsort_length; auto).
      rewrite <- (pairs_snd data weights) by auto. unfold point, weight.
      rewrite firstn_map, <- (map_nth snd (pairs data weights) (0, 0) i). cbn [snd].
      rewrite sum_total, (sum_perm (map snd (pairs data weights)) weights).
      + rewrite Qplus_0_l. reflexivity.
      + rewrite pairs_snd by auto. now apply picked_perm.
    - unfold datum. rewrite <- (pairs_fst data weights) by auto. apply (map_nth fst (pairs data weights) (0, 0) i).
  Qed.
  Lemma points_length data weights : length weights = length data ->
    length (weighted_points argsort data weights) = length data.
  Proof.
    intros E. unfold weighted_points. rewrite combine_length, quantile_points_length, !map_length, argsort_length. lia.
  Qed.

  Lemma weighted_spec data weights p : usable_weights data weights ->
    weighted_percentile_of data weights p (np_interp (weighted_points argsort data weights) (p / 100)).
  Proof.
    intros U. destruct U as (E & W & T) eqn:EU. exists (pairs data weights).
    split; [now apply pairs_perm|]. split; [now apply pairs_sorted|].
    pose proof (points_nonempty data weights U) as NE. pose proof (points_length data weights E) as PL.
    pose proof (points_nth data weights) as PN.
    unfold interpolates. rewrite pairs_length.
    destruct (weighted_points argsort data weights) as [|[x0 y0] pts] eqn:EP; [congruence|]. simpl in PL.
    assert (P0 : x0 == point (pairs data weights) 0 /\ y0 = datum (pairs data weights) 0) by (apply (PN 0%nat E); lia).
    unfold np_interp. destruct (Qlt_bool (p / 100) x0) eqn:C.
    - left. apply qlt_true in C. destruct P0 as [A B]. rewrite <- A, B. split; [auto|reflexivity].
    - right. apply qlt_false in C. destruct (interp_from_spec (p / 100) pts x0 y0 C) as [[A B]|(i & A & B & Cc & D)].
      + left. replace (length data - 1)%nat with (length pts) by lia.
        destruct (PN (length pts) E ltac:(lia)) as [X Y]. rewrite <- X, <- Y, B. split; [auto|reflexivity].
      + right. exists i. cbn [length] in A. split; [lia|].
        destruct (PN i E ltac:(lia)) as [X Y]. destruct (PN (S i) E ltac:(lia)) as [X' Y'].
        rewrite <- X, <- X', <- Y, <- Y'. auto.
  Qed.

  (* ------------------------------------------------- invariances *)
  Lemma quantile_points_scale k T ws : 0 < k -> 0 < T -> forall acc,
    Forall2 Qeq (quantile_points (k * T) (k * acc) (map (fun w => k * w) ws)) (quantile_points T acc ws).
  Proof.
    intros K HT. induction ws as [|w ws IH]; intros acc; simpl; constructor.
    - field. split; lra.
    - specialize (IH (acc + w)). revert IH. generalize (quantile_points T (acc + w) ws). intros l IH.
      assert (G : forall a b ws, a == b -> Forall2 Qeq (quantile_points (k * T) a ws) (quantile_points (k * T) b ws)).
      { clear. intros a b ws. revert a b. induction ws as [|w ws IH]; intros a b E; simpl; constructor.
        - now rewrite E.
        - apply IH. now rewrite E. }
      assert (TR : forall a b c, Forall2 Qeq a b -> Forall2 Qeq b c -> Forall2 Qeq a c).
      { clear. intros a b c F. revert c. induction F; intros c G; inversion G; subst; constructor; [now rewrite H|auto]. }
      eapply TR; [|exact IH]. apply G. ring.
  Qed.
  Lemma quantile_points_compat T T' : T == T' -> forall ws acc, Forall2 Qeq (quantile_points T acc ws) (quantile_points T' acc ws).
  Proof. intros E. induction ws; intros acc; simpl; constructor; auto. now rewrite E. Qed.
  Lemma combine_same xs xs' ys : Forall2 Qeq xs xs' -> Forall2 same_pts (combine xs ys) (combine xs' ys).
  Proof.
    intros F. revert ys. induction F; intros [|y0 ys]; simpl; constructor; auto. split; simpl; [auto|reflexivity].
  Qed.
  Lemma sum_scale k l : sum (map (fun w => k * w) l) == k * sum l.
  Proof. induction l; simpl; [ring|]. rewrite IHl. ring. Qed.
  Lemma weighted_scale k data weights x : 0 < k -> usable_weights data weights ->
    np_interp (weighted_points argsort data (map (fun w => k * w) weights)) x ==
    np_interp (weighted_points argsort data weights) x.
  Proof.
    intros K (E & W & T). apply np_interp_compat; [reflexivity|]. unfold weighted_points. apply combine_same.
    assert (map (fun j => nth j (map (fun w => k * w) weights) 0) (argsort data) =
            map (fun w => k * w) (map (fun j => nth j weights 0) (argsort data))) as ->.
    { rewrite map_map. apply map_ext_in. intros j I. apply argsort_in in I. apply nth_map_in. lia. }
    assert (TR : forall a b c, Forall2 Qeq a b -> Forall2 Qeq b c -> Forall2 Qeq a c).
    { clear. intros a b c F. revert c. induction F; intros c G; inversion G; subst; constructor; [now rewrite H|auto]. }
    assert (S1 : qsum (map (fun w => k * w) weights) == k * sum weights) by (rewrite sum_total; apply sum_scale).
    eapply TR; [apply (quantile_points_compat _ (k * sum weights) S1)|].
    eapply TR; [|apply (quantile_points_compat (sum weights)); symmetry; apply sum_total].
    assert (G : forall a b ws T, a == b -> Forall2 Qeq (quantile_points T a ws) (quantile_points T b ws)).
    { clear. intros a b ws T. revert a b. induction ws as [|w ws IH]; intros a b Eab; simpl; constructor.
      - now rewrite Eab. - apply IH. now rewrite Eab. }
    eapply TR; [apply (G 0 (k * 0)); ring|]. now apply quantile_points_scale.
  Qed.
  Lemma usable_scale k data weights : 0 < k -> usable_weights data weights -> usable_weights data (map (fun w => k * w) weights).
  Proof.
    intros K (E & W & T). split; [now rewrite map_length|]. split.
    - intros w I. apply in_map_iff in I as (v & <- & I). apply Qmult_le_0_compat; auto. now apply Qlt_le_weak.
    - rewrite sum_scale. now apply Qmult_lt_0_compat.
  Qed.
End W.

(** Strictly sorted lists with the same elements are equal. *)
Lemma strict_unique {A} (R : A -> A -> Prop) : (forall x, ~ R x x) -> (forall x y, R x y -> R y x -> False) ->
  forall a b, StronglySorted R a -> StronglySorted R b -> Permutation a b -> a = b.
Proof.
  intros Irr As. induction a as [|x a IH]; intros b Sa Sb P.
  - apply Permutation_nil in P. auto.
  - destruct b as [|y b]; [apply Permutation_sym, Permutation_nil in P; discriminate|].
    inversion Sa as [|? ? A' FA]; inversion Sb as [|? ? B' FB]; subst. rewrite Forall_forall in FA, FB.
    assert (x = y) as ->.
    { assert (In x (y :: b)) as [E|I] by (apply (Permutation_in x P); now left); [auto|].
      assert (In y (x :: a)) as [E|J] by (apply (Permutation_in y (Permutation_sym P)); now left); [auto|].
      exfalso. exact (As x y (FA y J) (FB x I)). }
    f_equal. apply IH; auto. now apply Permutation_cons_inv in P.
Qed.
Lemma strictly_sorted_pairs l : different (map fst l) -> sorted_pairs l -> StronglySorted (fun a b => fst a < fst b) l.
Proof.
  induction l as [|x l IH]; intros D S; constructor.
  - apply IH; [now inversion D|]. intros i j L. apply (S (Datatypes.S i) (Datatypes.S j)). simpl. lia.
  - apply Forall_forall. intros y I. unfold different in D. simpl in D. inversion D as [|? ? NI _]; subst.
    pose proof I as I'. apply (In_nth _ _ (0, 0)) in I as (j & L & E).
    pose proof (S 0%nat (Datatypes.S j) ltac:(simpl; lia)) as H. unfold datum in H. simpl in H. rewrite E in H.
    apply Qle_lteq in H as [H|H]; auto. exfalso. apply NI. rewrite map_map. apply in_map_iff. exists y. split; auto.
    symmetry. now apply Qred_complete.
Qed.
Lemma weighted_points_perm as1 as2 data weights data' weights' :
  sorts_numbers as1 -> sorts_numbers as2 -> length weights = length data -> length weights' = length data' ->
  Permutation (combine data weights) (combine data' weights') -> different data ->
  pairs as1 data weights = pairs as2 data' weights'.
Proof.
  intros S1 S2 E E' P D.
  assert (P1 : Permutation (pairs as1 data weights) (pairs as2 data' weights')).
  { rewrite (pairs_perm as1 S1) by auto. rewrite P. symmetry. now apply pairs_perm. }
  assert (F : map fst (combine data weights) = data).
  { clear - E. revert weights E. induction data; intros [|w ws] E; simpl in *; try discriminate; auto. f_equal. auto. }
  assert (D1 : different (map fst (pairs as1 data weights))).
  { unfold different. apply (Permutation_NoDup (l := map Qred data)); auto. rewrite <- F at 1. symmetry.
    apply Permutation_map, Permutation_map. now apply pairs_perm. }
  assert (D2 : different (map fst (pairs as2 data' weights'))).
  { unfold different. eapply Permutation_NoDup; [|exact D1]. now apply Permutation_map, Permutation_map. }
  apply (strict_unique (fun a b => fst a < fst b)); auto.
  - intros x. apply Qlt_irrefl.
  - intros x y A B. lra.
  - apply strictly_sorted_pairs; auto. now apply pairs_sorted.
  - apply strictly_sorted_pairs; auto. now apply pairs_sorted.
Qed.
Lemma weighted_perm as1 as2 data weights data' weights' x :
  sorts_numbers as1 -> sorts_numbers as2 -> usable_weights data weights -> length weights' = length data' ->
  Permutation (combine data weights) (combine data' weights') -> different data ->
  np_interp (weighted_points as1 data weights) x == np_interp (weighted_points as2 data' weights') x.
Proof.
  intros S1 S2 (E & W & T) E' P D. pose proof (weighted_points_perm _ _ _ _ _ _ S1 S2 E E' P D) as EP.
  apply np_interp_compat; [reflexivity|]. unfold weighted_points.
  rewrite <- (pairs_fst as1 S1 data weights E), <- (pairs_fst as2 S2 data' weights' E').
  rewrite <- (pairs_snd as1 S1 data weights E), <- (pairs_snd as2 S2 data' weights' E').
  rewrite <- EP. apply combine_same. apply quantile_points_compat.
  rewrite !sum_total. rewrite <- (sum_perm _ _ (picked_perm as1 S1 Q weights 0 data E)).
  rewrite <- (sum_perm _ _ (picked_perm as2 S2 Q weights' 0 data' E')).
  rewrite <- (pairs_snd as1 S1 data weights E), <- (pairs_snd as2 S2 data' weights' E'), EP. reflexivity.
Qed.
