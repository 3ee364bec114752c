(** Which percentiles a datum of weight zero can change. *)
From Coq Require Import Lqa Setoid Permutation Sorted.
From Verif Require Import Base M_Values M_Ops M_Percentiles SpecPercentiles P_Support P_Ctor P_Round P_Percentiles P_Weights P_Percentiles2.
Open Scope Q_scope.

Lemma sorted_nat_eq : forall l m : list nat, StronglySorted le l -> StronglySorted le m -> Permutation l m -> l = m.
Proof.
  induction l as [|a l IH]; intros m A B P; [now apply Permutation_nil in P|].
  destruct m as [|b m]; [now apply Permutation_sym, Permutation_nil in P|].
  inversion A as [|? ? A1 A2]; inversion B as [|? ? B1 B2]; subst.
  assert (a = b).
  { assert (I : In a (b :: m)) by (eapply Permutation_in; [exact P|now left]).
    assert (J : In b (a :: l)) by (eapply Permutation_in; [apply Permutation_sym, P|now left]).
    rewrite Forall_forall in A2, B2. destruct I as [I|I], J as [J|J]; auto. specialize (A2 _ J). specialize (B2 _ I). lia. }
  subst b. f_equal. apply IH; auto. now apply Permutation_cons_inv in P.
Qed.
Lemma nth_sorted {A} (R : A -> A -> Prop) (d : A) l : (forall i j, (i < j < length l)%nat -> R (nth i l d) (nth j l d)) -> StronglySorted R l.
Proof.
  induction l as [|a l IH]; intros H; constructor.
  - apply IH. intros i j L. apply (H (S i) (S j)). simpl. lia.
  - apply Forall_forall. intros x I. apply In_nth with (d := d) in I as (j & L & <-). apply (H 0%nat (S j)). simpl. lia.
Qed.
Lemma sorted_nth {A} (R : A -> A -> Prop) (d : A) l : StronglySorted R l -> forall i j, (i < j < length l)%nat -> R (nth i l d) (nth j l d).
Proof.
  induction 1 as [|a l S IH F]; intros i j L; simpl in L; [lia|]. destruct j as [|j]; [lia|]. destruct i as [|i]; simpl.
  - rewrite Forall_forall in F. apply F, nth_In. lia.
  - apply IH. lia.
Qed.
Lemma argsort_sorted argsort data : sorts_numbers argsort -> StronglySorted Qlt data -> argsort data = seq 0 (length data).
Proof.
  intros H R. destruct (H data) as [P M]. pose proof (Permutation_length P) as L. rewrite seq_length in L.
  apply sorted_nat_eq; auto.
  - apply nth_sorted with (d := 0%nat). intros i j B. specialize (M i j ltac:(lia)).
    assert (K : forall k, (k < length data)%nat -> (nth k (argsort data) 0 < length data)%nat).
    { intros k Lk. assert (I : In (nth k (argsort data) 0%nat) (seq 0 (length data))) by (eapply Permutation_in; [exact P|apply nth_In; lia]).
      apply in_seq in I. lia. }
    destruct (le_lt_dec (nth i (argsort data) 0%nat) (nth j (argsort data) 0%nat)) as [|G]; auto. exfalso.
    pose proof (sorted_nth Qlt 0 data R _ _ (conj G (K i ltac:(lia)))). lra.
  - apply nth_sorted with (d := 0%nat). intros i j B. rewrite seq_length in B. rewrite !seq_nth by lia. lia.
Qed.
Lemma map_nth_self (l : list Q) : map (fun k => nth k l 0) (seq 0 (length l)) = l.
Proof.
  induction l as [|a l IH]; simpl; [reflexivity|]. f_equal. rewrite <- seq_shift, map_map. exact IH.
Qed.
Lemma points_sorted argsort data weights : sorts_numbers argsort -> StronglySorted Qlt data -> length weights = length data ->
  weighted_points argsort data weights = combine (quantile_points (qsum weights) 0 weights) data.
Proof.
  intros H R L. unfold weighted_points. rewrite (argsort_sorted argsort data) by auto. rewrite map_nth_self, <- L, map_nth_self. reflexivity.
Qed.

(* ------------------------------------------------- interpolation *)
Lemma interp_at_point x xa a post : x == xa -> Forall (fun q => xa < fst q) post -> interp_from x xa a post == a.
Proof.
  intros E F. destruct F as [|[x1 y1] post G F]; simpl; [reflexivity|]. cbn [fst] in G.
  destruct (Qle_bool x1 x) eqn:B; [apply Qle_bool_iff in B; lra|]. rewrite E. field. lra.
Qed.
Lemma interp_from_left x xa a post post' pre : x <= xa -> Forall (fun q => xa < fst q) post -> Forall (fun q => xa < fst q) post' ->
  forall x0 y0, interp_from x x0 y0 (pre ++ (xa, a) :: post) == interp_from x x0 y0 (pre ++ (xa, a) :: post').
Proof.
  intros L F F'. induction pre as [|[x1 y1] pre IH]; intros x0 y0; simpl.
  - destruct (Qle_bool xa x) eqn:B; [|reflexivity]. apply Qle_bool_iff in B. rewrite !interp_at_point; auto; try reflexivity; lra.
  - destruct (Qle_bool x1 x); [apply IH|reflexivity].
Qed.
Lemma interp_left x xa a post post' pre : x <= xa -> Forall (fun q => xa < fst q) post -> Forall (fun q => xa < fst q) post' ->
  np_interp (pre ++ (xa, a) :: post) x == np_interp (pre ++ (xa, a) :: post') x.
Proof.
  intros L F F'. destruct pre as [|[x0 y0] pre]; simpl.
  - destruct (Qlt_bool x xa) eqn:B; [reflexivity|]. apply qlt_false in B. rewrite !interp_at_point; auto; try reflexivity; lra.
  - destruct (Qlt_bool x x0); [reflexivity|]. now apply interp_from_left.
Qed.
Lemma interp_from_right x xc c post pre : xc <= x -> Forall (fun q => fst q <= x) pre ->
  forall x0 y0, interp_from x x0 y0 (pre ++ (xc, c) :: post) = interp_from x xc c post.
Proof.
  intros L F. induction F as [|[x1 y1] pre G F IH]; intros x0 y0; simpl.
  - apply Qle_bool_iff in L. now rewrite L.
  - cbn [fst] in G. apply Qle_bool_iff in G. rewrite G. apply IH.
Qed.
Lemma interp_right x xc c post pre : xc <= x -> Forall (fun q => fst q <= x) pre ->
  np_interp (pre ++ (xc, c) :: post) x = interp_from x xc c post.
Proof.
  intros L F. destruct F as [|[x0 y0] pre G F]; simpl.
  - now rewrite (proj2 (qlt_false x xc) L).
  - cbn [fst] in G. rewrite (proj2 (qlt_false x x0) G). now apply interp_from_right.
Qed.

(* ------------------------------------------------- the points *)
Lemma quantile_points_app T w1 : forall acc w2,
  quantile_points T acc (w1 ++ w2) = quantile_points T acc w1 ++ quantile_points T (fold_left Qplus w1 acc) w2.
Proof. induction w1 as [|w w1 IH]; intros acc w2; simpl; [reflexivity|]. now rewrite IH. Qed.
Lemma fold_sum l : forall acc, fold_left Qplus l acc == acc + sum l.
Proof. induction l as [|x l IH]; intros acc; simpl; [ring|]. rewrite IH. ring. Qed.
Lemma quantile_points_same T T' ws : T == T' -> forall acc acc', acc == acc' ->
  Forall2 Qeq (quantile_points T acc ws) (quantile_points T' acc' ws).
Proof.
  intros ET. induction ws as [|w ws IH]; intros acc acc' E; simpl; constructor.
  - now rewrite E, ET.
  - apply IH. now rewrite E.
Qed.
Lemma combine_same_pts xs xs' : Forall2 Qeq xs xs' -> forall ys, Forall2 same_pts (combine xs ys) (combine xs' ys).
Proof. induction 1; intros [|y0 ys]; simpl; constructor; auto. split; simpl; auto; reflexivity. Qed.
Lemma quantile_points_high T ws : 0 < T -> (forall w, In w ws -> 0 <= w) -> forall acc x, In x (quantile_points T acc ws) -> x <= (acc + sum ws) / T.
Proof.
  intros HT. assert (TI : 0 <= / T) by (apply Qlt_le_weak, Qinv_lt_0_compat; auto).
  induction ws as [|w ws IH]; intros H acc x I; simpl in I; [contradiction|].
  pose proof (H w ltac:(now left)) as W. pose proof (sum_nonneg ws ltac:(intros; apply H; now right)) as N. destruct I as [<-|I]; simpl sum.
  - unfold Qdiv. apply Qmult_le_compat_r; auto. lra.
  - apply IH in I; [|intros; apply H; now right]. apply Qle_trans with (1 := I). apply Qle_lteq. right. unfold Qdiv. ring.
Qed.
Lemma Forall_combine_fst {A B} (P : A -> Prop) (xs : list A) (ys : list B) : (forall x, In x xs -> P x) -> Forall (fun q => P (fst q)) (combine xs ys).
Proof. intros H. apply Forall_forall. intros [x y] I. apply H. now apply in_combine_l in I. Qed.
Lemma combine_split {A B} (a1 a2 : list A) : forall (b1 b2 : list B), length a1 = length b1 ->
  combine (a1 ++ a2) (b1 ++ b2) = combine a1 b1 ++ combine a2 b2.
Proof. induction a1 as [|x a1 IH]; intros [|y b1] b2 E; simpl in *; try discriminate; auto. f_equal. apply IH. lia. Qed.

(** The value a weighted percentile has. *)
Lemma wp_one argsort data weights p : usable_weights data weights ->
  get_percentiles argsort data (POne p) (Some weights) false None = Ok (One (np_interp (weighted_points argsort data weights) (p / 100))).
Proof.
  intros (L & N & T). unfold get_percentiles, weighted_percentile. cbn [plist bind]. rewrite L, Nat.eqb_refl. cbn [negb].
  destruct data as [|d data].
  { destruct weights; [|discriminate]. simpl in T. lra. }
  assert (forallb (fun w => Qle_bool 0 w) weights = true) as -> by (apply forallb_forall; intros w I; apply Qle_bool_iff; auto).
  assert (Qlt_bool 0 (qsum weights) = true) as -> by (apply qlt_true; now rewrite sum_total).
  reflexivity.
Qed.
Lemma usable_drop d1 b d2 w1 w2 : length w1 = length d1 -> usable_weights (d1 ++ b :: d2) (w1 ++ 0 :: w2) -> usable_weights (d1 ++ d2) (w1 ++ w2).
Proof.
  intros E (L & N & T). rewrite !app_length in L. simpl in L. split; [rewrite !app_length; lia|]. split.
  - intros w I. apply N. apply in_app_iff in I. apply in_app_iff. simpl. tauto.
  - rewrite sum_app in *. simpl in T. lra.
Qed.
Lemma sorted_drop d1 b d2 : StronglySorted Qlt (d1 ++ b :: d2) -> StronglySorted Qlt (d1 ++ d2).
Proof.
  induction d1 as [|x d1 IH]; simpl; intros S; inversion S as [|? ? S' F]; subst; auto. constructor; auto.
  rewrite Forall_forall in *. intros y I. apply F. apply in_app_iff in I. apply in_app_iff. simpl. tauto.
Qed.

Lemma zero_weight_below argsort d1 a b d2 w1 wa w2 p :
  sorts_numbers argsort -> StronglySorted Qlt (d1 ++ a :: b :: d2) -> length w1 = length d1 ->
  usable_weights (d1 ++ a :: b :: d2) (w1 ++ wa :: 0 :: w2) -> 0 < wa ->
  p / 100 * sum (w1 ++ wa :: 0 :: w2) <= sum w1 + wa / 2 ->
  exists v v', get_percentiles argsort (d1 ++ a :: b :: d2) (POne p) (Some (w1 ++ wa :: 0 :: w2)) false None = Ok (One v) /\
    get_percentiles argsort (d1 ++ a :: d2) (POne p) (Some (w1 ++ wa :: w2)) false None = Ok (One v') /\ v == v'.
Proof.
  intros H R L U W X.
  replace (d1 ++ a :: b :: d2) with ((d1 ++ [a]) ++ b :: d2) in * by now rewrite <- app_assoc.
  replace (d1 ++ a :: d2) with ((d1 ++ [a]) ++ d2) in * by now rewrite <- app_assoc.
  assert (EW : w1 ++ wa :: 0 :: w2 = (w1 ++ [wa]) ++ 0 :: w2) by now rewrite <- app_assoc.
  assert (EW' : w1 ++ wa :: w2 = (w1 ++ [wa]) ++ w2) by now rewrite <- app_assoc.
  assert (L' : length (w1 ++ [wa]) = length (d1 ++ [a])) by (rewrite !app_length; simpl; lia).
  assert (U' : usable_weights ((d1 ++ [a]) ++ d2) ((w1 ++ [wa]) ++ w2)) by (rewrite EW in U; eapply usable_drop; eauto).
  assert (R' : StronglySorted Qlt ((d1 ++ [a]) ++ d2)) by (eapply sorted_drop; eauto).
  rewrite !wp_one by (rewrite ?EW'; auto). do 2 eexists. split; [reflexivity|]. split; [reflexivity|].
  destruct U as (UL & UN & UT). destruct U' as (UL' & UN' & UT').
  rewrite !points_sorted by (rewrite ?EW'; auto).
  assert (ET : qsum (w1 ++ wa :: w2) == qsum (w1 ++ wa :: 0 :: w2)).
  { rewrite !sum_total, !sum_app. simpl. ring. }
  rewrite (np_interp_compat (combine (quantile_points (qsum (w1 ++ wa :: w2)) 0 (w1 ++ wa :: w2)) ((d1 ++ [a]) ++ d2))
             (combine (quantile_points (qsum (w1 ++ wa :: 0 :: w2)) 0 (w1 ++ wa :: w2)) ((d1 ++ [a]) ++ d2)) (p / 100) (p / 100)).
  2: reflexivity.
  2: { apply combine_same_pts, quantile_points_same; [exact ET|reflexivity]. }
  set (T := qsum (w1 ++ wa :: 0 :: w2)) in *.
  assert (TS : T == sum (w1 ++ wa :: 0 :: w2)) by apply sum_total.
  assert (TP : 0 < T) by now rewrite TS.
  rewrite !quantile_points_app. rewrite <- !app_assoc. cbn [app quantile_points].
  set (A := fold_left Qplus w1 0). assert (EA : A == sum w1) by (unfold A; rewrite fold_sum; ring).
  rewrite !combine_split by now rewrite quantile_points_length. cbn [combine].
  set (xa := (A + wa - (1#2) * wa) / T).
  assert (Exa : T * xa == A + wa / 2). { unfold xa. setoid_replace (wa / 2) with ((1#2) * wa) by (unfold Qdiv; change (/ 2) with (1#2); ring). field. lra. }
  assert (NW : forall w, In w w2 -> 0 <= w) by (intros; apply UN; apply in_app_iff; simpl; tauto).
  assert (HW : 0 < wa / 2) by (apply Qlt_shift_div_l; lra).
  assert (After : forall acc x, acc == A + wa -> In x (quantile_points T acc w2) -> xa < x).
  { intros acc x E I. apply quantile_points_low in I; auto. apply Qlt_le_trans with (2 := I).
    apply Qlt_shift_div_l; auto. rewrite Qmult_comm, Exa, E. setoid_replace (wa / 2) with ((1#2) * wa) by (unfold Qdiv; change (/ 2) with (1#2); ring). lra. }
  apply interp_left.
  - setoid_replace xa with ((A + wa / 2) / T) by (rewrite <- Exa; field; lra).
    apply Qle_shift_div_l; auto. rewrite EA, TS. exact X.
  - constructor.
    + cbn [fst]. apply Qlt_shift_div_l; auto. rewrite Qmult_comm, Exa. setoid_replace (wa / 2) with ((1#2) * wa) by (unfold Qdiv; change (/ 2) with (1#2); ring). lra.
    + apply Forall_combine_fst. intros x I. eapply After; [|exact I]. ring.
  - apply Forall_combine_fst. intros x I. eapply After; [|exact I]. reflexivity.
Qed.

Lemma zero_weight_above argsort d1 b c d2 w1 wc w2 p :
  sorts_numbers argsort -> StronglySorted Qlt (d1 ++ b :: c :: d2) -> length w1 = length d1 ->
  usable_weights (d1 ++ b :: c :: d2) (w1 ++ 0 :: wc :: w2) ->
  sum w1 + wc / 2 <= p / 100 * sum (w1 ++ 0 :: wc :: w2) ->
  exists v v', get_percentiles argsort (d1 ++ b :: c :: d2) (POne p) (Some (w1 ++ 0 :: wc :: w2)) false None = Ok (One v) /\
    get_percentiles argsort (d1 ++ c :: d2) (POne p) (Some (w1 ++ wc :: w2)) false None = Ok (One v') /\ v == v'.
Proof.
  intros H R L U X.
  assert (U' : usable_weights (d1 ++ c :: d2) (w1 ++ wc :: w2)) by (eapply usable_drop; eauto).
  assert (R' : StronglySorted Qlt (d1 ++ c :: d2)) by (eapply sorted_drop; eauto).
  rewrite !wp_one by auto. do 2 eexists. split; [reflexivity|]. split; [reflexivity|].
  destruct U as (UL & UN & UT). destruct U' as (UL' & UN' & UT').
  rewrite !points_sorted by auto.
  assert (ET : qsum (w1 ++ wc :: w2) == qsum (w1 ++ 0 :: wc :: w2)).
  { rewrite !sum_total, !sum_app. simpl. ring. }
  rewrite (np_interp_compat (combine (quantile_points (qsum (w1 ++ wc :: w2)) 0 (w1 ++ wc :: w2)) (d1 ++ c :: d2))
             (combine (quantile_points (qsum (w1 ++ 0 :: wc :: w2)) 0 (w1 ++ wc :: w2)) (d1 ++ c :: d2)) (p / 100) (p / 100)).
  2: reflexivity.
  2: { apply combine_same_pts, quantile_points_same; [exact ET|reflexivity]. }
  set (T := qsum (w1 ++ 0 :: wc :: w2)) in *.
  assert (TS : T == sum (w1 ++ 0 :: wc :: w2)) by apply sum_total.
  assert (TP : 0 < T) by now rewrite TS.
  rewrite !quantile_points_app. cbn [quantile_points].
  set (A := fold_left Qplus w1 0). assert (EA : A == sum w1) by (unfold A; rewrite fold_sum; ring).
  rewrite !combine_split by now rewrite quantile_points_length. cbn [combine].
  assert (NW : forall w, In w w1 -> 0 <= w) by (intros; apply UN; apply in_app_iff; simpl; tauto).
  assert (W : 0 <= wc) by (apply UN; apply in_app_iff; simpl; tauto).
  assert (HW : wc / 2 == (1#2) * wc) by (unfold Qdiv; change (/ 2) with (1#2); ring).
  assert (XA : (A + (1#2) * wc) / T <= p / 100).
  { apply Qle_shift_div_r; auto. rewrite EA, <- HW, TS. exact X. }
  assert (XB : A / T <= p / 100).
  { apply Qle_trans with (2 := XA). unfold Qdiv. apply Qmult_le_compat_r; [lra|]. apply Qlt_le_weak, Qinv_lt_0_compat; auto. }
  assert (Before : Forall (fun q : Q * Q => fst q <= p / 100) (combine (quantile_points T 0 w1) d1)).
  { apply (Forall_combine_fst (fun x => x <= p / 100)). intros x I. apply quantile_points_high in I; auto.
    apply Qle_trans with (1 := I). rewrite <- EA. setoid_replace ((0 + A) / T) with (A / T) by (unfold Qdiv; ring). exact XB. }
  assert (E1 : (A + 0 + wc - (1#2) * wc) / T == (A + (1#2) * wc) / T) by (unfold Qdiv; ring).
  assert (E2 : (A + wc - (1#2) * wc) / T == (A + (1#2) * wc) / T) by (unfold Qdiv; ring).
  change ((A + 0 - (1#2) * 0) / T, b) with ((A + 0 - (1#2) * 0) / T, b).
  rewrite (app_comm_cons) || idtac.
  replace (combine (quantile_points T 0 w1) d1 ++ ((A + 0 - (1#2) * 0) / T, b) :: ((A + 0 + wc - (1#2) * wc) / T, c) :: combine (quantile_points T (A + 0 + wc) w2) d2)
    with ((combine (quantile_points T 0 w1) d1 ++ [((A + 0 - (1#2) * 0) / T, b)]) ++ ((A + 0 + wc - (1#2) * wc) / T, c) :: combine (quantile_points T (A + 0 + wc) w2) d2)
    by now rewrite <- app_assoc.
  rewrite !interp_right; auto.
  - apply interp_from_compat; try reflexivity.
    + apply combine_same_pts, quantile_points_same; [reflexivity|ring].
    + now rewrite E1, E2.
  - now rewrite E2.
  - now rewrite E1.
  - apply Forall_app. split; auto. constructor; [|constructor]. cbn [fst].
    setoid_replace ((A + 0 - (1#2) * 0) / T) with (A / T) by (unfold Qdiv; ring). exact XB.
Qed.
