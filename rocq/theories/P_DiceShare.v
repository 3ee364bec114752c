(** Probabilities of exploding dice (C151). *)
From Coq Require Import Lqa Lia ZArith Permutation.
From Verif Require Import Base SpecShare SpecDiceShare P_Share.
Open Scope Z_scope.

Lemma lists_perm {A} (l m : list A) P : lists l P -> lists m P -> Permutation l m.
Proof. intros [N I] [N' I']. apply NoDup_Permutation; auto. intros x. now rewrite I, I'. Qed.
Lemma sum_perm l m : Permutation l m -> sum l = sum m.
Proof. induction 1; simpl; lia. Qed.
Lemma counted_unique {A} (P : A -> Prop) c d : counted P c -> counted P d -> c = d.
Proof. intros (l & N & I & <-) (m & N' & I' & <-). apply Permutation_length, (lists_perm l m P); split; auto. Qed.
Lemma sum_app l m : sum (l ++ m) = sum l + sum m.
Proof. induction l; simpl; auto. unfold sum in *. lia. Qed.

Lemma sum_singles l : sum (map (fun f => sum [f]) l) = sum l.
Proof. unfold sum. induction l as [|x l IH]; [reflexivity|]. cbn [map fold_right] in *. rewrite IH. lia. Qed.

(** Geometric bounds. *)
Section Geo.
  Open Scope Q_scope.
  Fixpoint rp (r : Q) (m : nat) : Q := match m with O => 1 | S m' => r * rp r m' end.
  Fixpoint hh (r a : Q) (m : nat) : Q := match m with O => 0 | S m' => r * hh r a m' + a * rp r m' end.
  Lemma rp_range r m : 0 <= r -> r <= 1 -> 0 <= rp r m /\ rp r m <= 1.
  Proof. intros A B. induction m as [|m [C D]]; cbn [rp]; [lra|]. split; [now apply Qmult_le_0_compat|]. apply Qle_trans with (1 * rp r m); [now apply Qmult_le_compat_r|lra]. Qed.
  Lemma rp_mono r t m : 0 <= r -> r <= t -> rp r m <= rp t m.
  Proof.
    intros A B. induction m as [|m IH]; cbn [rp]; [lra|]. assert (0 <= rp r m) as P. { clear IH. induction m; cbn [rp]; [lra|now apply Qmult_le_0_compat]. }
    apply Qle_trans with (t * rp r m); [now apply Qmult_le_compat_r|]. rewrite !(Qmult_comm t). apply Qmult_le_compat_r; auto; lra.
  Qed.
  Lemma qnat_S m : qnat (S m) == qnat m + 1.
  Proof. unfold qnat. rewrite Nat2Z.inj_succ. unfold Z.succ. now rewrite inject_Z_plus. Qed.
  Lemma qnat_nonneg m : 0 <= qnat m.
  Proof. unfold qnat. change 0 with (inject_Z 0). rewrite <- Zle_Qle. lia. Qed.
  Lemma rp_decay r m : 0 <= r -> r <= 1 -> qnat m * rp r m * (1 - r) <= 1 - rp r m.
  Proof.
    intros A B. induction m as [|m IH]; cbn [rp]; [change (qnat 0) with 0; lra|]. rewrite qnat_S.
    destruct (rp_range r m A B) as [C D]. set (x := rp r m) in *. set (k := qnat m) in *.
    assert (r * (k * x * (1 - r)) <= r * (1 - x)) as H1 by (rewrite !(Qmult_comm r); apply Qmult_le_compat_r; auto).
    assert (r * x <= 1) as H2. { apply Qle_trans with (1 * x); [now apply Qmult_le_compat_r|lra]. }
    assert (0 <= (1 - r * x) * (1 - r)) as H3 by (apply Qmult_le_0_compat; lra).
    assert ((k + 1) * (r * x) * (1 - r) == r * (k * x * (1 - r)) + r * x * (1 - r)) as -> by ring. lra.
  Qed.
  Lemma hh_bound r a m : 0 <= r -> r < 1 -> 0 <= a -> 0 <= hh r a m /\ hh r a m * (1 - r) <= 2 * a * rp ((1 + r) / 2) m.
  Proof.
    intros A B C. set (t := (1 + r) / 2). assert (t == (1 + r) * (1#2)) as Et by (unfold t; field).
    induction m as [|m [I J]]; cbn [hh rp]; [lra|]. assert (r <= t) as RT by lra.
    destruct (rp_range r m A ltac:(lra)) as [P1 P2]. pose proof (rp_mono r t m A RT) as P3.
    set (h := hh r a m) in *. set (x := rp r m) in *. set (y := rp t m) in *. split.
    - assert (0 <= r * h) by (now apply Qmult_le_0_compat). assert (0 <= a * x) by (now apply Qmult_le_0_compat). lra.
    - assert (r * (h * (1 - r)) <= r * (2 * a * y)) as H1 by (rewrite !(Qmult_comm r); apply Qmult_le_compat_r; auto).
      assert (a * x <= a * y) as H2 by (rewrite !(Qmult_comm a); apply Qmult_le_compat_r; auto).
      assert (a * x * (1 - r) <= a * y * (1 - r)) as H3 by (apply Qmult_le_compat_r; lra).
      assert (2 * a * (t * y) == r * (2 * a * y) + a * y * (1 - r)) as -> by (rewrite Et; field).
      assert ((r * h + a * x) * (1 - r) == r * (h * (1 - r)) + a * x * (1 - r)) as -> by ring. lra.
  Qed.
  (** What is still missing after [m] steps shrinks at least like 1 / m. *)
  Lemma tail_bound r a mu m : 0 <= r -> r < 1 -> 0 <= a -> 0 <= mu ->
    0 <= rp r m * mu + hh r a m /\
    (rp r m * mu + hh r a m) * qnat m <= mu / (1 - r) + 4 * a / ((1 - r) * (1 - r)).
  Proof.
    intros A B C D. destruct (rp_range r m A ltac:(lra)) as [P1 P2]. destruct (hh_bound r a m A B C) as [H1 H2].
    pose proof (qnat_nonneg m) as K0. pose proof (rp_decay r m A ltac:(lra)) as R1.
    set (t := (1 + r) / 2) in *. assert (t == (1 + r) * (1#2)) as Et by (unfold t; field).
    pose proof (rp_decay t m ltac:(lra) ltac:(lra)) as R2. destruct (rp_range t m ltac:(lra) ltac:(lra)) as [T1 T2].
    set (x := rp r m) in *. set (h := hh r a m) in *. set (y := rp t m) in *. set (k := qnat m) in *.
    assert (0 <= x * mu) as XM by (now apply Qmult_le_0_compat). split; [lra|].
    assert (x * mu * k <= mu / (1 - r)) as L1.
    { apply Qle_shift_div_l; [lra|]. assert (x * mu * k * (1 - r) == k * x * (1 - r) * mu) as -> by ring.
      apply Qle_trans with (1 * mu); [apply Qmult_le_compat_r; auto; lra|lra]. }
    assert (h * k <= 4 * a / ((1 - r) * (1 - r))) as L2.
    { apply Qle_shift_div_l; [apply Qmult_lt_0_compat; lra|].
      assert (h * k * ((1 - r) * (1 - r)) == h * (1 - r) * (k * (1 - r))) as -> by ring.
      apply Qle_trans with (2 * a * y * (k * (1 - r))). { apply Qmult_le_compat_r; auto. apply Qmult_le_0_compat; lra. }
      assert (2 * a * y * (k * (1 - r)) == k * y * (1 - t) * (4 * a)) as -> by (rewrite Et; field).
      apply Qle_trans with (1 * (4 * a)); [apply Qmult_le_compat_r; lra|lra]. }
    assert ((x * mu + h) * k == x * mu * k + h * k) as -> by ring. lra.
  Qed.
End Geo.

Section Die.
  Variables (n : Z) (ex : list Z).
  Hypothesis N2 : 1 <= n.
  Let all := map Z.of_nat (seq 1 (Z.to_nat n)).
  Let isx (z : Z) := existsb (Z.eqb z) ex.
  Let E := filter isx all.
  Let F := filter (fun z => negb (isx z)) all.
  Lemma isx_true z : isx z = true <-> In z ex.
  Proof. unfold isx. rewrite existsb_exists. split; [intros (x & I & H); apply Z.eqb_eq in H; now subst|intros I; exists z; split; auto; apply Z.eqb_refl]. Qed.
  Lemma all_lists : lists all (face n).
  Proof.
    split; [apply NoDup_map_inj; [lia|apply seq_NoDup]|]. intros z. unfold all. rewrite in_map_iff. unfold face. split.
    - intros (k & <- & I). apply in_seq in I. lia.
    - intros H. exists (Z.to_nat z). split; [lia|]. apply in_seq. lia.
  Qed.
  Lemma E_lists : lists E (fun z => face n z /\ In z ex).
  Proof.
    destruct all_lists as [N I]. split; [now apply NoDup_filter|]. intros z. unfold E. now rewrite filter_In, I, isx_true.
  Qed.
  Lemma F_lists : lists F (fun z => face n z /\ ~ In z ex).
  Proof.
    destruct all_lists as [N I]. split; [now apply NoDup_filter|]. intros z. unfold F. rewrite filter_In, I, Bool.negb_true_iff, <- isx_true.
    destruct (isx z); intuition discriminate.
  Qed.
  Lemma split_len (l : list Z) : (length (filter isx l) + length (filter (fun z => negb (isx z)) l) = length l)%nat.
  Proof. induction l as [|x l IH]; simpl; auto. destruct (isx x); simpl; lia. Qed.
  Lemma split_sum (l : list Z) : sum (filter isx l) + sum (filter (fun z => negb (isx z)) l) = sum l.
  Proof. induction l as [|x l IH]; simpl; auto. destruct (isx x); simpl; lia. Qed.
  Lemma all_len : length all = Z.to_nat n.
  Proof. unfold all. now rewrite map_length, seq_length. Qed.
  Lemma all_sum : 2 * sum all = n * (n + 1).
  Proof.
    unfold all. assert (forall k, 2 * sum (map Z.of_nat (seq 1 k)) = Z.of_nat k * (Z.of_nat k + 1)) as H.
    { induction k as [|k IH]; [reflexivity|]. rewrite seq_S, map_app, sum_app, Z.mul_add_distr_l, IH. cbn [map sum fold_right]. lia. }
    rewrite H. rewrite Z2Nat.id by lia. reflexivity.
  Qed.

  Lemma throw_0 rs : throw_of n ex 0 rs <-> exists f, rs = [f] /\ face n f /\ ~ In f ex.
  Proof.
    split.
    - intros (b & f & -> & L & _ & A & B). destruct b; [|discriminate]. exists f. auto.
    - intros (f & -> & A & B). exists [], f. split; [reflexivity|]. split; [reflexivity|]. split; [intros z []|auto].
  Qed.
  Lemma throw_S m rs : throw_of n ex (S m) rs <-> exists a rs', rs = a :: rs' /\ (face n a /\ In a ex) /\ throw_of n ex m rs'.
  Proof.
    split.
    - intros (b & f & -> & L & H & A & B). destruct b as [|a b]; [discriminate|]. exists a, (b ++ [f]). split; [reflexivity|].
      split; [apply H; now left|]. exists b, f. injection L as L. split; auto. split; auto. split; auto. intros z I. apply H. now right.
    - intros (a & rs' & -> & Ha & b & f & -> & L & H & A & B). exists (a :: b), f. split; [reflexivity|]. split; [simpl; now rewrite L|].
      split; auto. intros z [<-|I]; auto.
  Qed.
  Fixpoint seqs (m : nat) : list (list Z) :=
    match m with O => map (fun f => [f]) F | S m' => flat_map (fun a => map (cons a) (seqs m')) E end.
  Lemma cons_flat_NoDup (l : list Z) (m : list (list Z)) : NoDup l -> NoDup m -> NoDup (flat_map (fun a => map (cons a) m) l).
  Proof.
    intros H Hm. induction H as [|a l Hn H IH]; simpl; [constructor|]. apply NoDup_app'; auto.
    - apply NoDup_map_inj; auto. intros x y X. now injection X.
    - intros z Hz Hz'. apply in_map_iff in Hz as (b & <- & _). apply in_flat_map in Hz' as (a' & Ha & Hz').
      apply in_map_iff in Hz' as (b' & X & _). injection X as -> _. contradiction.
  Qed.
  Lemma seqs_lists m : lists (seqs m) (throw_of n ex m).
  Proof.
    destruct E_lists as [NE IE], F_lists as [NF IF]. induction m as [|m [N I]]; split.
    - cbn [seqs]. apply NoDup_map_inj; auto. intros x y X. now injection X.
    - intros rs. rewrite throw_0. cbn [seqs]. rewrite in_map_iff. split.
      + intros (f & <- & H). exists f. apply IF in H as [A B]. auto.
      + intros (f & -> & A & B). exists f. split; auto. apply IF. auto.
    - cbn [seqs]. now apply cons_flat_NoDup.
    - intros rs. rewrite throw_S. cbn [seqs]. rewrite in_flat_map. split.
      + intros (a & Ha & H). apply in_map_iff in H as (rs' & <- & H). exists a, rs'. rewrite <- I. apply IE in Ha. auto.
      + intros (a & rs' & -> & Ha & H). exists a. split; [now apply IE|]. apply in_map. now apply I.
  Qed.
  Lemma flat_len {A} (l : list A) (g : A -> list (list Z)) k : (forall a, length (g a) = k) -> length (flat_map g l) = (length l * k)%nat.
  Proof. intros H. induction l as [|a l IH]; simpl; auto. now rewrite app_length, H, IH. Qed.
  Lemma seqs_len m : length (seqs m) = (length E ^ m * length F)%nat.
  Proof.
    induction m as [|m IH]; cbn [seqs]; [rewrite map_length, Nat.pow_0_r; lia|].
    rewrite (flat_len _ _ (length (seqs m))) by (intros; apply map_length). rewrite IH. cbn [Nat.pow]. lia.
  Qed.
  Lemma sum_cons a l : sum (map sum (map (cons a) l)) = a * Z.of_nat (length l) + sum (map sum l).
  Proof. induction l as [|x l IH]; cbn [map sum fold_right length] in *; unfold sum in *; lia. Qed.
  Lemma sum_flat (l : list Z) (m : list (list Z)) : sum (map sum (flat_map (fun a => map (cons a) m) l)) =
    sum l * Z.of_nat (length m) + Z.of_nat (length l) * sum (map sum m).
  Proof.
    induction l as [|a l IH]; [reflexivity|]. cbn [flat_map]. rewrite map_app, sum_app, IH, sum_cons. cbn [sum fold_right length] in *. fold (sum l). lia.
  Qed.
  Lemma totals_0 : sum (map sum (seqs 0)) = sum F.
  Proof. cbn [seqs]. rewrite map_map. apply sum_singles. Qed.
  Lemma totals_S m : sum (map sum (seqs (S m))) = sum E * Z.of_nat (length (seqs m)) + Z.of_nat (length E) * sum (map sum (seqs m)).
  Proof. cbn [seqs]. apply sum_flat. Qed.

  Lemma rolls_count e f m :
    counted (fun z => face n z /\ In z ex) e -> counted (fun z => face n z /\ ~ In z ex) f ->
    Z.of_nat e + Z.of_nat f = n /\ counted (throw_of n ex m) (e ^ m * f) /\ counted (still_going n ex m) (e ^ m) /\
    counted (rolls n m) (Z.to_nat n ^ m).
  Proof.
    intros He Hf.
    assert (e = length E) as -> by (eapply counted_unique; [exact He|]; destruct E_lists; exists E; auto).
    assert (f = length F) as -> by (eapply counted_unique; [exact Hf|]; destruct F_lists; exists F; auto).
    split; [|split; [|split]].
    - pose proof (split_len all) as H. rewrite all_len in H. fold E F in H. lia.
    - destruct (seqs_lists m) as [N I]. exists (seqs m). split; auto. split; auto. apply seqs_len.
    - assert (forall k, counted (fun rs => length rs = k /\ forall z, In z rs -> face n z /\ In z ex) (length E ^ k)) as H; [|apply H].
      induction k as [|k IH]; [exists [[]]; split; [repeat constructor; auto|]; split; [|reflexivity]|].
      + intros rs. simpl. split; [intros [<-|[]]; split; auto; intros z []|intros [L _]; destruct rs; [auto|discriminate]].
      + cbn [Nat.pow]. eapply counted_iff; [|apply (counted_map2 (fun a l => a :: l)); [|exact He|exact IH]].
        * intros rs. split; [intros (a & l & -> & Ha & L & H); split; [simpl; now rewrite L|intros z [<-|Hz]; auto]|].
          intros [L H]. destruct rs as [|a l]; [discriminate|]. exists a, l. split; auto. split; [apply H; now left|]. split; [now injection L|]. intros z Hz. apply H. now right.
        * intros a b a' b' X. now injection X.
    - assert (counted (face n) (Z.to_nat n)) as Hn by (destruct all_lists; exists all; split; auto; split; auto; apply all_len).
      assert (forall k, counted (fun rs => length rs = k /\ forall z, In z rs -> face n z) (Z.to_nat n ^ k)) as H; [|apply H].
      induction k as [|k IH]; [exists [[]]; split; [repeat constructor; auto|]; split; [|reflexivity]|].
      + intros rs. simpl. split; [intros [<-|[]]; split; auto; intros z []|intros [L _]; destruct rs; [auto|discriminate]].
      + cbn [Nat.pow]. eapply counted_iff; [|apply (counted_map2 (fun a l => a :: l)); [|exact Hn|exact IH]].
        * intros rs. split; [intros (a & l & -> & Ha & L & H); split; [simpl; now rewrite L|intros z [<-|Hz]; auto]|].
          intros [L H]. destruct rs as [|a l]; [discriminate|]. exists a, l. split; auto. split; [apply H; now left|]. split; [now injection L|]. intros z Hz. apply H. now right.
        * intros a b a' b' X. now injection X.
  Qed.

  Section Mean.
    Open Scope Q_scope.
    Let qn := inject_Z n.
    Let r := qnat (length E) / qn.
    Let a := inject_Z (sum E) / qn.
    Let b := inject_Z (sum F) / qn.
    Let mu := inject_Z (n * (n + 1)) / (2 * qnat (length F)).
    Hypothesis HF : (0 < length F)%nat.
    Lemma qn_pos : 0 < qn.
    Proof. unfold qn. change 0 with (inject_Z 0). rewrite <- Zlt_Qlt. lia. Qed.
    Lemma ef : qnat (length E) + qnat (length F) == qn.
    Proof.
      unfold qnat, qn. rewrite <- inject_Z_plus. pose proof (split_len all) as H. rewrite all_len in H. fold E F in H.
      assert (Z.of_nat (length E) + Z.of_nat (length F) = n)%Z as -> by lia. reflexivity.
    Qed.
    Lemma qF_pos : 0 < qnat (length F).
    Proof. unfold qnat. change 0 with (inject_Z 0). rewrite <- Zlt_Qlt. lia. Qed.
    Lemma r_range : 0 <= r /\ r < 1.
    Proof.
      pose proof qn_pos. pose proof ef. pose proof qF_pos. pose proof (qnat_nonneg (length E)). unfold r. split.
      - apply Qle_shift_div_l; lra.
      - apply Qlt_shift_div_r; auto. lra.
    Qed.
    Lemma pow_n m : inject_Z (n ^ Z.of_nat (S m)) == qn * inject_Z (n ^ Z.of_nat m).
    Proof. rewrite Nat2Z.inj_succ, Z.pow_succ_r by lia. now rewrite inject_Z_mult. Qed.
    Lemma pow_pos' m : 0 < inject_Z (n ^ Z.of_nat m).
    Proof. change 0 with (inject_Z 0). rewrite <- Zlt_Qlt. apply Z.pow_pos_nonneg; lia. Qed.
    Lemma count_q m : inject_Z (Z.of_nat (length (seqs m))) / inject_Z (n ^ Z.of_nat (S m)) == rp r m * (1 - r).
    Proof.
      rewrite seqs_len. induction m as [|m IH].
      - cbn [rp Nat.pow]. rewrite Nat.mul_1_l. rewrite (pow_n 0). change (inject_Z (n ^ Z.of_nat 0)) with 1. fold (qnat (length F)).
        pose proof qn_pos. pose proof ef as X. unfold r. setoid_replace (qnat (length F)) with (qn - qnat (length E)) by lra. field. lra.
      - cbn [rp]. rewrite (pow_n (S m)). rewrite <- Qmult_assoc, <- IH. cbn [Nat.pow]. rewrite <- Nat.mul_assoc, Nat2Z.inj_mul, inject_Z_mult.
        fold (qnat (length E)). pose proof qn_pos. pose proof (pow_pos' (S m)). unfold r. field. split; lra.
    Qed.
    Lemma term m : inject_Z (sum (map sum (seqs m))) / inject_Z (n ^ Z.of_nat (S m)) == rp r m * b + (1 - r) * hh r a m.
    Proof.
      induction m as [|m IH].
      - rewrite totals_0. cbn [rp hh]. rewrite (pow_n 0). change (inject_Z (n ^ Z.of_nat 0)) with 1. pose proof qn_pos. unfold b. field. lra.
      - rewrite totals_S. pose proof (count_q m) as C. rewrite (pow_n (S m)). rewrite inject_Z_plus, !inject_Z_mult. fold (qnat (length E)).
        cbn [rp hh]. pose proof qn_pos. pose proof (pow_pos' (S m)) as P. set (p := inject_Z (n ^ Z.of_nat (S m))) in *.
        set (c := inject_Z (Z.of_nat (length (seqs m)))) in *. set (t := inject_Z (sum (map sum (seqs m)))) in *.
        assert ((inject_Z (sum E) * c + qnat (length E) * t) / (qn * p) == a * (c / p) + r * (t / p)) as -> by (unfold a, r; field; split; lra).
        rewrite C, IH. ring.
    Qed.
    Lemma mu_eq : mu * (1 - r) == a + b.
    Proof.
      pose proof qn_pos. pose proof qF_pos. pose proof ef as X. pose proof all_sum as S1. pose proof (split_sum all) as S2. fold E F in S2.
      assert (inject_Z (n * (n + 1)) == 2 * (inject_Z (sum E) + inject_Z (sum F))) as Y.
      { rewrite <- inject_Z_plus, S2. change 2 with (inject_Z 2). rewrite <- inject_Z_mult, S1. reflexivity. }
      unfold mu. rewrite Y. unfold a, b, r. setoid_replace (1 - qnat (length E) / qn) with (qnat (length F) / qn) by (rewrite <- X; field; rewrite X; lra).
      field. split; lra.
    Qed.
    Lemma missing ls M : (forall m, lists (ls m) (throw_of n ex m)) -> mu - expected n ls M == rp r M * mu + hh r a M.
    Proof.
      intros L. induction M as [|M IH]; [cbn [expected rp hh]; ring|]. cbn [expected rp hh].
      assert (sum (map sum (ls M)) = sum (map sum (seqs M))) as ->.
      { apply sum_perm, Permutation_map, (lists_perm _ _ (throw_of n ex M)); [apply L|apply seqs_lists]. }
      rewrite term. pose proof mu_eq as X. setoid_replace (r * rp r M * mu) with (rp r M * (mu - mu * (1 - r))) by ring. rewrite X.
      setoid_replace (mu - (expected n ls M + (rp r M * b + (1 - r) * hh r a M))) with (mu - expected n ls M - (rp r M * b + (1 - r) * hh r a M)) by ring.
      rewrite IH. ring.
    Qed.
    Lemma sum_nonneg (l : list Z) : (forall z, In z l -> 0 <= z)%Z -> (0 <= sum l)%Z.
    Proof. induction l as [|x l IH]; intros H; [reflexivity|]. cbn [sum fold_right]. fold (sum l). pose proof (H x (or_introl eq_refl)). assert (0 <= sum l)%Z by (apply IH; intros; apply H; now right). lia. Qed.
    Lemma mean_bound : exists K, forall M ls, (forall m, lists (ls m) (throw_of n ex m)) ->
      0 <= mu - expected n ls M /\ (mu - expected n ls M) * qnat M <= K.
    Proof.
      destruct r_range as [R0 R1]. pose proof qn_pos. pose proof qF_pos.
      assert (0 <= a) as A0.
      { unfold a. apply Qle_shift_div_l; auto. rewrite Qmult_0_l. change 0 with (inject_Z 0). rewrite <- Zle_Qle. apply sum_nonneg.
        intros z Hz. apply E_lists in Hz as [[Hz _] _]. lia. }
      assert (0 <= mu) as M0.
      { unfold mu. apply Qle_shift_div_l; [lra|]. rewrite Qmult_0_l. change 0 with (inject_Z 0). rewrite <- Zle_Qle. apply Z.mul_nonneg_nonneg; lia. }
      exists (mu / (1 - r) + 4 * a / ((1 - r) * (1 - r))). intros M ls L. rewrite (missing ls M L). now apply tail_bound.
    Qed.
  End Mean.
  Lemma die_mean f : counted (fun z => face n z /\ ~ In z ex) f -> (0 < f)%nat ->
    exists K, forall M ls, (forall m, lists (ls m) (throw_of n ex m)) ->
      (0 <= inject_Z (n * (n + 1)) / (2 * qnat f) - expected n ls M /\
       (inject_Z (n * (n + 1)) / (2 * qnat f) - expected n ls M) * qnat M <= K)%Q.
  Proof.
    intros Hf P. assert (f = length F) as -> by (eapply counted_unique; [exact Hf|]; destruct F_lists; exists F; auto).
    exact (mean_bound P).
  Qed.
End Die.

From Verif Require Import M_Values M_Sampler SpecSampler SpecCtor P_Dice.
Lemma sampled_throws Or : in_support Or -> forall n ex bound s total s',
  throw Or n (Some ex) bound s total s' <->
  exists m rs, (m <= bound)%nat /\ rolled Or n s rs s' /\ throw_of n ex m rs /\ total = sum rs.
Proof.
  intros Sup n ex bound s total s'. split.
  - intros (b & f & R & L & [H N] & ->). exists (length b), (b ++ [f]). split; auto. split; auto.
    pose proof (rolled_range Or Sup _ _ _ _ R) as F. apply Forall_app in F as [F1 F2]. rewrite Forall_forall in F1. inversion F2 as [|? ? F3]; subst. split.
    + exists b, f. split; auto. split; auto. split; [intros z I; split; [now apply F1|now apply H]|]. split; auto.
    + rewrite sum_app. cbn. unfold sum. lia.
  - intros (m & rs & L & R & (b & f & -> & Lb & H & Ff & N) & ->). exists b, f. split; auto. split; [lia|].
    split; [split; auto; intros z I; now apply H|]. rewrite sum_app. cbn. unfold sum. lia.
Qed.
