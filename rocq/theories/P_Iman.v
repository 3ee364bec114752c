(** Cholesky factors, triangular inverses and the re-correlation of scores. *)
From Coq Require Import Reals Qreals Lra Permutation.
From Verif Require Import Base M_Corr M_Iman SpecCorr SpecIman P_Corr P_Induce.
Open Scope R_scope.

(* ---------------------------------------------------------------- finite sums *)
Lemma sum_ext k f g : (forall i, (i < k)%nat -> f i = g i) -> sum k f = sum k g.
Proof. induction k; intros H; cbn; [reflexivity|]. rewrite IHk, H; auto. Qed.
Lemma sum_zero k f : (forall i, (i < k)%nat -> f i = 0) -> sum k f = 0.
Proof. induction k; intros H; cbn; [reflexivity|]. rewrite IHk, H; auto; lra. Qed.
Lemma sum_plus k f g : sum k (fun i => f i + g i) = sum k f + sum k g.
Proof. induction k; cbn; [lra|]. rewrite IHk. lra. Qed.
Lemma sum_scal k c f : sum k (fun i => c * f i) = c * sum k f.
Proof. induction k; cbn; [lra|]. rewrite IHk. lra. Qed.
Lemma sum_scal_r k c f : sum k (fun i => f i * c) = sum k f * c.
Proof. induction k; cbn; [lra|]. rewrite IHk. lra. Qed.
Lemma sum_minus k f g : sum k (fun i => f i - g i) = sum k f - sum k g.
Proof. induction k; cbn; [lra|]. rewrite IHk. lra. Qed.
Lemma sum_swap k m f : sum k (fun i => sum m (fun j => f i j)) = sum m (fun j => sum k (fun i => f i j)).
Proof.
  induction k; cbn; [now rewrite sum_zero|]. rewrite IHk. now rewrite <- sum_plus.
Qed.
Lemma sum_delta k i f : (i < k)%nat -> sum k (fun s => (if Nat.eqb i s then 1 else 0) * f s) = f i.
Proof.
  induction k; intros H; [lia|]. cbn. destruct (Nat.eqb_spec i k) as [-> |N].
  - rewrite sum_zero; [lra|]. intros s Hs. destruct (Nat.eqb_spec k s); [lia|lra].
  - rewrite IHk by lia. lra.
Qed.
Lemma sum_delta_r k i f : (i < k)%nat -> sum k (fun s => f s * (if Nat.eqb s i then 1 else 0)) = f i.
Proof.
  intros H. rewrite <- (sum_delta k i f H). apply sum_ext. intros s _. rewrite Nat.eqb_sym. lra.
Qed.
(** Terms beyond a point vanish. *)
Lemma sum_upto j k f : (j <= k)%nat -> (forall i, (j <= i < k)%nat -> f i = 0) -> sum k f = sum j f.
Proof.
  intros L. induction k; intros Z.
  - now replace j with 0%nat by lia.
  - destruct (Nat.eq_dec j (S k)) as [-> |]; [reflexivity|]. cbn. rewrite IHk, Z by (lia || (intros; apply Z; lia)). lra.
Qed.
Lemma sum_nonneg k f : (forall i, (i < k)%nat -> 0 <= f i) -> 0 <= sum k f.
Proof. induction k; intros H; cbn; [lra|]. pose proof (H k ltac:(lia)). assert (0 <= sum k f) by auto. lra. Qed.
Lemma sum_pos k f i : (forall i, (i < k)%nat -> 0 <= f i) -> (i < k)%nat -> 0 < f i -> 0 < sum k f.
Proof.
  induction k; intros H I P; [lia|]. cbn. assert (0 <= sum k f) by (apply sum_nonneg; auto).
  pose proof (H k ltac:(lia)). destruct (Nat.eq_dec i k) as [-> |]; [lra|]. assert (0 < sum k f) by (apply IHk; auto; lia). lra.
Qed.
Lemma sum_prod k m f g : sum k f * sum m g = sum k (fun i => sum m (fun j => f i * g j)).
Proof. rewrite <- sum_scal_r. apply sum_ext. intros. now rewrite sum_scal. Qed.

(* ---------------------------------------------------------------- products *)
Definition ident (i j : nat) : R := if Nat.eqb i j then 1 else 0.
Definition tr (a : mat) : mat := fun i j => a j i.
Definition same (k : nat) (a b : mat) : Prop := forall i j, (i < k)%nat -> (j < k)%nat -> a i j = b i j.
Lemma mul_assoc k a b c i j : mul k (mul k a b) c i j = mul k a (mul k b c) i j.
Proof.
  unfold mul. rewrite (sum_ext k _ (fun s => sum k (fun t => a i t * b t s * c s j))).
  2:{ intros s _. now rewrite sum_scal_r. }
  rewrite sum_swap. apply sum_ext. intros t _. rewrite <- sum_scal. apply sum_ext. intros. lra.
Qed.
Lemma mul_same k a a' b b' : same k a a' -> same k b b' -> same k (mul k a b) (mul k a' b').
Proof. intros A B i j I J. apply sum_ext. intros s Hs. now rewrite A, B. Qed.
Lemma same_trans k a b c : same k a b -> same k b c -> same k a c.
Proof. intros A B i j I J. rewrite A; auto. Qed.
Lemma same_sym k a b : same k a b -> same k b a.
Proof. intros A i j I J. symmetry. auto. Qed.
Lemma mul_ident_l k a : same k (mul k ident a) a.
Proof. intros i j I J. apply (sum_delta k i (fun s => a s j) I). Qed.
Lemma mul_ident_r k a : same k (mul k a ident) a.
Proof. intros i j I J. apply (sum_delta_r k j (fun s => a i s) J). Qed.

(* ---------------------------------------------------------------- triangular inverses *)
Definition lower (k : nat) (l : mat) : Prop :=
  (forall i j, (i < j)%nat -> (j < k)%nat -> l i j = 0) /\ (forall i, (i < k)%nat -> 0 < l i i).
Lemma inv_stable l k i j : (i < k)%nat -> forall n, (k <= n)%nat -> inv_lower l n i j = inv_lower l k i j.
Proof.
  intros I n. induction n; intros N; [lia|]. destruct (Nat.eq_dec k (S n)) as [-> |]; [reflexivity|].
  cbn [inv_lower]. destruct (Nat.eqb_spec i n); [lia|]. apply IHn. lia.
Qed.
Lemma inv_row l k i j : (i < k)%nat ->
  inv_lower l k i j = (ident i j - sum i (fun s => l i s * inv_lower l k s j)) / l i i.
Proof.
  intros I. rewrite (inv_stable l (S i) i j) by lia. cbn [inv_lower]. rewrite Nat.eqb_refl. unfold ident. do 2 f_equal.
  apply sum_ext. intros s Hs. f_equal. symmetry. apply inv_stable; lia.
Qed.
Lemma inv_right k l : lower k l -> same k (mul k l (inv_lower l k)) ident.
Proof.
  intros [Z P] i j I J. unfold mul. rewrite (sum_upto (S i) k).
  - cbn [sum]. rewrite (inv_row l k i j I). pose proof (P i I). field. lra.
  - lia.
  - intros s Hs. rewrite Z by lia. lra.
Qed.
Lemma inv_is_lower k l : lower k l -> lower k (inv_lower l k).
Proof.
  intros [Z P].
  assert (A : forall i, (i < k)%nat -> forall j, (i < j)%nat -> (j < k)%nat -> inv_lower l k i j = 0).
  { intros i. induction i as [i IH] using lt_wf_ind. intros I j L J. rewrite inv_row by auto.
    unfold ident. destruct (Nat.eqb_spec i j); [lia|]. rewrite sum_zero; [unfold Rdiv; lra|].
    intros s Hs. rewrite IH by lia. lra. }
  split; [intros; apply A; lia|]. intros i I. rewrite inv_row by auto. unfold ident. rewrite Nat.eqb_refl, sum_zero.
  - rewrite Rminus_0_r. apply Rdiv_lt_0_compat; [lra|auto].
  - intros s Hs. rewrite A by lia. lra.
Qed.
Lemma inv_left k l : lower k l -> same k (mul k (inv_lower l k) l) ident.
Proof.
  intros L. pose proof (inv_right k l L) as R1. pose proof (inv_right k _ (inv_is_lower k l L)) as R2.
  set (v := inv_lower l k) in *. set (w := inv_lower v k) in *.
  assert (E : same k l w).
  { apply same_trans with (mul k l ident); [apply same_sym, mul_ident_r|].
    apply same_trans with (mul k l (mul k v w)).
    - apply mul_same; [intros i j _ _; reflexivity|apply same_sym, R2].
    - apply same_trans with (mul k (mul k l v) w); [intros i j _ _; now rewrite mul_assoc|].
      apply same_trans with (mul k ident w); [apply mul_same; [exact R1|intros i j _ _; reflexivity]|apply mul_ident_l]. }
  apply same_trans with (mul k v w); [apply mul_same; [intros i j _ _; reflexivity|exact E]|exact R2].
Qed.

(* ---------------------------------------------------------------- Cholesky factors *)
Definition factor_upto (a : mat) (j : nat) (l : mat) : Prop :=
  (forall i s, (i < s)%nat -> (s < j)%nat -> l i s = 0) /\ (forall s, (s < j)%nat -> 0 < l s s) /\
  (forall i s, (s < j)%nat -> (s <= i)%nat -> a i s = sum (S s) (fun t => l i t * l s t)).
Lemma cholesky_upto a : forall j l, cholesky a j = Some l -> factor_upto a j l.
Proof.
  induction j as [|j IH]; intros l H; cbn [cholesky] in H.
  - repeat split; intros; lia.
  - destruct (cholesky a j) as [l0|]; [|discriminate]. specialize (IH l0 eq_refl) as (Z & P & E).
    set (pivot := a j j - sum j (fun t => l0 j t * l0 j t)) in *.
    destruct (Rlt_dec 0 pivot) as [PP|]; [|discriminate]. injection H as <-.
    assert (SP : 0 < sqrt pivot) by (now apply sqrt_lt_R0).
    split; [|split].
    + intros i s L S. destruct (Nat.eqb_spec s j) as [-> |N].
      * destruct (Nat.ltb_spec i j); [reflexivity|lia].
      * apply Z; lia.
    + intros s S. destruct (Nat.eqb_spec s j) as [-> |N]; [|apply P; lia].
      rewrite Nat.ltb_irrefl. exact SP.
    + intros i s S L. cbn [sum].
      rewrite (sum_ext s _ (fun t => l0 i t * l0 s t)).
      2:{ intros t T. destruct (Nat.eqb_spec t j); [lia|reflexivity]. }
      destruct (Nat.eqb_spec s j) as [-> |N].
      * rewrite Nat.ltb_irrefl. destruct (Nat.ltb_spec i j); [lia|].
        destruct (Nat.eqb_spec i j) as [-> |N'].
        -- rewrite sqrt_sqrt by lra. unfold pivot. lra.
        -- field. lra.
      * rewrite (E i s) by lia. reflexivity.
Qed.
Definition symmetric (k : nat) (a : mat) : Prop := same k a (tr a).
Lemma cholesky_factor a k l : symmetric k a -> cholesky a k = Some l -> lower k l /\ same k a (mul k l (tr l)).
Proof.
  intros Sy H. apply cholesky_upto in H as (Z & P & E). split; [split; assumption|].
  assert (A : forall i j, (j <= i)%nat -> (i < k)%nat -> a i j = mul k l (tr l) i j).
  { intros i j L I. rewrite E by lia. unfold mul, tr. symmetry. apply sum_upto; [lia|].
    intros t T. rewrite (Z j t) by lia. lra. }
  intros i j I J. destruct (Nat.le_gt_cases j i) as [L|L]; [now apply A|].
  rewrite Sy by auto. unfold tr at 1. rewrite A by lia. unfold mul, tr. apply sum_ext. intros. lra.
Qed.
(** The factor exists only of definite matrices ... *)
Lemma total_app a b : total (a ++ b) = total a + total b.
Proof. unfold total. induction a as [|x a IH]; cbn; [lra|]. rewrite IH. lra. Qed.
Lemma total_sum k f : total (map f (seq 0 k)) = sum k f.
Proof.
  induction k; [reflexivity|]. rewrite seq_S, map_app, total_app, IHk. cbn. lra.
Qed.
Lemma quad_sum k a x : real_quad k a x = sum k (fun i => sum k (fun j => x i * a i j * x j)).
Proof. unfold real_quad. rewrite total_sum. apply sum_ext. intros. now rewrite total_sum. Qed.
Lemma quad_factor k a l x : same k a (mul k l (tr l)) ->
  real_quad k a x = sum k (fun t => sum k (fun i => x i * l i t) * sum k (fun i => x i * l i t)).
Proof.
  intros E. rewrite quad_sum.
  rewrite (sum_ext k _ (fun i => sum k (fun j => sum k (fun t => x i * l i t * (x j * l j t))))).
  2:{ intros i I. apply sum_ext. intros j J. rewrite E by auto. unfold mul, tr.
      rewrite <- sum_scal, <- sum_scal_r. apply sum_ext. intros. lra. }
  rewrite (sum_ext k _ (fun i => sum k (fun t => sum k (fun j => x i * l i t * (x j * l j t))))).
  2:{ intros i I. apply sum_swap. }
  rewrite sum_swap. apply sum_ext. intros t T. rewrite sum_prod. reflexivity.
Qed.
Lemma cholesky_definite a k l : symmetric k a -> cholesky a k = Some l -> real_definite k a.
Proof.
  intros Sy H x (i & I & N). destruct (cholesky_factor a k l Sy H) as (L & E). rewrite (quad_factor k a l x E).
  set (y := fun t => sum k (fun i => x i * l i t)).
  assert (Ex : x i = sum k (fun t => y t * inv_lower l k t i)).
  { unfold y. rewrite (sum_ext k _ (fun t => sum k (fun s => x s * (l s t * inv_lower l k t i)))).
    2:{ intros t _. rewrite <- sum_scal_r. apply sum_ext. intros. lra. }
    rewrite sum_swap. rewrite <- (sum_delta_r k i x I). apply sum_ext. intros s S. rewrite sum_scal. f_equal.
    symmetry. apply (inv_right k l L s i S I). }
  destruct (Rlt_dec 0 (sum k (fun t => y t * y t))) as [|Nz]; [assumption|exfalso].
  assert (Y0 : forall t, (t < k)%nat -> y t = 0).
  { intros t T. destruct (Req_dec (y t) 0) as [|Ny]; [assumption|exfalso]. apply Nz.
    apply (sum_pos k _ t); auto; [intros; apply Rle_0_sqr|]. apply (Rsqr_pos_lt _ Ny). }
  apply N. rewrite Ex. apply sum_zero. intros t T. rewrite Y0 by auto. lra.
Qed.
(** ... and of all of them. *)
Lemma quad_ext k a b x : same k a b -> real_quad k a x = real_quad k b x.
Proof. intros E. rewrite !quad_sum. apply sum_ext; intros; apply sum_ext; intros. rewrite E; auto. Qed.
Lemma definite_cholesky a k : symmetric k a -> real_definite k a -> exists l, cholesky a k = Some l.
Proof.
  intros Sy D.
  assert (H : forall j, (j <= k)%nat -> exists l, cholesky a j = Some l).
  { induction j as [|j IH]; intros J; [eexists; reflexivity|]. destruct IH as (l & L); [lia|]. cbn [cholesky]. rewrite L.
    destruct (Rlt_dec 0 (a j j - sum j (fun t => l j t * l j t))) as [|N]; [eexists; reflexivity|exfalso].
    assert (Sj : symmetric j a) by (intros p q P Q; apply Sy; lia).
    destruct (cholesky_factor a j l Sj L) as (Lo & F). pose proof (cholesky_upto a j l L) as (_ & _ & E).
    set (v := inv_lower l j) in *. set (y := fun s => sum j (fun t => l j t * v t s)).
    set (x := fun s => if Nat.ltb s j then - y s else if Nat.eqb s j then 1 else 0).
    assert (W : forall t, (t < j)%nat -> sum j (fun s => y s * l s t) = l j t).
    { intros t T. unfold y. rewrite (sum_ext j _ (fun s => sum j (fun u => l j u * (v u s * l s t)))).
      2:{ intros s _. rewrite <- sum_scal_r. apply sum_ext. intros. lra. }
      rewrite sum_swap. rewrite <- (sum_delta_r j t (l j) T). apply sum_ext. intros u U. rewrite sum_scal. f_equal.
      apply (inv_left j l Lo u t U T). }
    assert (Aj : forall s, (s < j)%nat -> a j s = sum j (fun t => l j t * l s t)).
    { intros s Hs. rewrite E by lia. symmetry. apply sum_upto; [lia|]. intros t T. destruct Lo as [Z _]. rewrite (Z s t) by lia. lra. }
    assert (Pos : 0 < real_quad k a x).
    { apply D. exists j. split; [lia|]. unfold x. rewrite Nat.ltb_irrefl, Nat.eqb_refl. lra. }
    assert (Q : real_quad k a x = a j j - sum j (fun t => l j t * l j t)).
    { rewrite quad_sum. rewrite (sum_upto (S j) k); [|lia|].
      2:{ intros i I. apply sum_zero. intros s _. unfold x at 1. destruct (Nat.ltb_spec i j); [lia|]. destruct (Nat.eqb_spec i j); [lia|lra]. }
      rewrite (sum_ext (S j) _ (fun i => sum (S j) (fun s => x i * a i s * x s))).
      2:{ intros i I. apply sum_upto; [lia|]. intros s Hs. unfold x at 2. destruct (Nat.ltb_spec s j); [lia|]. destruct (Nat.eqb_spec s j); [lia|lra]. }
      cbn [sum].
      assert (Xj : x j = 1) by (unfold x; now rewrite Nat.ltb_irrefl, Nat.eqb_refl).
      assert (Xs : forall s, (s < j)%nat -> x s = - y s) by (intros s Hs; unfold x; destruct (Nat.ltb_spec s j); [reflexivity|lia]).
      rewrite sum_plus, !Xj.
      rewrite (sum_ext j (fun i => sum j (fun s => x i * a i s * x s)) (fun i => sum j (fun s => y i * a i s * y s))).
      2:{ intros i I. apply sum_ext. intros s Hs. rewrite !Xs by auto. lra. }
      rewrite <- quad_sum, (quad_factor j a l y F).
      rewrite (sum_ext j (fun t => sum j (fun i => y i * l i t) * sum j (fun i => y i * l i t)) (fun t => l j t * l j t)).
      2:{ intros t T. now rewrite W. }
      assert (C : sum j (fun s => y s * a j s) = sum j (fun t => l j t * l j t)).
      { rewrite (sum_ext j _ (fun s => sum j (fun t => l j t * (y s * l s t)))).
        2:{ intros s Hs. rewrite Aj by auto. rewrite <- sum_scal. apply sum_ext. intros. lra. }
        rewrite sum_swap. apply sum_ext. intros t T. rewrite sum_scal. now rewrite W. }
      rewrite (sum_ext j (fun i => x i * a i j * 1) (fun i => (-1) * (y i * a j i))).
      2:{ intros i I. rewrite Xs by auto. rewrite (Sy i j) by lia. unfold tr. lra. }
      rewrite (sum_ext j (fun s => 1 * a j s * x s) (fun s => (-1) * (y s * a j s))).
      2:{ intros s Hs. rewrite Xs by auto. lra. }
      rewrite !sum_scal, C. lra. }
    lra. }
  apply H. lia.
Qed.

(* ---------------------------------------------------------------- re-correlation *)
Definition dev (m : nat) (x : mat) (j l : nat) : R :=
  sum m (fun i => (x i j - mean m x j) * (x i l - mean m x l)).
Lemma dev_sym m x j l : dev m x j l = dev m x l j.
Proof. apply sum_ext. intros. lra. Qed.
Definition mixed (k : nat) (x s : mat) : mat := fun i j => sum k (fun l => x i l * s j l).
Lemma mean_mixed m k x s j : mean m (mixed k x s) j = sum k (fun l => mean m x l * s j l).
Proof.
  unfold mean, mixed. rewrite sum_swap. unfold Rdiv. rewrite <- sum_scal_r. apply sum_ext. intros l _.
  rewrite sum_scal_r. lra.
Qed.
Lemma dev_mixed m k x s j l : dev m (mixed k x s) j l = sum k (fun a => sum k (fun b => s j a * dev m x a b * s l b)).
Proof.
  unfold dev at 1. rewrite (sum_ext m _ (fun i => sum k (fun a => sum k (fun b =>
    s j a * s l b * ((x i a - mean m x a) * (x i b - mean m x b)))))).
  2:{ intros i _. rewrite !mean_mixed. unfold mixed. rewrite <- !sum_minus, sum_prod.
      apply sum_ext; intros a _; apply sum_ext; intros b _. lra. }
  rewrite sum_swap. apply sum_ext. intros a _. rewrite sum_swap. apply sum_ext. intros b _.
  rewrite sum_scal. unfold dev. lra.
Qed.
Lemma dev_pos_rows m x j : dev m x j j <> 0 -> (2 <= m)%nat.
Proof.
  intros N. destruct m as [|[|m]]; [| |lia]; exfalso; apply N; unfold dev, mean; cbn; [reflexivity|].
  rewrite Rplus_0_l. unfold Rdiv. rewrite Rinv_1. lra.
Qed.
Lemma corr_equal_spread m x k v : v <> 0 -> (forall a, (a < k)%nat -> dev m x a a = v) ->
  same k (corrcoef m x) (fun a b => dev m x a b / v).
Proof.
  intros N E a b A B. unfold corrcoef, cov. fold (dev m x a b) (dev m x a a) (dev m x b b). rewrite (E a A), (E b B).
  assert (V : 0 < v).
  { assert (0 <= v) by (rewrite <- (E a A); apply sum_nonneg; intros; apply Rle_0_sqr). lra. }
  assert (M : 0 < INR m - 1).
  { rewrite <- (E a A) in N. apply dev_pos_rows in N. apply (le_INR 2) in N. cbn in N. lra. }
  assert (P : 0 < v / (INR m - 1)) by (apply Rdiv_lt_0_compat; assumption).
  pose proof (sqrt_lt_R0 _ P) as SP. pose proof (sqrt_sqrt _ (Rlt_le _ _ P)) as SS.
  set (r := sqrt (v / (INR m - 1))) in *.
  replace (dev m x a b / (INR m - 1) / r / r) with (dev m x a b / (INR m - 1) / (r * r)) by (field; split; lra).
  rewrite SS. field. split; lra.
Qed.
Lemma recorrelated k w t p q : symmetric k w -> symmetric k t -> cholesky w k = Some p -> cholesky t k = Some q ->
  let s := mul k p (inv_lower q k) in
  forall j l, (j < k)%nat -> (l < k)%nat -> sum k (fun a => sum k (fun b => s j a * t a b * s l b)) = w j l.
Proof.
  intros Sw St Hp Hq s j l J L. destruct (cholesky_factor w k p Sw Hp) as (Lp & Fp). destruct (cholesky_factor t k q St Hq) as (Lq & Fq).
  assert (SQ : same k (mul k s q) p).
  { unfold s. apply same_trans with (mul k p (mul k (inv_lower q k) q)); [intros i i' _ _; apply mul_assoc|].
    apply same_trans with (mul k p ident); [|apply mul_ident_r].
    apply mul_same; [intros i i' _ _; reflexivity|apply inv_left; assumption]. }
  rewrite (Fp j l J L).
  rewrite (sum_ext k _ (fun a => sum k (fun b => sum k (fun u => (s j a * q a u) * (s l b * q b u))))).
  2:{ intros a A. apply sum_ext. intros b B. rewrite (Fq a b A B). unfold mul, tr. rewrite <- sum_scal, <- sum_scal_r.
      apply sum_ext. intros. lra. }
  rewrite (sum_ext k _ (fun a => sum k (fun u => sum k (fun b => (s j a * q a u) * (s l b * q b u))))).
  2:{ intros a A. apply sum_swap. }
  rewrite sum_swap. unfold mul at 1, tr. apply sum_ext. intros u U. rewrite <- (sum_prod k k (fun a => s j a * q a u) (fun b => s l b * q b u)).
  f_equal; [apply (SQ j u J U)|apply (SQ l u L U)].
Qed.
Lemma mixed_correlation m k x w p q v : v <> 0 -> (forall a, (a < k)%nat -> dev m x a a = v) ->
  symmetric k w -> cholesky w k = Some p -> cholesky (corrcoef m x) k = Some q ->
  forall j l, (j < k)%nat -> (l < k)%nat -> dev m (mixed k x (mul k p (inv_lower q k))) j l = v * w j l.
Proof.
  intros N E Sw Hp Hq j l J L. pose proof (corr_equal_spread m x k v N E) as C.
  assert (St : symmetric k (corrcoef m x)).
  { intros a b A B. unfold tr. rewrite !C by auto. now rewrite dev_sym. }
  rewrite <- (recorrelated k w (corrcoef m x) p q Sw St Hp Hq j l J L), dev_mixed, <- sum_scal.
  apply sum_ext. intros a A. rewrite <- sum_scal. apply sum_ext. intros b B. rewrite C by auto. field. assumption.
Qed.

(* ---------------------------------------------------------------- lists of scores *)
Lemma combine_seq {A B} (f : nat -> A) (g : nat -> B) m : combine (map f (seq 0 m)) (map g (seq 0 m)) = map (fun i => (f i, g i)) (seq 0 m).
Proof. generalize 0%nat. induction m; intros o; cbn; [reflexivity|]. now rewrite IHm. Qed.
Lemma average_sum m f : average (map f (seq 0 m)) = sum m f / INR m.
Proof. unfold average. now rewrite total_sum, map_length, seq_length. Qed.
Lemma co_deviation_sum m f g : co_deviation (map f (seq 0 m)) (map g (seq 0 m)) =
  sum m (fun i => (f i - sum m f / INR m) * (g i - sum m g / INR m)).
Proof. unfold co_deviation. rewrite combine_seq, map_map, total_sum, !average_sum. reflexivity. Qed.
Lemma co_deviation_dev m x j l : co_deviation (map (fun i => x i j) (seq 0 m)) (map (fun i => x i l) (seq 0 m)) = dev m x j l.
Proof. apply co_deviation_sum. Qed.
Lemma total_perm a b : Permutation a b -> total a = total b.
Proof. unfold total. induction 1; cbn in *; lra. Qed.
Lemma co_deviation_self a : co_deviation a a = total (map (fun y => (y - average a) * (y - average a)) a).
Proof.
  unfold co_deviation. generalize (average a) as c. intros c. f_equal. induction a as [|y a IH]; cbn; [reflexivity|]. now rewrite IH.
Qed.
Lemma co_deviation_perm a b : Permutation a b -> co_deviation a a = co_deviation b b.
Proof.
  intros P. rewrite !co_deviation_self. assert (E : average a = average b).
  { unfold average. now rewrite (total_perm _ _ P), (Permutation_length P). }
  rewrite E. apply total_perm, Permutation_map, P.
Qed.
Lemma rank_perm col : tie_free col -> Permutation (rank_min col) (seq 1 (length col)).
Proof.
  intros T. rewrite rank_min_below. replace (map (fun x => S (below col x)) col) with (map S (map (below col) col)) by (now rewrite map_map).
  rewrite <- seq_shift. apply Permutation_map, tie_free_ranks, T.
Qed.
Lemma vdw_column ppf m ranks j : length (nth j ranks []) = m ->
  map (fun i => vdw ppf m ranks i j) (seq 0 m) = map (fun r => ppf (INR r / (INR m + 1))) (nth j ranks []).
Proof.
  intros L. unfold vdw. rewrite <- (map_map (fun i => nth i (nth j ranks []) 0%nat) (fun r => ppf (INR r / (INR m + 1)))). f_equal.
  rewrite <- L. generalize (nth j ranks []). clear. intros l. induction l as [|a l IH]; cbn; [reflexivity|]. f_equal.
  rewrite <- seq_shift, map_map. exact IH.
Qed.
(** What a successful computation of scores has computed. *)
Lemma new_scores_ok ppf w ranks news : new_scores ppf w ranks = Ok news ->
  let k := length ranks in let m := length (hd [] ranks) in let x := vdw ppf m ranks in
  length w = k /\ (forall c, In c ranks -> length c = m) /\
  (forall j, (j < k)%nat -> dev m x j j <> 0) /\
  exists p q, cholesky (fun i j => Q2R (entry w i j)) k = Some p /\ cholesky (corrcoef m x) k = Some q /\
    news = map (fun j => map (fun i => mixed k x (mul k p (inv_lower q k)) i j) (seq 0 m)) (seq 0 k).
Proof.
  intros H k m x. unfold new_scores in H. fold k m in H. fold x in H.
  destruct (cholesky _ (length w)) as [p|] eqn:Hp; [|discriminate].
  destruct (Nat.eqb_spec (length w) k) as [E|]; [|discriminate]. rewrite E in Hp.
  destruct (forallb _ ranks) eqn:Fr; cbn [negb andb] in H; [|discriminate].
  destruct (existsb _ _) eqn:Ex; [discriminate|].
  destruct (cholesky (corrcoef m x) k) as [q|] eqn:Hq; [|discriminate]. injection H as <-.
  split; [exact E|]. split.
  { intros c I. rewrite forallb_forall in Fr. now apply Nat.eqb_eq, Fr. }
  split.
  { intros j J D. assert (X : existsb (spreadless m x) (seq 0 k) = true); [|congruence].
    apply existsb_exists. exists j. split; [apply in_seq; lia|]. unfold spreadless.
    destruct (Req_EM_T _ 0) as [|N]; [reflexivity|]. exfalso. apply N. exact D. }
  exists p, q. repeat split; auto.
Qed.
Lemma proper_symmetric w k : proper_matrix k w -> symmetric k (fun i j => Q2R (entry w i j)).
Proof. intros (_ & _ & _ & _ & Sy) i j I J. unfold tr. apply Qeq_eqR. apply Sy; assumption. Qed.
Lemma nth_map_seq' {A} (f : nat -> A) k i d : (i < k)%nat -> nth i (map f (seq 0 k)) d = f i.
Proof. apply nth_map_seq. Qed.
Lemma exact_correlation ppf w cols news : proper_matrix (length cols) w -> Forall tie_free cols ->
  new_scores ppf w (map rank_min cols) = Ok news ->
  length news = length cols /\
  forall i j, (i < length cols)%nat -> (j < length cols)%nat -> pearson (nth i news []) (nth j news []) = Q2R (entry w i j).
Proof.
  intros PM TF H. apply new_scores_ok in H as (Lw & Lc & D & p & q & Hp & Hq & ->).
  rewrite (map_length rank_min cols) in Lw, D, Hp, Hq. set (ranks := map rank_min cols) in *.
  set (m := length (hd [] ranks)) in *. set (x := vdw ppf m ranks) in *. set (k := length cols) in *.
  replace (length ranks) with k by (unfold ranks, k; now rewrite map_length).
  split; [now rewrite map_length, seq_length|]. intros i j I J. rewrite !nth_map_seq' by assumption.
  assert (Lr : forall a, (a < k)%nat -> length (nth a ranks []) = m).
  { intros a A. apply Lc, nth_In. unfold ranks. rewrite map_length. exact A. }
  assert (P : forall a, (a < k)%nat -> Permutation (nth a ranks []) (seq 1 m)).
  { intros a A. specialize (Lr a A). unfold ranks in Lr |- *. rewrite (nth_map2 rank_min cols a [] []) in * by exact A.
    rewrite rank_length in Lr. rewrite <- Lr. apply rank_perm. rewrite Forall_forall in TF. apply TF, nth_In, A. }
  set (v := dev m x 0 0).
  assert (E : forall a, (a < k)%nat -> dev m x a a = v).
  { intros a A. unfold v. rewrite <- !co_deviation_dev. apply co_deviation_perm. unfold x. rewrite !vdw_column by (apply Lr; lia).
    apply Permutation_map. transitivity (seq 1 m); [|symmetry]; apply P; lia. }
  assert (N : v <> 0) by (unfold v; apply D; lia).
  pose proof (mixed_correlation m k x _ p q v N E (proper_symmetric w k PM) Hp Hq) as C.
  unfold pearson. rewrite !co_deviation_dev, !C by assumption. destruct PM as (_ & _ & Dg & _ & _).
  assert (One : forall a, (a < k)%nat -> Q2R (entry w a a) = 1).
  { intros a A. rewrite (Qeq_eqR _ _ (Dg a A)). unfold Q2R. cbn. lra. }
  rewrite !One by assumption.
  assert (V : 0 < v).
  { assert (0 <= v) by (apply sum_nonneg; intros; apply Rle_0_sqr). lra. }
  rewrite !Rmult_1_r, sqrt_square by lra. field. assumption.
Qed.

(* ---------------------------------------------------------------- the contracts of M_Corr *)
Lemma rank_real_length l : length (rank_real l) = length l.
Proof. apply map_length. Qed.
Lemma vdw_shaped ppf : well_shaped (vdw_scores ppf).
Proof.
  intros w r news H. unfold vdw_scores in H. destruct (new_scores ppf w r) as [ns|] eqn:E; [|discriminate]. injection H as <-.
  apply new_scores_ok in E as (_ & L & _ & p & q & _ & _ & ->). set (m := length (hd [] r)) in *.
  rewrite map_map. set (h := fun j => map _ _). assert (Lh : forall j, length (h j) = m).
  { intros j. unfold h. now rewrite map_length, rank_real_length, map_length, seq_length. }
  clearbody h m. revert L. generalize 0%nat. induction r as [|c r IH]; intros o L; cbn; constructor.
  - rewrite Lh. apply L. now left.
  - apply IH. intros c' I. apply L. now right.
Qed.
Lemma sum_shift k f : sum (S k) f = f 0%nat + sum k (fun i => f (S i)).
Proof. induction k; cbn in *; lra. Qed.
Lemma dot_sum : forall a b, length a = length b -> Q2R (dot a b) = sum (length a) (fun i => Q2R (nth i a 0%Q) * Q2R (nth i b 0%Q)).
Proof.
  induction a as [|x a IH]; intros [|y b] L; cbn [length] in *; try lia; [unfold Q2R; cbn; lra|].
  rewrite dot_cons, Q2R_plus, Q2R_mult, IH by lia. rewrite sum_shift. reflexivity.
Qed.
Lemma quad_real w x : (forall row, In row w -> length row = length w) -> length x = length w ->
  Q2R (quad w x) = real_quad (length w) (fun i j => Q2R (entry w i j)) (fun i => Q2R (nth i x 0%Q)).
Proof.
  intros Rows Lx. unfold quad. rewrite dot_sum by (now rewrite map_length). rewrite quad_sum, Lx. apply sum_ext. intros i I.
  rewrite (nth_map2 _ _ _ _ []) by exact I. rewrite dot_sum by (rewrite Lx; apply Rows, nth_In, I).
  rewrite (Rows (nth i w [])) by (apply nth_In, I). rewrite <- sum_scal. apply sum_ext. intros j J. unfold entry. lra.
Qed.
Lemma vdw_cholesky ppf : cholesky_test (vdw_scores ppf).
Proof.
  intros k w r PM ND. unfold vdw_scores, new_scores.
  destruct (cholesky (fun i j => Q2R (entry w i j)) (length w)) as [l|] eqn:C; [|reflexivity].
  exfalso. apply ND. destruct PM as (Lw & Rows & _ & _ & Sy). 
  assert (SyR : symmetric (length w) (fun i j => Q2R (entry w i j))).
  { intros i j I J. unfold tr. apply Qeq_eqR, Sy; lia. }
  pose proof (cholesky_definite _ _ _ SyR C) as D.
  intros x Lx (y & Iy & Ny). apply Rlt_Qlt. replace (Q2R 0) with 0 by (unfold Q2R; cbn; lra).
  rewrite quad_real by (auto; intros row Ir; rewrite Lw; auto). apply D. apply (In_nth _ _ 0%Q) in Iy as (i & I & <-). exists i. split; [lia|].
  intros Z. apply Ny. apply eqR_Qeq. rewrite Z. unfold Q2R. cbn. lra.
Qed.

(** Ranks of real numbers. *)
Definition belowR (l : list R) (x : R) : nat := length (filter (fun y => if Rlt_dec y x then true else false) l).
Lemma belowR_mono l a b : a <= b -> (belowR l a <= belowR l b)%nat.
Proof.
  intros H. unfold belowR. apply filter_le. intros y _. destruct (Rlt_dec y a), (Rlt_dec y b); auto. lra.
Qed.
Lemma belowR_lt l a b : In a l -> a < b -> (belowR l a < belowR l b)%nat.
Proof.
  intros I H. unfold belowR. apply (filter_lt _ _ l a); auto.
  - intros y _. destruct (Rlt_dec y a), (Rlt_dec y b); auto. lra.
  - destruct (Rlt_dec a a); [lra|reflexivity].
  - destruct (Rlt_dec a b); [reflexivity|contradiction].
Qed.
Lemma rank_real_nth l i : (i < length l)%nat -> nth i (rank_real l) 0%nat = S (belowR l (nth i l 0)).
Proof. intros H. unfold rank_real. now rewrite (nth_map2 _ _ _ _ 0). Qed.
Definition as_scores (l : list R) : list Q := map (fun r => inject_Z (Z.of_nat r)) (rank_real l).
Lemma as_scores_length l : length (as_scores l) = length l.
Proof. unfold as_scores. now rewrite map_length, rank_real_length. Qed.
Lemma as_scores_nth l i : (i < length l)%nat -> nth i (as_scores l) 0%Q = inject_Z (Z.of_nat (S (belowR l (nth i l 0)))).
Proof. intros H. unfold as_scores. rewrite (nth_map2 _ _ _ _ 0%nat) by (now rewrite rank_real_length). now rewrite rank_real_nth. Qed.
Lemma as_scores_le l i j : (i < length l)%nat -> (j < length l)%nat ->
  ((nth i (as_scores l) 0 <= nth j (as_scores l) 0)%Q <-> nth i l 0 <= nth j l 0).
Proof.
  intros I J. rewrite !as_scores_nth by assumption. rewrite <- Zle_Qle. split.
  - intros H. destruct (Rle_lt_dec (nth i l 0) (nth j l 0)) as [|L]; [assumption|].
    pose proof (belowR_lt l _ _ (nth_In l 0 J) L). lia.
  - intros H. pose proof (belowR_mono l _ _ H). lia.
Qed.
Lemma as_scores_tie_free l : NoDup l -> tie_free (as_scores l).
Proof.
  intros N i j I J E. rewrite as_scores_length in I, J. apply (proj1 (NoDup_nth l 0) N i j I J).
  apply Rle_antisym; apply (as_scores_le l); auto; rewrite E; apply Qle_refl.
Qed.
(** The first variable's scores are an increasing function of its ranks. *)
Lemma first_row k p q : lower k p -> lower k q -> (0 < k)%nat ->
  let s := mul k p (inv_lower q k) in 0 < s 0%nat 0%nat /\ forall l, (0 < l < k)%nat -> s 0%nat l = 0.
Proof.
  intros [Zp Pp] Lq K s. destruct (inv_is_lower k q Lq) as [Zv Pv]. unfold s, mul.
  assert (E : forall l, sum k (fun t => p 0%nat t * inv_lower q k t l) = p 0%nat 0%nat * inv_lower q k 0%nat l).
  { intros l. rewrite (sum_upto 1 k); [cbn [sum]; lra|lia|]. intros t T. rewrite Zp by lia. lra. }
  rewrite E. split; [apply Rmult_lt_0_compat; auto|]. intros l L. rewrite E, Zv by lia. lra.
Qed.
Lemma cholesky_lower a k l : cholesky a k = Some l -> lower k l.
Proof. intros H. apply cholesky_upto in H as (Z & P & _). split; assumption. Qed.
Lemma first_column ppf w ranks news : new_scores ppf w ranks = Ok news -> (0 < length ranks)%nat ->
  exists c, 0 < c /\ hd [] news = map (fun r => ppf (INR r / (INR (length (hd [] ranks)) + 1)) * c) (hd [] ranks).
Proof.
  intros H K. apply new_scores_ok in H as (_ & Lc & _ & p & q & Hp & Hq & ->). set (m := length (hd [] ranks)) in *.
  set (k := length ranks) in *. set (x := vdw ppf m ranks) in *.
  pose proof (cholesky_lower _ _ _ Hp) as Lp. pose proof (cholesky_lower _ _ _ Hq) as Lq. destruct (first_row k p q Lp Lq K) as (P & Z).
  exists (mul k p (inv_lower q k) 0%nat 0%nat). split; [exact P|].
  destruct k as [|k'] eqn:Ek; [lia|]. cbn [seq map hd].
  assert (H0 : hd [] ranks = nth 0 ranks []) by (destruct ranks; reflexivity).
  rewrite H0, <- (map_map (fun r => ppf (INR r / (INR m + 1))) (fun y => y * mul (S k') p (inv_lower q (S k')) 0%nat 0%nat)).
  rewrite <- vdw_column by (rewrite <- H0; reflexivity). rewrite map_map. apply map_ext_in. intros i _. fold x.
  unfold mixed. rewrite (sum_upto 1 (S k')); [cbn [sum]; lra|lia|]. intros l L. rewrite Z by lia. lra.
Qed.
Lemma quantile_lt ppf m a b : increasing_quantile ppf -> (1 <= a)%nat -> (a < b)%nat -> (b <= m)%nat ->
  ppf (INR a / (INR m + 1)) < ppf (INR b / (INR m + 1)).
Proof.
  intros Q A L B. assert (P : 0 < INR m + 1) by (pose proof (pos_INR m); lra).
  assert (0 < / (INR m + 1)) by (now apply Rinv_0_lt_compat).
  apply lt_INR in L. apply (le_INR 1) in A. apply le_INR in B. cbn in A. apply Q.
  - apply Rdiv_lt_0_compat; lra.
  - unfold Rdiv. apply Rmult_lt_compat_r; lra.
  - apply (Rmult_lt_reg_r (INR m + 1)); [exact P|]. unfold Rdiv. rewrite Rmult_assoc, Rinv_l by lra. lra.
Qed.
Lemma vdw_first ppf : increasing_quantile ppf -> first_kept (vdw_scores ppf).
Proof.
  intros Q w c0 cs news H. unfold vdw_scores in H.
  destruct (new_scores ppf w (map rank_min (c0 :: cs))) as [ns|] eqn:E; [|discriminate]. injection H as <-.
  destruct (first_column ppf w _ ns E) as (c & C & F); [cbn; lia|]. cbn [map hd] in F. rewrite rank_length in F.
  set (m := length c0) in *. set (g := fun r => ppf (INR r / (INR m + 1)) * c) in *.
  assert (Hd : hd [] (map (fun c => map (fun r => inject_Z (Z.of_nat r)) (rank_real c)) ns) = as_scores (hd [] ns)) by (destruct ns; reflexivity).
  rewrite Hd, F. exists (fun r => inject_Z (Z.of_nat (S (belowR (map g (rank_min c0)) (g r))))). split.
  - unfold as_scores, rank_real. rewrite !map_map. reflexivity.
  - intros a b A B L. rewrite <- Zlt_Qlt. assert (g a < g b).
    { unfold g. apply Rmult_lt_compat_r; [exact C|]. apply ranks_range in A, B. apply quantile_lt; auto; unfold m; lia. }
    pose proof (belowR_lt (map g (rank_min c0)) (g a) (g b) (in_map g _ _ A) H). lia.
Qed.

(* ---------------------------------------------------------------- the induced order *)
Lemma induced ppf argsort spearman g cols out : sorts argsort -> proper_matrix (length cols) (wanted g) ->
  is_identity (wanted g) = false -> Forall tie_free cols ->
  induce_correlation argsort (vdw_scores ppf) spearman g cols = Ok out ->
  exists news : list (list R), new_scores ppf (wanted g) (map rank_min cols) = Ok news /\
    (forall i j, (i < length cols)%nat -> (j < length cols)%nat -> pearson (nth i news []) (nth j news []) = Q2R (entry (wanted g) i j)) /\
    forall i, (i < length cols)%nat -> length (nth i news []) = length (nth i cols []) /\
      (NoDup (nth i news []) -> Permutation (nth i out []) (nth i cols []) /\
         forall a b, (a < length (nth i cols []))%nat -> (b < length (nth i cols []))%nat ->
           (nth a (nth i news []) 0 <= nth b (nth i news []) 0)%R -> (nth a (nth i out []) 0 <= nth b (nth i out []) 0)%Q).
Proof.
  intros SO PM NI TF H.
  pose proof (induce_ok argsort (vdw_scores ppf) spearman g cols out (vdw_shaped ppf) H) as [(C & _)|(_ & L & qs & S & Lq & CC & _)]; [congruence|].
  pose proof S as S'. unfold vdw_scores in S. destruct (new_scores ppf (wanted g) (map rank_min cols)) as [news|] eqn:E; [|discriminate].
  injection S as <-. exists news. split; [reflexivity|]. destruct (exact_correlation ppf _ _ _ PM TF E) as (Ln & P). split; [exact P|].
  intros i I. destruct (CC i I) as (LL & _).
  assert (N : nth i (map (fun c => map (fun r => inject_Z (Z.of_nat r)) (rank_real c)) news) [] = as_scores (nth i news [])).
  { rewrite (nth_map2 _ _ _ _ []) by lia. reflexivity. }
  rewrite N, as_scores_length in LL. split; [exact LL|]. intros ND.
  destruct (induce_columns argsort (vdw_scores ppf) spearman g cols out i SO (vdw_shaped ppf) H I) as (_ & _ & _ & K).
  destruct (K _ S') as (K1 & K2); [rewrite N; now apply as_scores_tie_free|]. split; [exact K1|].
  destruct (K2 NI) as (_ & K3). rewrite N in K3. intros a b A B Hab. apply K3; rewrite ?as_scores_length; try lia.
  apply as_scores_le; try lia. exact Hab.
Qed.

(* ---------------------------------------------------------------- when scores exist *)
Lemma corr_pearson ppf m ranks k : (forall j, (j < k)%nat -> length (nth j ranks []) = m) ->
  (forall j, (j < k)%nat -> dev m (vdw ppf m ranks) j j <> 0) ->
  same k (corrcoef m (vdw ppf m ranks)) (fun i j => pearson (map (fun r => ppf (INR r / (INR m + 1))) (nth i ranks []))
                                                          (map (fun r => ppf (INR r / (INR m + 1))) (nth j ranks []))).
Proof.
  intros L D i j I J. unfold pearson. rewrite <- !vdw_column by auto. rewrite !co_deviation_dev. set (x := vdw ppf m ranks) in *.
  unfold corrcoef, cov. fold (dev m x i j) (dev m x i i) (dev m x j j).
  assert (P : forall j, (j < k)%nat -> 0 < dev m x j j).
  { intros l Hl. assert (0 <= dev m x l l) by (apply sum_nonneg; intros; apply Rle_0_sqr). specialize (D l Hl). lra. }
  assert (M : 0 < INR m - 1).
  { pose proof (dev_pos_rows m x i (D i I)) as G. apply (le_INR 2) in G. cbn in G. lra. }
  pose proof (P i I) as Pi. pose proof (P j J) as Pj.
  rewrite !sqrt_div_alt by exact M. rewrite sqrt_mult by lra.
  pose proof (sqrt_lt_R0 _ Pi). pose proof (sqrt_lt_R0 _ Pj). pose proof (sqrt_lt_R0 _ M). pose proof (sqrt_sqrt (INR m - 1) (Rlt_le _ _ M)) as SS.
  rewrite <- SS at 1. field. repeat split; lra.
Qed.
Lemma dev_zero m x j : dev m x j j = 0 -> forall i, (i < m)%nat -> x i j = mean m x j.
Proof.
  intros D i I. destruct (Req_dec (x i j - mean m x j) 0) as [|N]; [lra|exfalso].
  assert (0 < dev m x j j); [|lra]. apply (sum_pos m _ i); auto; [intros; apply Rle_0_sqr|]. apply (Rsqr_pos_lt _ N).
Qed.
Lemma varied_spread ppf m cols j : increasing_quantile ppf -> (j < length cols)%nat -> length (nth j cols []) = m ->
  varied (nth j cols []) -> dev m (vdw ppf m (map rank_min cols)) j j <> 0.
Proof.
  intros Q J L (a & b & A & B & AB) D. pose proof (dev_zero _ _ _ D) as Z.
  apply (In_nth _ _ 0%Q) in A as (i & I & Ea). apply (In_nth _ _ 0%Q) in B as (i' & I' & Eb). rewrite L in I, I'.
  pose proof (Z i I) as E1. pose proof (Z i' I') as E2. rewrite <- E2 in E1. unfold vdw in E1.
  rewrite (nth_map2 rank_min cols j [] []) in E1 by exact J. rewrite !rank_nth in E1 by lia. rewrite Ea, Eb in E1.
  assert (In a (nth j cols [])) by (rewrite <- Ea; apply nth_In; lia).
  assert (In b (nth j cols [])) by (rewrite <- Eb; apply nth_In; lia).
  pose proof (below_lt _ a b H AB). pose proof (below_bound _ b H0).
  assert (ppf (INR (S (below (nth j cols []) a)) / (INR m + 1)) < ppf (INR (S (below (nth j cols []) b)) / (INR m + 1))).
  { apply quantile_lt; auto; lia. }
  lra.
Qed.
Lemma definite_same k a b : same k a b -> real_definite k a -> real_definite k b.
Proof. intros E D x N. rewrite <- (quad_ext k a b x E). now apply D. Qed.
Lemma corrcoef_symmetric m x k : symmetric k (corrcoef m x).
Proof.
  intros a b A B. unfold tr, corrcoef, cov. fold (dev m x a b) (dev m x b a). rewrite (dev_sym m x a b). unfold Rdiv. lra.
Qed.
Lemma outcome ppf w cols m : increasing_quantile ppf -> proper_matrix (length cols) w -> cols <> [] ->
  (forall c, In c cols -> length c = m /\ varied c) ->
  let definite_wanted := real_definite (length cols) (fun i j => Q2R (entry w i j)) in
  let definite_scores := real_definite (length cols)
    (fun i j => pearson (score_column ppf (nth i cols [])) (score_column ppf (nth j cols []))) in
  (definite_wanted -> definite_scores -> exists news, new_scores ppf w (map rank_min cols) = Ok news) /\
  (~ (definite_wanted /\ definite_scores) -> new_scores ppf w (map rank_min cols) = Err LinAlgError).
Proof.
  intros Q PM NE V dw ds. set (k := length cols) in *. pose proof (proper_symmetric w k PM) as Sy.
  assert (Lw : length w = k) by (now destruct PM).
  assert (Hm : length (hd [] (map rank_min cols)) = m).
  { destruct cols as [|c cols]; [contradiction|]. cbn. rewrite rank_length. apply V. now left. }
  assert (Fr : forallb (fun c => Nat.eqb (length c) m) (map rank_min cols) = true).
  { apply forallb_forall. intros r I. apply in_map_iff in I as (c & <- & I). apply Nat.eqb_eq. rewrite rank_length. now apply V. }
  set (x := vdw ppf m (map rank_min cols)).
  assert (D : forall j, (j < k)%nat -> dev m x j j <> 0).
  { intros j J. apply varied_spread; auto; apply V, nth_In, J. }
  assert (Ex : existsb (spreadless m x) (seq 0 k) = false).
  { apply not_true_is_false. intros H. apply existsb_exists in H as (j & I & H). apply in_seq in I.
    unfold spreadless in H. destruct (Req_EM_T _ 0) as [Z|]; [|discriminate]. apply (D j); [lia|exact Z]. }
  assert (Same : same k (corrcoef m x) (fun i j => pearson (score_column ppf (nth i cols [])) (score_column ppf (nth j cols [])))).
  { intros i j I J. unfold x. rewrite (corr_pearson ppf m (map rank_min cols) k); auto.
    - unfold score_column. rewrite !(nth_map2 rank_min cols _ [] []) by assumption.
      rewrite !(proj1 (V _ (nth_In cols [] I))), !(proj1 (V _ (nth_In cols [] J))). reflexivity.
    - intros l Hl. rewrite (nth_map2 rank_min cols _ [] []) by assumption. rewrite rank_length. apply V, nth_In, Hl. }
  unfold new_scores. rewrite Hm, Lw, map_length. fold k x. rewrite Fr, Nat.eqb_refl, Ex. cbn [negb andb].
  split.
  - intros W S. destruct (definite_cholesky _ k Sy W) as (p & ->).
    destruct (definite_cholesky (corrcoef m x) k (corrcoef_symmetric m x k)) as (q & ->); [|eexists; reflexivity].
    apply (definite_same k _ _ (same_sym _ _ _ Same)). exact S.
  - intros N. destruct (cholesky _ k) as [p|] eqn:Cp; [|reflexivity].
    destruct (cholesky (corrcoef m x) k) as [q|] eqn:Cq; [|reflexivity]. exfalso. apply N. split.
    + exact (cholesky_definite _ _ _ Sy Cp).
    + apply (definite_same k _ _ Same). exact (cholesky_definite _ _ _ (corrcoef_symmetric m x k) Cq).
Qed.
(** One row has no spread. *)
Lemma one_row ppf w cols p : length w = length cols -> cols <> [] -> (forall c, In c cols -> length c = 1%nat) ->
  cholesky (fun i j => Q2R (entry w i j)) (length w) = Some p ->
  new_scores ppf w (map rank_min cols) = Err (ValueError "array must not contain infs or NaNs").
Proof.
  intros Lw NE L C. unfold new_scores. rewrite C, map_length, <- Lw, Nat.eqb_refl.
  assert (Hm : length (hd [] (map rank_min cols)) = 1%nat).
  { destruct cols as [|c cols]; [contradiction|]. cbn. rewrite rank_length. apply L. now left. }
  rewrite Hm. assert (Fr : forallb (fun c => Nat.eqb (length c) 1) (map rank_min cols) = true).
  { apply forallb_forall. intros r I. apply in_map_iff in I as (c & <- & I). apply Nat.eqb_eq. rewrite rank_length. now apply L. }
  rewrite Fr. cbn [negb andb]. replace (existsb _ _) with true; [reflexivity|]. symmetry. apply existsb_exists. exists 0%nat. split.
  - apply in_seq. destruct cols; [contradiction|]. cbn in Lw. lia.
  - unfold spreadless. destruct (Req_EM_T _ 0) as [|N]; [reflexivity|]. exfalso. apply N. unfold mean. cbn.
    rewrite !Rplus_0_l. unfold Rdiv. rewrite Rinv_1. lra.
Qed.

(* ---------------------------------------------------------------- two variables *)
Lemma definite_two a : a 0%nat 0%nat = 1 -> a 1%nat 1%nat = 1 -> a 0%nat 1%nat = a 1%nat 0%nat ->
  a 1%nat 0%nat * a 1%nat 0%nat < 1 -> real_definite 2 a.
Proof.
  intros A B C D x (i & I & N). rewrite quad_sum. cbn. rewrite A, B, C. set (r := a 1%nat 0%nat) in *.
  replace (0 + (0 + x 0%nat * 1 * x 0%nat + x 0%nat * r * x 1%nat) + (0 + x 1%nat * r * x 0%nat + x 1%nat * 1 * x 1%nat))
    with ((x 0%nat + r * x 1%nat) * (x 0%nat + r * x 1%nat) + (1 - r * r) * (x 1%nat * x 1%nat)) by lra.
  pose proof (Rle_0_sqr (x 0%nat + r * x 1%nat)) as S0. unfold Rsqr in S0.
  destruct (Req_dec (x 1%nat) 0) as [Z|Z].
  - assert (i = 0%nat). { destruct i as [|[|]]; [reflexivity|contradiction|lia]. } subst i.
    rewrite Z. pose proof (Rsqr_pos_lt _ N) as P. unfold Rsqr in P. lra.
  - pose proof (Rsqr_pos_lt _ Z) as P. unfold Rsqr in P. assert (0 < (1 - r * r) * (x 1%nat * x 1%nat)) by (apply Rmult_lt_0_compat; lra). lra.
Qed.
Lemma cholesky_two a l : a 0%nat 0%nat = 1 -> a 1%nat 1%nat = 1 -> cholesky a 2 = Some l ->
  l 0%nat 0%nat = 1 /\ l 0%nat 1%nat = 0 /\ l 1%nat 0%nat = a 1%nat 0%nat /\ l 1%nat 1%nat = sqrt (1 - a 1%nat 0%nat * a 1%nat 0%nat).
Proof.
  intros A B H. apply cholesky_upto in H as (Z & P & E).
  pose proof (E 0%nat 0%nat ltac:(lia) ltac:(lia)) as E00. pose proof (E 1%nat 0%nat ltac:(lia) ltac:(lia)) as E10.
  pose proof (E 1%nat 1%nat ltac:(lia) ltac:(lia)) as E11. cbn [sum] in *. rewrite A in E00. rewrite B in E11.
  pose proof (P 0%nat ltac:(lia)) as P0. pose proof (P 1%nat ltac:(lia)) as P1.
  assert (L00 : l 0%nat 0%nat = 1).
  { apply (Rsqr_inj (l 0%nat 0%nat) 1); unfold Rsqr; lra. }
  split; [exact L00|]. split; [apply Z; lia|]. rewrite L00 in *. split; [lra|].
  replace (1 - a 1%nat 0%nat * a 1%nat 0%nat) with (l 1%nat 1%nat * l 1%nat 1%nat); [|rewrite E10; lra].
  symmetry. apply sqrt_square. lra.
Qed.

(** Two columns in the same order make the correlations of the scores singular. *)
Lemma same_order_fails ppf w cols m i j : increasing_quantile ppf -> proper_matrix (length cols) w ->
  (forall c, In c cols -> length c = m /\ varied c) ->
  (i < length cols)%nat -> (j < length cols)%nat -> i <> j -> rank_min (nth i cols []) = rank_min (nth j cols []) ->
  new_scores ppf w (map rank_min cols) = Err LinAlgError.
Proof.
  intros Q PM V I J N E. assert (NE : cols <> []) by (intros ->; cbn in I; lia).
  destruct (outcome ppf w cols m Q PM NE V) as (_ & H). apply H. intros (_ & D).
  set (a := fun i j => pearson _ _) in D.
  assert (Sc : score_column ppf (nth i cols []) = score_column ppf (nth j cols [])).
  { unfold score_column. rewrite E, (proj1 (V _ (nth_In cols [] I))), (proj1 (V _ (nth_In cols [] J))). reflexivity. }
  set (x := fun s => (if Nat.eqb s i then 1 else 0) - (if Nat.eqb s j then 1 else 0)).
  assert (X : 0 < real_quad (length cols) a x).
  { apply D. exists i. split; [exact I|]. unfold x. rewrite Nat.eqb_refl. destruct (Nat.eqb_spec i j); [contradiction|lra]. }
  rewrite quad_sum in X. rewrite (sum_ext (length cols) _ (fun _ => 0)) in X; [|].
  - assert (Z : forall n, sum n (fun _ => 0) = 0) by (induction n; cbn; lra). rewrite Z in X. lra.
  - intros s _. rewrite (sum_ext _ _ (fun t => x s * ((a s t) * (if Nat.eqb t i then 1 else 0)) + (- x s) * (a s t * (if Nat.eqb t j then 1 else 0)))).
    2:{ intros t _. unfold x at 2. lra. }
    rewrite sum_plus, !sum_scal, !sum_delta_r by assumption. unfold a. rewrite Sc. lra.
Qed.
Lemma vdw_no_diversity ppf m r : vdw_scores ppf m r <> Err diversity_error.
Proof.
  unfold vdw_scores, new_scores. destruct (cholesky _ _); [|discriminate].
  repeat match goal with |- context [if ?b then _ else _] => destruct b end; try discriminate; destruct (cholesky _ _); discriminate.
Qed.
