(** A symmetric matrix without negative eigenvalues is semidefinite (C52). *)
From Coq Require Import Reals Qreals Lra Lia Classical.
From Verif Require Import Base M_Values M_Sampler M_Corr M_Iman SpecCorr SpecIman SpecEigen P_Corr P_Induce P_Iman.
Open Scope R_scope.

Section Real.
  Variable k : nat.
  Variable a : nat -> nat -> R.
  Hypothesis Sy : symmetric k a.

  Definition norm2 (x : nat -> R) : R := sum k (fun i => x i * x i).
  Definition shift (l : R) : mat := fun i j => a i j - l * ident i j.
  Definition nonzero (x : nat -> R) : Prop := exists i, (i < k)%nat /\ x i <> 0.
  Lemma norm2_nonneg x : 0 <= norm2 x.
  Proof. apply sum_nonneg. intros. apply Rle_0_sqr. Qed.
  Lemma norm2_pos x : nonzero x -> 0 < norm2 x.
  Proof.
    intros (i & I & N). apply (sum_pos k _ i); [intros; apply Rle_0_sqr|exact I|]. now apply Rsqr_pos_lt in N.
  Qed.
  Lemma norm2_entry x i : (i < k)%nat -> x i * x i <= norm2 x.
  Proof.
    intros I. rewrite <- (sum_delta k i (fun i => x i * x i) I). unfold norm2.
    assert (H : 0 <= sum k (fun s => x s * x s - (if Nat.eqb i s then 1 else 0) * (x s * x s))).
    { apply sum_nonneg. intros s _. pose proof (Rle_0_sqr (x s)) as P. unfold Rsqr in P. destruct (Nat.eqb i s); lra. }
    rewrite sum_minus in H. lra.
  Qed.
  Lemma quad_shift l x : real_quad k (shift l) x = real_quad k a x - l * norm2 x.
  Proof.
    rewrite !quad_sum. unfold norm2. rewrite <- sum_scal, <- sum_minus. apply sum_ext. intros i I.
    unfold shift. rewrite (sum_ext k _ (fun j => x i * a i j * x j - (l * x i) * (ident i j * x j))) by (intros; lra).
    rewrite sum_minus, sum_scal. unfold ident. rewrite (sum_delta k i x I). lra.
  Qed.
  Lemma shift_symmetric l : symmetric k (shift l).
  Proof. intros i j I J. unfold tr, shift, ident. rewrite (Sy i j I J). unfold tr. now rewrite Nat.eqb_sym. Qed.

  Definition bound : R := sum k (fun i => sum k (fun j => Rabs (a i j))).
  Lemma sum_le n f g : (forall i, (i < n)%nat -> f i <= g i) -> sum n f <= sum n g.
  Proof. intros H. assert (0 <= sum n (fun i => g i - f i)) as P by (apply sum_nonneg; intros i I; specialize (H i I); lra). rewrite sum_minus in P. lra. Qed.
  Lemma quad_bound x : - bound * norm2 x <= real_quad k a x.
  Proof.
    rewrite quad_sum. unfold bound. rewrite Ropp_mult_distr_l_reverse, <- sum_scal_r.
    rewrite (sum_ext k (fun i => sum k (fun j => Rabs (a i j)) * norm2 x) (fun i => sum k (fun j => Rabs (a i j) * norm2 x)))
      by (intros; now rewrite sum_scal_r).
    assert (H : 0 <= sum k (fun i => sum k (fun j => x i * a i j * x j + Rabs (a i j) * norm2 x))).
    { apply sum_nonneg. intros i I. apply sum_nonneg. intros j J.
      pose proof (norm2_entry x i I). pose proof (norm2_entry x j J).
      assert (A : Rabs (x i * x j) <= norm2 x).
      { pose proof (Rle_0_sqr (x i - x j)) as P1. pose proof (Rle_0_sqr (x i + x j)) as P2. unfold Rsqr in *. apply Rabs_le. nra. }
      assert (B : Rabs (x i * a i j * x j) <= Rabs (a i j) * norm2 x).
      { replace (x i * a i j * x j) with (a i j * (x i * x j)) by lra. rewrite Rabs_mult. apply Rmult_le_compat_l; [apply Rabs_pos|exact A]. }
      pose proof (Rle_abs (- (x i * a i j * x j))) as C. rewrite Rabs_Ropp in C. lra. }
    rewrite (sum_ext k _ (fun i => sum k (fun j => x i * a i j * x j) + sum k (fun j => Rabs (a i j) * norm2 x))) in H by (intros; now rewrite sum_plus).
    rewrite sum_plus in H. lra.
  Qed.
  Lemma very_negative : real_definite k (shift (- (bound + 1))).
  Proof. intros x N. rewrite quad_shift. pose proof (quad_bound x). pose proof (norm2_pos x N). lra. Qed.

  Lemma cauchy n f g : sum n (fun t => f t * g t) * sum n (fun t => f t * g t) <= sum n (fun t => f t * f t) * sum n (fun t => g t * g t).
  Proof.
    assert (H : 0 <= sum n (fun s => sum n (fun t => (f s * g t - f t * g s) * (f s * g t - f t * g s)))).
    { apply sum_nonneg. intros. apply sum_nonneg. intros. apply Rle_0_sqr. }
    rewrite (sum_ext n _ (fun s => (f s * f s) * sum n (fun t => g t * g t) + (g s * g s) * sum n (fun t => f t * f t)
        - 2 * (f s * g s) * sum n (fun t => f t * g t))) in H.
    2:{ intros s _. rewrite <- !sum_scal, <- sum_plus, <- sum_minus. apply sum_ext. intros. lra. }
    rewrite sum_minus, sum_plus, !sum_scal_r in H. rewrite (sum_scal n 2 (fun t => f t * g t)) in H. lra.
  Qed.
  (** Definite matrices are uniformly so. *)
  Lemma uniform b : symmetric k b -> real_definite k b -> exists e, 0 < e /\ forall x, e * norm2 x <= real_quad k b x.
  Proof.
    intros Sb D. destruct (definite_cholesky b k Sb D) as (l & C). destruct (cholesky_factor b k l Sb C) as (L & E).
    set (v := inv_lower l k). pose proof (inv_right k l L) as RI. fold v in RI.
    set (c := sum k (fun i => sum k (fun t => v t i * v t i))).
    assert (Cn : 0 <= c). { apply sum_nonneg. intros. apply sum_nonneg. intros. apply Rle_0_sqr. }
    assert (Key : forall x, norm2 x <= c * real_quad k b x).
    { intros x. rewrite (quad_factor k b l x E). set (y := fun t => sum k (fun i => x i * l i t)).
      change (norm2 x <= c * sum k (fun t => y t * y t)). unfold c. rewrite <- sum_scal_r. apply sum_le. intros i I.
      assert (X : x i = sum k (fun t => v t i * y t)).
      { unfold y. rewrite (sum_ext k _ (fun t => sum k (fun s => v t i * (x s * l s t)))) by (intros; now rewrite sum_scal).
        rewrite sum_swap. rewrite (sum_ext k _ (fun s => x s * (if Nat.eqb s i then 1 else 0))).
        - now rewrite (sum_delta_r k i x I).
        - intros s Hs. rewrite (sum_ext k _ (fun t => x s * (l s t * v t i))) by (intros; lra). rewrite sum_scal.
          f_equal. specialize (RI s i Hs I). unfold mul, ident in RI. exact RI. }
      rewrite X. apply cauchy. }
    exists (/ (c + 1)). split; [apply Rinv_0_lt_compat; lra|]. intros x.
    assert (Q0 : 0 <= real_quad k b x).
    { rewrite (quad_factor k b l x E). apply sum_nonneg. intros. apply Rle_0_sqr. }
    specialize (Key x). apply (Rmult_le_reg_l (c + 1)); [lra|]. rewrite <- Rmult_assoc, Rinv_r by lra. lra.
  Qed.

  Definition unit (i : nat) : nat -> R := fun j => if Nat.eqb j i then 1 else 0.
  Definition times (b : mat) (x : nat -> R) (i : nat) : R := sum k (fun j => b i j * x j).
  Lemma quad_times b x : real_quad k b x = sum k (fun i => x i * times b x i).
  Proof.
    rewrite quad_sum. apply sum_ext. intros i _. unfold times. rewrite <- sum_scal. apply sum_ext. intros. lra.
  Qed.
  Lemma quad_moved b x t i : symmetric k b -> (i < k)%nat ->
    real_quad k b (fun j => x j + t * unit i j) = real_quad k b x + 2 * t * times b x i + t * t * b i i.
  Proof.
    intros Sb I. rewrite !quad_times. unfold unit.
    assert (T : forall s, (s < k)%nat -> times b (fun j => x j + t * (if Nat.eqb j i then 1 else 0)) s = times b x s + t * b s i).
    { intros s Hs. unfold times. rewrite (sum_ext k _ (fun j => b s j * x j + t * (b s j * (if Nat.eqb j i then 1 else 0)))) by (intros; lra).
      rewrite sum_plus, sum_scal, (sum_delta_r k i (b s) I). lra. }
    rewrite (sum_ext k _ (fun s => x s * times b x s + t * (b s i * x s) + (t * (times b x s + t * b s i)) * (if Nat.eqb s i then 1 else 0))).
    2:{ intros s Hs. rewrite (T s Hs). lra. }
    rewrite !sum_plus, sum_scal, (sum_delta_r k i (fun s => t * (times b x s + t * b s i)) I).
    rewrite (sum_ext k (fun i0 => b i0 i * x i0) (fun j => b i j * x j)) by (intros s Hs; rewrite (Sb s i Hs I); reflexivity).
    fold (times b x i). lra.
  Qed.
  (** A vector on which a semidefinite form vanishes is in the kernel. *)
  Lemma kernel b x : symmetric k b -> (forall y, 0 <= real_quad k b y) -> real_quad k b x = 0 ->
    forall i, (i < k)%nat -> times b x i = 0.
  Proof.
    intros Sb P Z i I. set (w := times b x i). destruct (Req_dec w 0) as [|N]; [assumption|]. exfalso.
    assert (Bi : 0 <= b i i).
    { pose proof (P (fun j => 0 + 1 * unit i j)) as H. rewrite (quad_moved b (fun _ => 0) 1 i Sb I) in H.
      rewrite quad_times in H. unfold times in H. rewrite (sum_zero k (fun i0 => 0 * _)) in H by (intros; lra).
      rewrite (sum_zero k (fun j => b i j * 0)) in H by (intros; lra). lra. }
    pose proof (P (fun j => x j + (- w / (b i i + 1)) * unit i j)) as H. rewrite quad_moved, Z in H by assumption. fold w in H.
    assert (W : 0 < w * w) by (now apply Rsqr_pos_lt).
    replace (0 + 2 * (- w / (b i i + 1)) * w + - w / (b i i + 1) * (- w / (b i i + 1)) * b i i)
      with (- (w * w) * ((b i i + 2) / ((b i i + 1) * (b i i + 1)))) in H by (field; lra).
    assert (0 < (b i i + 2) / ((b i i + 1) * (b i i + 1))). { apply Rdiv_lt_0_compat; [lra|]. apply Rmult_lt_0_compat; lra. }
    assert (0 < w * w * ((b i i + 2) / ((b i i + 1) * (b i i + 1)))) by (now apply Rmult_lt_0_compat). lra.
  Qed.

  (** The smallest eigenvalue. *)
  Lemma smallest : (0 < k)%nat -> exists s, eigenvalue k a s /\ forall x, s * norm2 x <= real_quad k a x.
  Proof.
    intros K. set (E := fun l => real_definite k (shift l)).
    assert (U : forall x l, nonzero x -> E l -> l * norm2 x < real_quad k a x).
    { intros x l N H. specialize (H x N). rewrite quad_shift in H. lra. }
    destruct (completeness E) as (s & Ub & Least).
    { exists (real_quad k a (unit 0) / norm2 (unit 0)). intros l H.
      assert (N : nonzero (unit 0)) by (exists 0%nat; split; [exact K|unfold unit; cbn; lra]).
      pose proof (norm2_pos _ N). specialize (U _ l N H). apply (Rmult_le_reg_r (norm2 (unit 0))); [assumption|].
      unfold Rdiv. rewrite Rmult_assoc, Rinv_l by lra. lra. }
    { exists (- (bound + 1)). apply very_negative. }
    assert (Semi : forall x, 0 <= real_quad k (shift s) x).
    { intros x. destruct (Rle_lt_dec 0 (real_quad k (shift s) x)) as [|H]; [assumption|]. exfalso. rewrite quad_shift in H.
      destruct (classic (nonzero x)) as [N|N].
      - pose proof (norm2_pos x N) as P. assert (C : is_upper_bound E (real_quad k a x / norm2 x)).
        { intros l Hl. specialize (U x l N Hl). apply (Rmult_le_reg_r (norm2 x)); [assumption|].
          unfold Rdiv. rewrite Rmult_assoc, Rinv_l by lra. lra. }
        apply Least in C. apply (Rmult_le_compat_r (norm2 x)) in C; [|lra]. unfold Rdiv in C. rewrite Rmult_assoc, Rinv_l in C by lra. lra.
      - assert (Z : forall i, (i < k)%nat -> x i = 0).
        { intros i I. destruct (Req_dec (x i) 0); [assumption|]. exfalso. apply N. now exists i. }
        rewrite quad_sum in H. unfold norm2 in H. rewrite !sum_zero in H; [lra| |];
          intros i I; [rewrite (Z i I); lra|apply sum_zero; intros j J; rewrite (Z i I); lra]. }
    assert (ND : ~ real_definite k (shift s)).
    { intros D. destruct (uniform _ (shift_symmetric s) D) as (e & Pe & He).
      assert (In : E (s + e / 2)).
      { intros x N. specialize (He x). rewrite quad_shift in *. pose proof (norm2_pos x N). nra. }
      apply Ub in In. lra. }
    apply not_all_ex_not in ND as (x & ND). apply imply_to_and in ND as (N & ND).
    assert (Z : real_quad k (shift s) x = 0) by (specialize (Semi x); lra).
    exists s. split.
    - exists x. split; [exact N|]. intros i I. rewrite total_sum.
      pose proof (kernel (shift s) x (shift_symmetric s) Semi Z i I) as H. unfold times, shift in H.
      rewrite (sum_ext k _ (fun j => a i j * x j - s * (ident i j * x j))) in H by (intros; lra).
      rewrite sum_minus, sum_scal in H. unfold ident in H. rewrite (sum_delta k i x I) in H. lra.
    - intros y. specialize (Semi y). rewrite quad_shift in Semi. lra.
  Qed.
  Lemma eigen_semidefinite : (forall l, eigenvalue k a l -> 0 <= l) <-> forall x, 0 <= real_quad k a x.
  Proof.
    split.
    - intros H x. destruct (Nat.eq_dec k 0) as [Z|N].
      + rewrite quad_sum, Z. cbn. lra.
      + destruct smallest as (s & Es & Q); [lia|]. specialize (H s Es). specialize (Q x). pose proof (norm2_nonneg x). nra.
    - intros H l (x & N & E). specialize (H x). rewrite quad_times in H.
      rewrite (sum_ext k _ (fun i => l * (x i * x i))) in H.
      + rewrite sum_scal in H. fold (norm2 x) in H. pose proof (norm2_pos x N). destruct (Rle_lt_dec 0 l); [assumption|]. nra.
      + intros i I. unfold times. rewrite <- total_sum, (E i I). lra.
  Qed.
End Real.

(* ---------------------------------------------------------------- rational vectors suffice *)
Lemma rational_near (x d : R) : 0 < d -> exists q : Q, Rabs (Q2R q - x) <= d.
Proof.
  intros D. destruct (archimed (/ d)) as (N & _). set (n := up (/ d)) in *.
  assert (P : (0 < n)%Z). { apply lt_IZR. apply Rlt_trans with (/ d); [apply Rinv_0_lt_compat, D|exact N]. }
  destruct (archimed (x * IZR n)) as (A & B). exists (up (x * IZR n) # Z.to_pos n).
  unfold Q2R. cbn [Qnum Qden]. rewrite Z2Pos.id by exact P.
  assert (Pn : 0 < IZR n) by (now apply IZR_lt).
  assert (Dn : / IZR n <= d).
  { rewrite <- (Rinv_inv d) at 1 by lra. apply Rlt_le, Rinv_lt_contravar; [|exact N].
    apply Rmult_lt_0_compat; [apply Rinv_0_lt_compat, D|exact Pn]. }
  replace (IZR (up (x * IZR n)) * / IZR n - x) with ((IZR (up (x * IZR n)) - x * IZR n) * / IZR n) by (field; lra).
  rewrite Rabs_mult, (Rabs_pos_eq (/ IZR n)) by (apply Rlt_le, Rinv_0_lt_compat, Pn).
  rewrite Rabs_pos_eq by lra. apply Rle_trans with (1 * / IZR n); [|lra].
  apply Rmult_le_compat_r; [apply Rlt_le, Rinv_0_lt_compat, Pn|lra].
Qed.
Lemma rationals_near k (x : nat -> R) d : 0 < d -> exists l : list Q, length l = k /\ forall i, (i < k)%nat -> Rabs (Q2R (nth i l 0%Q) - x i) <= d.
Proof.
  intros D. induction k as [|k (l & L & H)]; [exists []; split; [reflexivity|intros; lia]|].
  destruct (rational_near (x k) d D) as (q & Q). exists (l ++ [q]). split; [rewrite app_length; cbn; lia|].
  intros i I. destruct (Nat.eq_dec i k) as [-> |].
  - rewrite app_nth2, L, Nat.sub_diag by lia. exact Q.
  - rewrite app_nth1 by lia. apply H. lia.
Qed.
Lemma abs_below n f i : (i < n)%nat -> Rabs (f i) <= sum n (fun i => Rabs (f i)).
Proof.
  induction n; intros I; [lia|]. cbn. assert (P : 0 <= sum n (fun i => Rabs (f i))) by (apply sum_nonneg; intros; apply Rabs_pos).
  pose proof (Rabs_pos (f n)). destruct (Nat.eq_dec i n) as [-> |]; [lra|]. assert (Rabs (f i) <= sum n (fun i => Rabs (f i))) by (apply IHn; lia). lra.
Qed.
Lemma quad_near k a x y d : 0 <= d <= 1 -> (forall i, (i < k)%nat -> Rabs (y i - x i) <= d) ->
  real_quad k a y <= real_quad k a x + d * ((2 * sum k (fun i => Rabs (x i)) + 1) * bound k a).
Proof.
  intros D H. set (M := sum k (fun i => Rabs (x i))). rewrite !quad_sum. unfold bound.
  rewrite <- (sum_scal k (2 * M + 1)), <- (sum_scal k d), <- sum_plus. apply sum_le. intros i I.
  rewrite <- (sum_scal k (2 * M + 1)), <- (sum_scal k d), <- sum_plus. apply sum_le. intros j J.
  pose proof (H i I) as Hi. pose proof (H j J) as Hj. set (e := y i - x i) in *. set (f := y j - x j) in *.
  replace (y i) with (x i + e) by (unfold e; lra). replace (y j) with (x j + f) by (unfold f; lra).
  pose proof (abs_below k x i I) as Xi. pose proof (abs_below k x j J) as Xj. fold M in Xi, Xj.
  assert (B : Rabs (x i * f + e * x j + e * f) <= d * (2 * M + 1)).
  { eapply Rle_trans; [apply Rabs_triang|]. eapply Rle_trans; [apply Rplus_le_compat_r, Rabs_triang|].
    rewrite !Rabs_mult.
    assert (Rabs (x i) * Rabs f <= M * d) by (apply Rmult_le_compat; auto using Rabs_pos).
    assert (Rabs e * Rabs (x j) <= d * M) by (apply Rmult_le_compat; auto using Rabs_pos).
    assert (Rabs e * Rabs f <= d * 1) by (apply Rmult_le_compat; auto using Rabs_pos; lra). lra. }
  assert (C : a i j * (x i * f + e * x j + e * f) <= Rabs (a i j) * (d * (2 * M + 1))).
  { eapply Rle_trans; [apply Rle_abs|]. rewrite Rabs_mult. apply Rmult_le_compat_l; [apply Rabs_pos|exact B]. }
  lra.
Qed.
Lemma semidefinite_real k m : proper_matrix k m -> semidefinite m <-> forall x, 0 <= real_quad k (fun i j => Q2R (entry m i j)) x.
Proof.
  intros (Lm & Rows & _). subst k.
  assert (E : forall l, length l = length m -> Q2R (quad m l) = real_quad (length m) (fun i j => Q2R (entry m i j)) (fun i => Q2R (nth i l 0%Q))).
  { intros l L. apply quad_real; auto. }
  assert (Z : Q2R 0 = 0) by (unfold Q2R; cbn; lra).
  split.
  - intros S x. set (a := fun i j => Q2R (entry m i j)). destruct (Rle_lt_dec 0 (real_quad (length m) a x)) as [|N]; [assumption|]. exfalso.
    set (C := (2 * sum (length m) (fun i => Rabs (x i)) + 1) * bound (length m) a).
    assert (PC : 0 <= C).
    { apply Rmult_le_pos.
      - assert (0 <= sum (length m) (fun i => Rabs (x i))) by (apply sum_nonneg; intros; apply Rabs_pos). lra.
      - apply sum_nonneg; intros; apply sum_nonneg; intros; apply Rabs_pos. }
    set (d := Rmin 1 (- real_quad (length m) a x / (2 * (C + 1)))).
    assert (D0 : 0 < - real_quad (length m) a x / (2 * (C + 1))) by (apply Rdiv_lt_0_compat; lra).
    assert (D : 0 < d) by (apply Rmin_pos; lra).
    assert (D1 : d <= 1) by apply Rmin_l.
    assert (D2 : d * C <= - real_quad (length m) a x / 2).
    { apply Rle_trans with (- real_quad (length m) a x / (2 * (C + 1)) * C).
      - apply Rmult_le_compat_r; [exact PC|apply Rmin_r].
      - apply Rle_trans with (- real_quad (length m) a x / (2 * (C + 1)) * (C + 1)); [apply Rmult_le_compat_l; lra|].
        right. field. lra. }
    destruct (rationals_near (length m) x d D) as (l & L & H). specialize (S l L). apply Qle_Rle in S.
    rewrite Z, (E l L) in S. pose proof (quad_near (length m) a x (fun i => Q2R (nth i l 0%Q)) d ltac:(lra) H) as Q. fold C in Q.
    fold a in S. lra.
  - intros H l L. apply Rle_Qle. rewrite Z, (E l L). apply H.
Qed.
Lemma eigen_test_correct k m : proper_matrix k m -> no_negative_eigenvalue k m <-> semidefinite m.
Proof.
  intros P. rewrite (semidefinite_real k m P). apply eigen_semidefinite. now apply proper_symmetric.
Qed.
Lemma real_eigen_test eig_ok : (forall k m, proper_matrix k m -> (eig_ok m = true <-> no_negative_eigenvalue k m)) -> eigen_test eig_ok.
Proof. intros H k m P. rewrite (H k m P). now apply eigen_test_correct. Qed.
