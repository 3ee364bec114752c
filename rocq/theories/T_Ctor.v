(** The project's own tests of the constructors of distributions
    (tests/test_distributions.py, tests/test_dice.py, tests/test_numbers.py), run on
    the model: the parameters that normal and lognormal distributions compute from
    their arguments, the errors of each constructor, and dice.  [ppf], the normal
    quantile of scipy, is known only at 95%, where it is 1.6448536. *)
From Coq Require Import String Reals Lra Lia ZArith.
From Verif Require Import Base M_Weights M_Pick M_Values M_Sampler M_Ops M_Ctor M_Dists M_Kinds M_Shared.
From Verif Require T_Formulas.
Open Scope R_scope.

(** ** e, by repeated squaring with 60 binary digits *)
Definition unit : Z := (2 ^ 60)%Z.
Definition sq_lo (z : Z) : Z := (z * z / unit)%Z.
Definition sq_hi (z : Z) : Z := (z * z / unit + 1)%Z.
Lemma unit_pos : 0 < IZR unit. Proof. apply IZR_lt. reflexivity. Qed.
Lemma lo_step z x : (0 <= z)%Z -> IZR z / IZR unit <= exp x -> (0 <= sq_lo z)%Z /\ IZR (sq_lo z) / IZR unit <= exp (x + x).
Proof.
  intros Z0 H. pose proof unit_pos as U. unfold sq_lo. split; [apply Z.div_pos; [nia|reflexivity]|].
  assert (A : IZR (z * z / unit) * IZR unit <= IZR z * IZR z).
  { rewrite <- !mult_IZR. apply IZR_le. rewrite Z.mul_comm. apply Z.mul_div_le. reflexivity. }
  assert (B : 0 <= IZR z / IZR unit) by (apply Rmult_le_pos; [now apply IZR_le|left; now apply Rinv_0_lt_compat]).
  rewrite exp_plus. apply Rle_trans with (IZR z / IZR unit * (IZR z / IZR unit)); [|apply Rmult_le_compat; auto].
  replace (IZR z / IZR unit * (IZR z / IZR unit)) with (IZR z * IZR z / IZR unit / IZR unit) by (field; lra).
  apply Rmult_le_compat_r; [left; now apply Rinv_0_lt_compat|]. apply Rmult_le_reg_r with (IZR unit); auto.
  replace (IZR z * IZR z / IZR unit * IZR unit) with (IZR z * IZR z) by (field; lra). exact A.
Qed.
Lemma hi_step z x : (0 <= z)%Z -> exp x <= IZR z / IZR unit -> (0 <= sq_hi z)%Z /\ exp (x + x) <= IZR (sq_hi z) / IZR unit.
Proof.
  intros Z0 H. pose proof unit_pos as U. unfold sq_hi. split; [assert (0 <= z * z / unit)%Z by (apply Z.div_pos; [nia|reflexivity]); lia|].
  assert (A : IZR z * IZR z <= IZR (z * z / unit + 1) * IZR unit).
  { rewrite <- !mult_IZR. apply IZR_le. pose proof (Z.mul_succ_div_gt (z * z) unit ltac:(reflexivity)). lia. }
  assert (P := exp_pos x). rewrite exp_plus. apply Rle_trans with (IZR z / IZR unit * (IZR z / IZR unit)); [apply Rmult_le_compat; lra|].
  replace (IZR z / IZR unit * (IZR z / IZR unit)) with (IZR z * IZR z / IZR unit / IZR unit) by (field; lra).
  apply Rmult_le_compat_r; [left; now apply Rinv_0_lt_compat|]. apply Rmult_le_reg_r with (IZR unit); auto.
  replace (IZR z * IZR z / IZR unit * IZR unit) with (IZR z * IZR z) by (field; lra). exact A.
Qed.
Fixpoint times (n : nat) (f : Z -> Z) (z : Z) : Z := match n with O => z | S n => times n f (f z) end.
Fixpoint twice (n : nat) (x : R) : R := match n with O => x | S n => twice n (x + x) end.
Lemma lo_steps n : forall z x, (0 <= z)%Z -> IZR z / IZR unit <= exp x -> IZR (times n sq_lo z) / IZR unit <= exp (twice n x).
Proof. induction n as [|n IH]; intros z x Z0 H; [exact H|]. destruct (lo_step z x Z0 H). now apply IH. Qed.
Lemma hi_steps n : forall z x, (0 <= z)%Z -> exp x <= IZR z / IZR unit -> exp (twice n x) <= IZR (times n sq_hi z) / IZR unit.
Proof. induction n as [|n IH]; intros z x Z0 H; [exact H|]. destruct (hi_step z x Z0 H). now apply IH. Qed.
Lemma twice_pow n : forall x, twice n x = 2 ^ n * x.
Proof. induction n as [|n IH]; intros x; cbn [twice pow]; [lra|]. rewrite IH. lra. Qed.
Ltac num t := let v := eval vm_compute in t in change t with v.
Lemma e_bounds : 271828/100000 < exp 1 < 271829/100000.
Proof.
  set (x := / 2 ^ 22). assert (X : x = 1 / 4194304) by (unfold x; lra).
  assert (E : twice 22 x = 1) by (rewrite twice_pow; unfold x; apply Rinv_r; apply pow_nonzero; lra).
  pose proof unit_pos as U. split.
  - assert (H : IZR (unit + 2 ^ 38) / IZR unit <= exp x).
    { apply Rle_trans with (1 + x); [|left; apply exp_ineq1; lra]. rewrite X. right. num (unit + 2 ^ 38)%Z. num unit. lra. }
    apply (lo_steps 22) in H; [|vm_compute; discriminate]. rewrite E in H. eapply Rlt_le_trans; [|exact H].
    apply Rmult_lt_reg_r with (IZR unit); auto. replace (IZR (times 22 sq_lo (unit + 2 ^ 38)) / IZR unit * IZR unit) with (IZR (times 22 sq_lo (unit + 2 ^ 38))) by (field; lra).
    apply Rmult_lt_reg_r with 100000; [lra|]. replace (271828 / 100000 * IZR unit * 100000) with (271828 * IZR unit) by lra.
    rewrite <- !mult_IZR. apply IZR_lt. vm_compute. reflexivity.
  - assert (H : exp x <= IZR (unit + 2 ^ 38 + 2 ^ 17) / IZR unit).
    { pose proof (exp_ineq1 (- x) ltac:(lra)) as A. rewrite exp_Ropp in A. pose proof (exp_pos x) as P.
      apply Rmult_lt_compat_r with (r := exp x) in A; auto. rewrite Rinv_l in A by lra.
      apply Rmult_le_reg_r with (1 - x); [lra|]. apply Rle_trans with 1; [lra|].
      rewrite X. num (unit + 2 ^ 38 + 2 ^ 17)%Z. num unit. lra. }
    apply (hi_steps 22) in H; [|vm_compute; discriminate]. rewrite E in H. eapply Rle_lt_trans; [exact H|].
    apply Rmult_lt_reg_r with (IZR unit); auto. replace (IZR (times 22 sq_hi (unit + 2 ^ 38 + 2 ^ 17)) / IZR unit * IZR unit) with (IZR (times 22 sq_hi (unit + 2 ^ 38 + 2 ^ 17))) by (field; lra).
    apply Rmult_lt_reg_r with 100000; [lra|]. replace (271829 / 100000 * IZR unit * 100000) with (271829 * IZR unit) by lra.
    rewrite <- !mult_IZR. apply IZR_lt. vm_compute. reflexivity.
Qed.
Lemma e_pow n : (271828/100000) ^ n <= exp (INR n) <= (271829/100000) ^ n.
Proof.
  replace (exp (INR n)) with (exp 1 ^ n); [split; apply pow_incr; pose proof e_bounds; lra|].
  induction n as [|n IH]; [cbn; symmetry; apply exp_0|]. rewrite S_INR, exp_plus, <- IH. cbn [pow]. ring.
Qed.
Lemma exp_nat k n : k = INR n -> (271828/100000) ^ n <= exp k <= (271829/100000) ^ n.
Proof. intros ->. apply e_pow. Qed.
(** Logarithms of integers, from powers of e. *)
Lemma ln_int_bounds (p k n : nat) : (0 < k)%nat -> (1 <= p)%nat -> INR p ^ k < (271828/100000) ^ n -> ln (INR p) < INR n / INR k.
Proof.
  intros K P H. assert (0 < INR k) by (apply lt_0_INR; lia). assert (P1 : 1 <= INR p) by (replace 1 with (INR 1) by reflexivity; apply le_INR; lia).
  apply Rmult_lt_reg_r with (INR k); auto. replace (INR n / INR k * INR k) with (INR n) by (field; lra).
  apply exp_lt_inv. rewrite Rmult_comm. replace (exp (INR k * ln (INR p))) with (INR p ^ k).
  - eapply Rlt_le_trans; [exact H|]. apply e_pow.
  - rewrite <- Rpower_pow by lra. reflexivity.
Qed.
Lemma ln_int_bounds' (p k n : nat) : (0 < k)%nat -> (1 <= p)%nat -> (271829/100000) ^ n < INR p ^ k -> INR n / INR k < ln (INR p).
Proof.
  intros K P H. assert (0 < INR k) by (apply lt_0_INR; lia). assert (P1 : 1 <= INR p) by (replace 1 with (INR 1) by reflexivity; apply le_INR; lia).
  apply Rmult_lt_reg_r with (INR k); auto. replace (INR n / INR k * INR k) with (INR n) by (field; lra).
  apply exp_lt_inv. rewrite (Rmult_comm (ln _)). replace (exp (INR k * ln (INR p))) with (INR p ^ k).
  - eapply Rle_lt_trans; [apply e_pow|exact H].
  - rewrite <- Rpower_pow by lra. reflexivity.
Qed.
Lemma pow_lt_Z (a b c : Z) (k n : nat) : (0 < c)%Z -> (a ^ Z.of_nat k * c ^ Z.of_nat n < b ^ Z.of_nat n)%Z -> IZR a ^ k < (IZR b / IZR c) ^ n.
Proof.
  intros C H. apply IZR_lt in C as C'. unfold Rdiv. rewrite Rpow_mult_distr, pow_inv. apply Rmult_lt_reg_r with (IZR c ^ n); [now apply pow_lt|].
  rewrite Rmult_assoc, Rinv_l, Rmult_1_r by (apply pow_nonzero; lra). rewrite !pow_IZR, <- mult_IZR. now apply IZR_lt.
Qed.
Lemma pow_lt_Z' (a b c : Z) (k n : nat) : (0 < c)%Z -> (b ^ Z.of_nat n < a ^ Z.of_nat k * c ^ Z.of_nat n)%Z -> (IZR b / IZR c) ^ n < IZR a ^ k.
Proof.
  intros C H. apply IZR_lt in C as C'. unfold Rdiv. rewrite Rpow_mult_distr, pow_inv. apply Rmult_lt_reg_r with (IZR c ^ n); [now apply pow_lt|].
  rewrite Rmult_assoc, Rinv_l, Rmult_1_r by (apply pow_nonzero; lra). rewrite !pow_IZR, <- mult_IZR. now apply IZR_lt.
Qed.
Lemma ln5 : 1605/1000 < ln 5 < 161/100.
Proof.
  split.
  - pose proof (ln_int_bounds' 5 200 321 ltac:(lia) ltac:(lia)) as H. rewrite !INR_IZR_INZ in H. cbn [Z.of_nat Pos.of_succ_nat Pos.succ] in H.
    specialize (H ltac:(apply pow_lt_Z'; vm_compute; reflexivity)). lra.
  - pose proof (ln_int_bounds 5 100 161 ltac:(lia) ltac:(lia)) as H. rewrite !INR_IZR_INZ in H. cbn [Z.of_nat Pos.of_succ_nat Pos.succ] in H.
    specialize (H ltac:(apply pow_lt_Z; vm_compute; reflexivity)). lra.
Qed.
Lemma ln2 : 693/1000 < ln 2 < 6933/10000.
Proof.
  split.
  - pose proof (ln_int_bounds' 2 1000 693 ltac:(lia) ltac:(lia)) as H. rewrite !INR_IZR_INZ in H. cbn [Z.of_nat Pos.of_succ_nat Pos.succ] in H.
    specialize (H ltac:(apply pow_lt_Z'; vm_compute; reflexivity)). lra.
  - pose proof (ln_int_bounds 2 577 400 ltac:(lia) ltac:(lia)) as H. rewrite !INR_IZR_INZ in H. cbn [Z.of_nat Pos.of_succ_nat Pos.succ] in H.
    specialize (H ltac:(apply pow_lt_Z; vm_compute; reflexivity)). lra.
Qed.

(** ** Normal distributions *)
Definition near (x y : R) : Prop := y - 5/1000 < x < y + 5/1000.
Definition ppf_ok (ppf : R -> R) : Prop := 16448/10000 < ppf (cdf_value 90) < 16449/10000.
Ltac decide_all := repeat match goal with
  | |- context [Rle_dec ?a ?b] => destruct (Rle_dec a b); try lra
  | |- context [Rlt_dec ?a ?b] => destruct (Rlt_dec a b); try lra
  | |- context [Req_EM_T ?a ?b] => destruct (Req_EM_T a b); try lra
  end.
Lemma quotient a b lo hi : 0 < b -> lo * b < a < hi * b -> lo < a / b < hi.
Proof. apply T_Formulas.ratio_between. Qed.
Example test_norm : forall ppf, ppf_ok ppf -> exists sd, norm ppf (Some 1) (Some 2) None None 90 None None = Ok (mkNormal (Some ((1 + 2) / 2)) (Some sd) None None) /\
  (1 + 2) / 2 = 15/10 /\ near sd (30/100).
Proof.
  intros ppf P. unfold norm, above. decide_all. cbn. eexists. split; [reflexivity|]. split; [lra|]. unfold near, ppf_ok in *. apply quotient; lra.
Qed.
Example test_norm_with_mean_sd : forall ppf, norm ppf None None (Some 1) (Some 2) 90 None None = Ok (mkNormal (Some 1) (Some 2) None None) /\
  norm ppf None None None (Some 2) 90 None None = Ok (mkNormal (Some 0) (Some 2) None None).
Proof. split; reflexivity. Qed.
Example test_norm_blank_raises_value_error : forall ppf, norm ppf None None None None 90 None None = Err (ValueError "must define either x/y or mean/sd") /\
  norm ppf None None (Some 1) None 90 None None = Err (ValueError "must define either x/y or mean/sd").
Proof. split; reflexivity. Qed.
Example test_norm_overdefinition_value_error : forall ppf, exists m, norm ppf (Some 1) (Some 2) (Some 3) (Some 4) 90 None None = Err (ValueError m) /\
  String.prefix "must define either" m = true.
Proof. intros ppf. unfold norm, above. decide_all. cbn. eexists. split; reflexivity. Qed.
Example test_norm_low_gt_high : forall ppf, norm ppf (Some 10) (Some 5) None None 90 None None = Err (ValueError "high value cannot be lower than low value").
Proof. intros ppf. unfold norm, above. decide_all. reflexivity. Qed.
Example test_norm_passes_lclip_rclip : forall ppf, norm ppf None None (Some 1) (Some 2) 90 (Some 0) (Some 3) = Ok (mkNormal (Some 1) (Some 2) (Some 0) (Some 3)) /\
  exists m sd, norm ppf (Some 1) (Some 2) None None 90 (Some 0) (Some 3) = Ok (mkNormal m sd (Some 0) (Some 3)).
Proof. intros ppf. split; [reflexivity|]. unfold norm, above. decide_all. cbn. eauto. Qed.

(** ** Lognormal distributions *)
Lemma root_between x lo hi : 0 <= lo -> 0 <= hi -> lo * lo < x < hi * hi -> lo < sqrt x < hi.
Proof.
  intros A B [C D]. rewrite <- (sqrt_square lo A), <- (sqrt_square hi B). pose proof (Rle_0_sqr lo). unfold Rsqr in *.
  split; apply sqrt_lt_1; lra.
Qed.
Lemma half_ln2 : (ln 1 + ln 2) / 2 = ln 2 / 2. Proof. rewrite ln_1. lra. Qed.
(** The spread of a 90% interval of a factor of two. *)
Lemma spread p : 16448/10000 < p < 16449/10000 -> 2106/10000 < (ln 2 / 2) / p < 2108/10000.
Proof. intros P. pose proof ln2. apply quotient; lra. Qed.
Lemma product_between a b a0 a1 b0 b1 : a0 < a < a1 -> b0 < b < b1 -> 0 < a0 -> 0 < b0 -> a0 * b0 < a * b < a1 * b1.
Proof. intros. split; apply Rmult_gt_0_lt_compat; lra. Qed.
(** exp of a small number *)
Lemma exp_small x : 0 < x < 1 -> 1 + x < exp x < 1 / (1 - x).
Proof.
  intros X. split; [apply exp_ineq1; lra|]. pose proof (exp_ineq1 (- x) ltac:(lra)) as A. rewrite exp_Ropp in A. pose proof (exp_pos x) as P.
  apply Rmult_lt_compat_r with (r := exp x) in A; auto. rewrite Rinv_l in A by lra.
  apply Rmult_lt_reg_r with (1 - x); [lra|]. replace (1 / (1 - x) * (1 - x)) with 1 by (field; lra). lra.
Qed.
Lemma exp_small2 x : 0 < x < 1 -> (1 + x / 2) * (1 + x / 2) < exp x.
Proof. intros X. replace x with (x / 2 + x / 2) at 3 by lra. rewrite exp_plus. pose proof (exp_small (x / 2) ltac:(lra)). apply Rmult_gt_0_lt_compat; lra. Qed.
Lemma exp_small4 x : 0 < x < 1 -> (1 + x / 4) * (1 + x / 4) * ((1 + x / 4) * (1 + x / 4)) < exp x.
Proof.
  intros X. replace x with (x / 2 + x / 2) at 5 by lra. rewrite exp_plus. pose proof (exp_small2 (x / 2) ltac:(lra)) as H.
  replace (1 + x / 2 / 2) with (1 + x / 4) in H by lra. apply Rmult_gt_0_lt_compat; nra.
Qed.
Lemma root2 : 14142/10000 < exp (ln 2 / 2) < 14143/10000.
Proof.
  assert (E : exp (ln 2 / 2) * exp (ln 2 / 2) = 2) by (rewrite <- exp_plus; replace (ln 2 / 2 + ln 2 / 2) with (ln 2) by lra; apply exp_ln; lra).
  pose proof (exp_pos (ln 2 / 2)). split; nra.
Qed.
Lemma upper x h : 0 < x -> x < h -> h < 1 -> exp x < 1 / (1 - h).
Proof. intros. apply Rlt_trans with (exp h); [now apply exp_increasing|apply exp_small; lra]. Qed.
Section Spread.
  Variable s : R.
  Hypothesis S : 2106/10000 < s < 2108/10000.
  Lemma spread_sq : 4435/100000 < Rsqr s < 4444/100000.
  Proof using S. unfold Rsqr. split; nra. Qed.
  Lemma spread_exp : 104509/100000 < exp (Rsqr s) < 10466/10000.
  Proof using S.
    pose proof spread_sq. split.
    { eapply Rlt_trans; [|apply exp_small4; lra].
      assert (A : 1011087/1000000 < 1 + Rsqr s / 4) by lra. set (a := 1 + Rsqr s / 4) in *. clearbody a.
      assert (B : 10222969/10000000 < a * a) by nra. set (b := a * a) in *. clearbody b. nra. }
    eapply Rlt_trans; [apply (upper _ (4444/100000)); lra|lra].
  Qed.
  Lemma spread_half_exp : 10221/10000 < exp (Rsqr s / 2) < 10228/10000.
  Proof using S.
    pose proof spread_sq. split; [eapply Rlt_trans; [|apply exp_small; lra]; lra|].
    eapply Rlt_trans; [apply (upper _ (2222/100000)); lra|lra].
  Qed.
End Spread.
Example test_lognorm : forall ppf, ppf_ok ppf -> exists m s lm ls,
  lognorm ppf (Some 1) (Some 2) None None None None 90 None None = Ok (mkLognormal (Some m) (Some s) (Some lm) (Some ls) None None) /\
  near m (35/100) /\ near s (21/100) /\ near lm (145/100) /\ near ls (31/100).
Proof.
  intros ppf P. unfold lognorm, log_checks, above, non_positive. decide_all. cbn. do 4 eexists. split; [reflexivity|]. rewrite half_ln2.
  replace (ln 2 - ln 2 / 2) with (ln 2 / 2) by lra. pose proof (spread _ P) as S. set (s := ln 2 / 2 / _) in *. pose proof ln2. clearbody s.
  unfold near. split; [lra|]. split; [lra|]. rewrite !exp_plus.
  replace (exp (2 * (ln 2 / 2))) with 2 by (replace (2 * (ln 2 / 2)) with (ln 2) by lra; symmetry; apply exp_ln; lra).
  pose proof (spread_exp s S) as A. pose proof (spread_half_exp s S) as B. pose proof root2 as C. split.
  - pose proof (product_between _ _ _ _ _ _ C B ltac:(lra) ltac:(lra)). lra.
  - apply root_between; try lra.
    assert (D : 4509/100000 < exp (Rsqr s) - 1 < 466/10000) by lra. pose proof (product_between _ _ _ _ _ _ D A ltac:(lra) ltac:(lra)). lra.
Qed.
Lemma e2 : 738/100 < exp 2 < 74/10.
Proof. pose proof (exp_nat 2 2 ltac:(cbn; lra)). cbn [pow] in *. lra. Qed.
Example test_lognorm_with_normmean_normsd : forall ppf, exists lm ls,
  lognorm ppf None None (Some 1) (Some 2) None None 90 None None = Ok (mkLognormal (Some 1) (Some 2) (Some lm) (Some ls) None None) /\
  near lm (2009/100) /\ near ls (14705/100).
Proof.
  intros ppf. unfold lognorm, log_checks. cbn. do 2 eexists. split; [reflexivity|]. unfold near, Rsqr. 
  pose proof (exp_nat (1 + 2 * 2 / 2) 3 ltac:(cbn; lra)) as A. pose proof (exp_nat (2 * 2) 4 ltac:(cbn; lra)) as B. pose proof (exp_nat (2 * 1 + 2 * 2) 6 ltac:(cbn; lra)) as C.
  cbn [pow] in *. split; [lra|]. apply root_between; try lra.
  split; [eapply Rlt_le_trans; [|apply Rmult_le_compat; [| |apply Rplus_le_compat_r, B|apply C]]; lra|eapply Rle_lt_trans; [apply Rmult_le_compat; [| |apply Rplus_le_compat_r, B|apply C]; lra|lra]].
Qed.
Example test_lognorm_with_just_normsd_infers_zero_norm_mean : forall ppf, exists lm ls,
  lognorm ppf None None None (Some 2) None None 90 None None = Ok (mkLognormal (Some 0) (Some 2) (Some lm) (Some ls) None None) /\
  near lm (739/100) /\ near ls (541/10).
Proof.
  intros ppf. unfold lognorm, log_checks. cbn. do 2 eexists. split; [reflexivity|]. unfold near, Rsqr. 
  pose proof (exp_nat (0 + 2 * 2 / 2) 2 ltac:(cbn; lra)) as A. pose proof (exp_nat (2 * 2) 4 ltac:(cbn; lra)) as B. pose proof (exp_nat (2 * 0 + 2 * 2) 4 ltac:(cbn; lra)) as C.
  cbn [pow] in *. split; [lra|]. apply root_between; try lra.
  split; [eapply Rlt_le_trans; [|apply Rmult_le_compat; [| |apply Rplus_le_compat_r, B|apply C]]; lra|eapply Rle_lt_trans; [apply Rmult_le_compat; [| |apply Rplus_le_compat_r, B|apply C]; lra|lra]].
Qed.
Lemma unit_spread : near (ln (Rsqr 1 / sqrt (Rsqr 2 + Rsqr 1))) (-80/100) /\ near (sqrt (ln (1 + Rsqr 2 / Rsqr 1))) (127/100).
Proof.
  unfold Rsqr, near. pose proof ln5 as L. replace (1 + 2 * 2 / (1 * 1)) with 5 by lra. replace (2 * 2 + 1 * 1) with 5 by lra.
  assert (0 < sqrt 5) by (apply sqrt_lt_R0; lra). assert (ln (sqrt 5) = ln 5 / 2).
  { assert (2 * ln (sqrt 5) = ln 5); [|lra]. rewrite <- (sqrt_sqrt 5) at 2 by lra. rewrite ln_mult by auto. lra. }
  rewrite T_Formulas.ln_num by lra. rewrite Rmult_1_r, ln_1. split; [lra|]. apply root_between; lra.
Qed.
Example test_lognorm_with_lognormmean_lognormsd : forall ppf, exists m s,
  lognorm ppf None None None None (Some 1) (Some 2) 90 None None = Ok (mkLognormal (Some m) (Some s) (Some 1) (Some 2) None None) /\
  lognorm ppf None None None None None (Some 2) 90 None None = Ok (mkLognormal (Some m) (Some s) (Some 1) (Some 2) None None) /\
  near m (-80/100) /\ near s (127/100).
Proof.
  intros ppf. unfold lognorm, log_checks. cbn. unfold from_moments. decide_all. cbn. do 2 eexists. split; [reflexivity|]. split; [reflexivity|]. apply unit_spread.
Qed.
Definition one_only := Err (A := lognormal) (ValueError "must define only one").
Example test_lognorm_blank_raises_value_error : forall ppf,
  lognorm ppf None None None None None None 90 None None = one_only /\ lognorm ppf None None (Some 0) None None None 90 None None = one_only /\
  lognorm ppf None None None None (Some 1) None 90 None None = one_only /\ invlognorm ppf None None None None None None 90 None None = one_only /\
  invlognorm ppf None None (Some 0) None None None 90 None None = one_only /\ invlognorm ppf None None None None (Some 1) None 90 None None = one_only.
Proof. repeat split. Qed.
Example test_lognorm_overdefinition_value_error : forall ppf f, f = lognorm ppf \/ f = invlognorm ppf ->
  f (Some 1) (Some 2) (Some 3) (Some 4) None None 90 None None = one_only /\ f (Some 1) (Some 2) None None (Some 3) (Some 4) 90 None None = one_only /\
  f None None (Some 1) (Some 2) (Some 3) (Some 4) 90 None None = one_only /\ f (Some 1) (Some 2) (Some 1) (Some 2) (Some 3) (Some 4) 90 None None = one_only.
Proof. intros ppf f [-> | ->]; unfold lognorm, invlognorm, log_checks, above, non_positive; decide_all; cbn; auto. Qed.
Example test_lognorm_low_gt_high : forall ppf f, f = lognorm ppf \/ f = invlognorm ppf ->
  f (Some 10) (Some 5) None None None None 90 None None = Err (ValueError "high value cannot be lower than low value").
Proof. intros ppf f [-> | ->]; unfold lognorm, invlognorm, log_checks, above, non_positive; decide_all; reflexivity. Qed.
Example test_lognorm_must_be_gt_0 : forall ppf f, f = lognorm ppf \/ f = invlognorm ppf ->
  f (Some 0) (Some 5) None None None None 90 None None = Err (ValueError "lognormal distribution must have values > 0") /\
  f (Some (-5)) (Some 5) None None None None 90 None None = Err (ValueError "lognormal distribution must have values > 0").
Proof. intros ppf f [-> | ->]; unfold lognorm, invlognorm, log_checks, above, non_positive; decide_all; split; reflexivity. Qed.
Example test_lognorm_passes_lclip_rclip : forall ppf f, f = lognorm ppf \/ f = invlognorm ppf -> forall lc rc,
  (exists m s lm ls, f (Some 1) (Some 2) None None None None 90 lc rc = Ok (mkLognormal m s lm ls lc rc)) /\
  (exists lm ls, f None None (Some 1) (Some 2) None None 90 lc rc = Ok (mkLognormal (Some 1) (Some 2) lm ls lc rc)) /\
  (exists m s, f None None None None (Some 1) (Some 2) 90 lc rc = Ok (mkLognormal m s (Some 1) (Some 2) lc rc)).
Proof.
  intros ppf f [-> | ->] lc rc; unfold lognorm, invlognorm, log_checks, above, non_positive; decide_all; cbn;
  unfold from_moments, inv_from_moments; decide_all; cbn; (split; [eauto 6|]); split; eauto.
Qed.

(** ** Inverse lognormal distributions *)
Lemma inv_mean m s : fst (inv_moments m s) = exp (- m - m - Rsqr s / 2).
Proof.
  unfold inv_moments. cbn [fst]. set (q := Rsqr s).
  assert (E : (exp q - 1) * exp (2 * m + q) + Rsqr (exp (m + q / 2)) = Rsqr (exp (m + q))).
  { unfold Rsqr. rewrite <- !exp_plus. replace (m + q / 2 + (m + q / 2)) with (2 * m + q) by lra. replace (m + q + (m + q)) with (q + (2 * m + q)) by lra.
    rewrite (exp_plus q). ring. }
  rewrite E, sqrt_Rsqr by (left; apply exp_pos). unfold Rdiv at 1. rewrite Rmult_1_l, <- exp_Ropp, <- exp_plus. f_equal. lra.
Qed.
Lemma inv_sd m s : snd (inv_moments m s) = exp (- m - m - Rsqr s / 2) * sqrt (exp (Rsqr s) - 1).
Proof. rewrite <- inv_mean. reflexivity. Qed.
Lemma under_one x : exp (- x) = / exp x. Proof. apply exp_Ropp. Qed.
Example test_invlognorm : forall ppf, ppf_ok ppf -> exists m s lm ls,
  invlognorm ppf (Some 1) (Some 2) None None None None 90 None None = Ok (mkLognormal (Some m) (Some s) (Some lm) (Some ls) None None) /\
  near m (-35/100) /\ near s (21/100) /\ near lm (196/100) /\ near ls (42/100).
Proof.
  intros ppf P. unfold invlognorm, log_checks, above, non_positive. decide_all. cbn - [inv_moments]. do 4 eexists. split; [reflexivity|].
  rewrite inv_mean, inv_sd. replace (1 / 1) with 1 by lra. rewrite (T_Formulas.ln_num 1 2) by lra. rewrite ln_1.
  set (m := (0 - ln 2 + 0) / 2). assert (M : m = - (ln 2 / 2)) by (unfold m; lra). rewrite M. replace (0 - - (ln 2 / 2)) with (ln 2 / 2) by lra.
  pose proof (spread _ P) as S. set (s := ln 2 / 2 / _) in *. pose proof ln2. clearbody s. clear M m.
  unfold near. split; [lra|]. split; [lra|].
  replace (- - (ln 2 / 2) - - (ln 2 / 2) - Rsqr s / 2) with (ln 2 + - (Rsqr s / 2)) by lra. rewrite exp_plus, under_one, exp_ln by lra.
  pose proof (spread_exp s S) as A. pose proof (spread_half_exp s S) as B.
  assert (C : 1955/1000 < 2 * / exp (Rsqr s / 2) < 1957/1000) by (apply quotient; lra). split; [lra|].
  assert (D : 21234/100000 < sqrt (exp (Rsqr s) - 1) < 216/1000) by (apply root_between; lra).
  pose proof (product_between _ _ _ _ _ _ C D ltac:(lra) ltac:(lra)). lra.
Qed.
Lemma root_e4 : 732/100 < sqrt (exp (Rsqr 2) - 1) < 7322/1000.
Proof. pose proof (exp_nat (Rsqr 2) 4 ltac:(unfold Rsqr; cbn; lra)). cbn [pow] in *. apply root_between; lra. Qed.
Example test_invlognorm_with_normmean_normsd : forall ppf, exists lm ls,
  invlognorm ppf None None (Some 1) (Some 2) None None 90 None None = Ok (mkLognormal (Some 1) (Some 2) (Some lm) (Some ls) None None) /\
  near lm (2/100) /\ near ls (13/100).
Proof.
  intros ppf. unfold invlognorm, log_checks. cbn - [inv_moments]. do 2 eexists. split; [reflexivity|]. rewrite inv_mean, inv_sd. unfold near.
  replace (- (1) - 1 - Rsqr 2 / 2) with (- (4)) by (unfold Rsqr; lra). rewrite under_one.
  pose proof (exp_nat 4 4 ltac:(cbn; lra)) as A. cbn [pow] in A. pose proof root_e4 as B.
  assert (C : 183/10000 < / exp 4 < 184/10000) by (rewrite <- (Rmult_1_l (/ exp 4)); apply quotient; lra). split; [lra|].
  pose proof (product_between _ _ _ _ _ _ C B ltac:(lra) ltac:(lra)). lra.
Qed.
Example test_invlognorm_with_just_normsd_infers_zero_norm_mean : forall ppf, exists lm ls,
  invlognorm ppf None None None (Some 2) None None 90 None None = Ok (mkLognormal (Some 0) (Some 2) (Some lm) (Some ls) None None) /\
  near lm (14/100) /\ near ls (99/100).
Proof.
  intros ppf. unfold invlognorm, log_checks. cbn - [inv_moments]. do 2 eexists. split; [reflexivity|]. rewrite inv_mean, inv_sd. unfold near.
  replace (- (0) - 0 - Rsqr 2 / 2) with (- (2)) by (unfold Rsqr; lra). rewrite under_one.
  pose proof e2 as A. pose proof root_e4 as B.
  assert (C : 1351/10000 < / exp 2 < 1356/10000) by (rewrite <- (Rmult_1_l (/ exp 2)); apply quotient; lra). split; [lra|].
  pose proof (product_between _ _ _ _ _ _ C B ltac:(lra) ltac:(lra)). lra.
Qed.
Example test_invlognorm_with_lognormmean_lognormsd : forall ppf, exists m s,
  invlognorm ppf None None None None (Some 1) (Some 2) 90 None None = Ok (mkLognormal (Some m) (Some s) (Some 1) (Some 2) None None) /\
  invlognorm ppf None None None None None (Some 2) 90 None None = Ok (mkLognormal (Some m) (Some s) (Some 1) (Some 2) None None) /\
  near m (-80/100) /\ near s (127/100).
Proof.
  intros ppf. unfold invlognorm, log_checks. cbn. unfold inv_from_moments. decide_all. cbn. do 2 eexists. split; [reflexivity|]. split; [reflexivity|].
  unfold near. replace (1 + Rsqr 2 / Rsqr 1) with 5 by (unfold Rsqr; lra). pose proof ln5. rewrite ln_1, Rsqr_sqrt by lra. split; [lra|]. apply root_between; lra.
Qed.

(** ** to *)
Example test_to : forall ppf lc rc,
  (exists d, to ppf 1 2 90 lc rc = Ok (DLognorm d)) /\ (exists d, to ppf (-1) 2 90 lc rc = Ok (DNorm d)) /\ (exists d, to ppf 0 10 90 lc rc = Ok (DNorm d)) /\
  (forall cred, to ppf 3 5 cred lc rc = match lognorm ppf (Some 3) (Some 5) None None None None cred lc rc with Ok d => Ok (DLognorm d) | Err e => Err e end) /\
  (forall cred, to ppf (-3) 3 cred lc rc = match norm ppf (Some (-3)) (Some 3) None None cred lc rc with Ok d => Ok (DNorm d) | Err e => Err e end).
Proof.
  intros. unfold to. decide_all. unfold lognorm, norm, log_checks, above, non_positive. decide_all. cbn. repeat split; eauto.
Qed.

(** ** The other constructors *)
Open Scope Q_scope.
Definition new (c : ctor) : res (dist nat) := construct c.
Example test_binomial_must_be_between_0_and_1 :
  new (NewBinomial 10 (1#10)) = Ok (DLeaf (LBinomial 10 (1#10)) None None) /\ new (NewBinomial 10 (-1)) = Err (ValueError "p must be between 0 and 1 (exclusive)") /\
  new (NewBinomial 10 (11#10)) = Err (ValueError "p must be between 0 and 1 (exclusive)").
Proof. repeat split. Qed.
Example test_bernoulli :
  new (NewBernoulli (Some (1#10))) = Ok (DLeaf (LBernoulli (1#10)) None None) /\ new (NewBernoulli (Some 1)) = Ok (DLeaf (LBernoulli 1) None None) /\
  new (NewBernoulli (Some 0)) = Ok (DLeaf (LBernoulli 0) None None) /\ new (NewBernoulli (Some (-1#10))) = Err (ValueError "bernoulli p must be between 0 and 1 inclusive") /\
  new (NewBernoulli (Some (11#10))) = Err (ValueError "bernoulli p must be between 0 and 1 inclusive") /\ new (NewBernoulli None) = Err (ValueError "bernoulli p must be a float or int").
Proof. repeat split. Qed.
Example test_triangular_pert :
  new (NewTriangular 1 3 5 None None) = Ok (DLeaf (LTriangular 1 3 5) None None) /\ new (NewPert 1 3 5 2 None None) = Ok (DLeaf (LPert 1 3 5 2) None None) /\
  (forall lc rc, new (NewPert 2 4 6 10 lc rc) = Ok (DLeaf (LPert 2 4 6 10) lc rc)) /\
  forallb (fun r => match r with Err (ValueError _) => true | _ => false end)
    [new (NewPert 5 2 3 4 None None); new (NewPert 1 4 3 4 None None); new (NewPert 1 0 3 4 None None); new (NewPert 1 2 3 (-1) None None)] = true.
Proof. repeat split. Qed.
Example test_geometric_must_be_between_0_and_1 :
  new (NewGeometric (1#10)) = Ok (DLeaf (LGeometric (1#10)) None None) /\ new (NewGeometric (-1)) = Err (ValueError "p must be between 0 and 1") /\
  new (NewGeometric (11#10)) = Err (ValueError "p must be between 0 and 1").
Proof. repeat split. Qed.
Example test_clips_are_kept : forall lc rc,
  new (NewExponential 10 lc rc) = Ok (DLeaf (LExponential 10) lc rc) /\ new (NewPoisson 10 lc rc) = Ok (DLeaf (LPoisson 10) lc rc) /\
  new (NewGamma 10 2 lc rc) = Ok (DLeaf (LGamma 10 2) lc rc) /\ new (NewT (Some (NI 1)) (Some (NI 3)) 5 90 lc rc) = Ok (DLeaf (LT (Some (NI 1)) (Some (NI 3)) 5 90) lc rc) /\
  new (NewLogT (Some (NI 1)) (Some (NI 3)) 5 90 lc rc) = Ok (DLeaf (LLogT (Some (NI 1)) (Some (NI 3)) 5 90) lc rc) /\
  new (NewT None None 5 90 lc rc) = Ok (DLeaf (LT None None 5 90) lc rc) /\ new (NewChiSquare 10) = Ok (DLeaf (LChiSquare 10) None None).
Proof. repeat split. Qed.

(** ** Mixtures and discrete distributions *)
Definition norm1 : obj nat := ODist (DLeaf (LNormal (3#2) (Some (3#10))) None None).
Definition norm3 : obj nat := ODist (DLeaf (LNormal (7#2) (Some (3#10))) None None).
Definition gamma3 : obj nat := ODist (DLeaf (LGamma 3 1) None None).
Definition two (a b : obj nat) : varg (mitem nat) := VList [MPlain a; MPlain b].
Definition w46 : warg := WList [Num (4#10); Num (6#10)].
Example test_mixture :
  mixture (two norm1 norm3) w46 WNone None None = Ok (DMixture [4#10; 6#10] [norm1; norm3] None None) /\
  mixture (two (OLit (PInt 10)) gamma3) w46 WNone None None = Ok (DMixture [4#10; 6#10] [OLit (PInt 10); gamma3] None None) /\
  mixture (two (OLit (PInt 10)) gamma3) WNone (WList [Num 4; Num 6]) None None = Ok (DMixture [4#10; 6#10] [OLit (PInt 10); gamma3] None None) /\
  mixture (two norm1 gamma3) WNone WNone None None = Ok (DMixture [1#2; 1#2] [norm1; gamma3] None None) /\
  mixture (two norm1 norm3) w46 WNone (Some (NI 1)) (Some (NI 4)) = Ok (DMixture [4#10; 6#10] [norm1; norm3] (Some (NI 1)) (Some (NI 4))) /\
  mixture (VList [MPair (Num (4#10)) norm1; MPair (Num (6#10)) norm3]) WNone WNone None None = Ok (DMixture [4#10; 6#10] [norm1; norm3] None None) /\
  mixture (VDict [(MPlain (OLit (PStr "a") : obj nat), Num (9#10)); (MPlain (OLit (PStr "b")), Num (1#10))]) WNone WNone None None
    = Ok (DMixture [9#10; 1#10] [OLit (PStr "a"); OLit (PStr "b")] None None) /\
  mixture (two (OLit (PInt 0)) (OLit (PInt 1))) WNone WNone None None = Ok (DMixture [1#2; 1#2] [OLit (PInt 0); OLit (PInt 1)] None None).
Proof. repeat split. Qed.
Example test_zero_inflated :
  match zero_inflated (PZNum (6#10)) norm1 with
  | Ok (DMixture [a; b] [OLit (PInt 0); d] None None) => Qeq_bool a (6#10) && Qeq_bool b (4#10) = true /\ d = norm1
  | _ => False end /\
  zero_inflated (PZNum (11#10)) norm1 = Err (ValueError "p_zero must be between 0 and 1").
Proof. repeat split. Qed.
Definition one_two_three : list exv_item := map IPlain [PInt 1; PInt 2; PInt 3].
Definition a_b : list (pv * cell) := [(PStr "a", Num (9#10)); (PStr "b", Num (1#10))].
Example test_discrete :
  categorical (ItDict a_b) = Ok (LCatDict a_b) /\ categorical (ItList one_two_three) = Ok (LCatList one_two_three) /\
  categorical ItBad = Err (ValueError "inputs to categorical must be a dict or list").
Proof. repeat split. Qed.
Example test_discrete_works_on_numpy : forall h : heap nat, new_discrete h (CaArray one_two_three) = Ok (HObj (ODist (DLeaf (LCatList one_two_three) None None))).
Proof. reflexivity. Qed.

(** ** Dice and named numbers *)
Example test_die_errors :
  die_of (PInt 6) ExNone = Ok (LDie 6 None) /\ die_of (PInt 6) (ExOne (PInt 6)) = Ok (LDie 6 (Some [6%Z])) /\
  die_of (PInt 6) (ExList [PInt 5; PInt 6]) = Ok (LDie 6 (Some [5; 6]%Z)) /\ die_of (PInt 1) ExNone = Err (ValueError "cannot roll less than a 2-sided die.") /\
  die_of (PFlt (Fin (5#2))) ExNone = Err (ValueError "can only roll an integer number of sides") /\
  die_of (PInt 6) (ExList (map PInt [1; 2; 3; 4; 5; 6]%Z)) = Err (ValueError "cannot explode on every value") /\
  die_of (PInt 6) (ExOne (PInt 7)) = Err (ValueError "explode_on values must be integers").
Proof. repeat split. Qed.
Example test_numbers : (K, M_, B, T_) = (1000, 10 ^ 6, 10 ^ 9, 10 ^ 12)%Z.
Proof. reflexivity. Qed.

(** ** Updates of normal distributions (tests/test_bayes.py); the quantile cancels from the mean. *)
Open Scope R_scope.
Lemma combined p w : 16448/10000 < p < 16449/10000 -> 0 < w ->
  combine (11/2) (Rsqr (9/2 / p)) 10 (Rsqr (5 / p)) w =
  Ok ((25 * (11/2) + w * (81/4) * 10) / (w * (81/4) + 25), sqrt (25 * (81/4) / (w * (81/4) + 25) / (p * p))).
Proof.
  intros P W. unfold combine.
  assert (E : Rsqr (5 / p) = 25 / (p * p)) by (unfold Rsqr; field; lra). assert (F : Rsqr (9/2 / p) = 81/4 / (p * p)) by (unfold Rsqr; field; lra).
  assert (PP : 0 < / (p * p)) by (apply Rinv_0_lt_compat; nra).
  rewrite E, F. assert (D : w * (81/4 / (p * p)) + 25 / (p * p) = (w * (81/4) + 25) * / (p * p)) by (field; lra). rewrite D.
  assert (G : 25 / (p * p) * (81/4 / (p * p)) / ((w * (81/4) + 25) * / (p * p)) = 25 * (81/4) / (w * (81/4) + 25) / (p * p)) by (field; nra). rewrite G.
  assert (0 < (w * (81/4) + 25) * / (p * p)) by (apply Rmult_lt_0_compat; lra).
  assert (0 < 25 * (81/4) / (w * (81/4) + 25) / (p * p)) by (apply Rmult_lt_0_compat; auto; apply Rdiv_lt_0_compat; lra).
  destruct (Req_EM_T _ 0); [lra|]. destruct (Rlt_dec _ 0); [lra|]. do 2 f_equal. field. nra.
Qed.
Definition updated ppf w m s := exists p e r, norm ppf (Some 1) (Some 10) None None 90 None None = Ok p /\ norm ppf (Some 5) (Some 15) None None 90 None None = Ok e /\
  update ppf (DNorm p) (DNorm e) w = Ok (DNorm r) /\ (exists x, n_mean r = Some x /\ near x m) /\ (exists x, n_sd r = Some x /\ near x s).
Lemma update_norms ppf w m s : ppf_ok ppf -> 0 < w -> near ((25 * (11/2) + w * (81/4) * 10) / (w * (81/4) + 25)) m ->
  near (sqrt (25 * (81/4) / (w * (81/4) + 25) / (ppf (cdf_value 90) * ppf (cdf_value 90)))) s -> updated ppf w m s.
Proof.
  intros P W M S. unfold updated, norm, above. decide_all. cbn. do 3 eexists. split; [reflexivity|]. split; [reflexivity|].
  cbn. replace ((1 + 10) / 2) with (11/2) by lra. replace ((5 + 15) / 2) with 10 by lra.
  replace (10 - 11/2) with (9/2) by lra. replace (15 - 10) with 5 by lra. rewrite combined by auto. cbn.
  split; [reflexivity|]. cbn. split; eauto.
Qed.
Example test_update_normal : forall ppf, ppf_ok ppf -> updated ppf 1 (751/100) (203/100).
Proof.
  intros ppf P. apply update_norms; auto; try lra; unfold near; [split; lra|]. unfold ppf_ok in P. set (p := ppf _) in *. clearbody p.
  assert (27053/10000 < p * p < 27057/10000) by (split; nra). apply root_between; try lra. apply quotient; lra.
Qed.
Example test_update_normal_evidence_weight : forall ppf, ppf_ok ppf -> updated ppf 3 (869/100) (148/100).
Proof.
  intros ppf P. apply update_norms; auto; try lra; unfold near; [split; lra|]. unfold ppf_ok in P. set (p := ppf _) in *. clearbody p.
  assert (27053/10000 < p * p < 27057/10000) by (split; nra). apply root_between; try lra. apply quotient; lra.
Qed.
