(** Laplace's rule, growth rates, extremizing, Sharpe ratio. *)
From Coq Require Import Reals Lra Lia ZArith.
From Verif Require Import Base M_Weights M_Formulas SpecFormulas P_Formulas.
Open Scope R_scope.

(* ---------------------------------------------------------------- Laplace *)
Lemma laplace_trials s n fixed : (s <= n)%Z -> (0 <= s)%Z ->
  laplace s (Some n) None None fixed = Ok (IZR (s + 1) / IZR (n + 2)) /\ 0 < IZR (s + 1) / IZR (n + 2) < 1.
Proof.
  intros H P. unfold laplace. assert (Z.ltb n s = false) as -> by (apply Z.ltb_ge; auto).
  assert (Z.eqb (n + 2) 0 = false) as -> by (apply Z.eqb_neq; lia). split; auto.
  assert (0 < IZR (s + 1)) by (apply IZR_lt; lia). assert (IZR (s + 1) < IZR (n + 2)) by (apply IZR_lt; lia).
  split; [apply Rdiv_lt_0_compat; lra|]. apply Rmult_lt_reg_r with (IZR (n + 2)); [lra|].
  unfold Rdiv. rewrite Rmult_assoc, Rinv_l by lra. lra.
Qed.
Lemma laplace_too_many s n tp tr fixed : (n < s)%Z ->
  laplace s (Some n) tp tr fixed = Err (ValueError "`s` cannot be greater than `n`").
Proof. intros H. unfold laplace. apply Z.ltb_lt in H. now rewrite H. Qed.

Lemma laplace_power_pos s fixed : (0 <= s)%Z -> (1 <= laplace_power s fixed)%Z.
Proof. unfold laplace_power. intros H. destruct (Z.eqb_spec s 0); [lia|]. destruct fixed; lia. Qed.

Lemma powerRZ_neg b k : 0 < b -> (0 <= k)%Z -> powerRZ b (- k) = / (b ^ Z.to_nat k).
Proof.
  intros B K. destruct k as [|k|k]; simpl; try lia; [field; lra|]. reflexivity.
Qed.
Lemma laplace_timed s n t rem fixed : (0 <= s)%Z -> (forall m, n = Some m -> (s <= m)%Z) -> 0 < t ->
  (forall r, rem = Some r -> 0 < r) ->
  let r := match rem with Some x => x | None => 1 end in
  laplace s n (Some t) rem fixed = Ok (1 - / (1 + r / t) ^ Z.to_nat (laplace_power s fixed)).
Proof.
  intros S N T R r. assert (Hr : 0 < r) by (unfold r; destruct rem; [auto|lra]). clear R.
  assert (B : 1 < 1 + r / t) by (assert (0 < r / t) by (apply Rdiv_lt_0_compat; auto); lra).
  assert (LT : forall k, (1 <= k)%Z -> laplace_time r t k = Ok (1 - / (1 + r / t) ^ Z.to_nat k)).
  { intros k K. unfold laplace_time, power_neg. rcases; try lra. simpl. rewrite powerRZ_neg by (lra || lia). reflexivity. }
  unfold laplace. assert (match n with Some m => Z.ltb m s | None => false end = false) as ->.
  { destruct n as [m|]; auto. apply Z.ltb_ge. auto. }
  change (match rem with Some x => x | None => 1 end) with r. unfold laplace_power.
  destruct (Z.eqb_spec s 0) as [->|Z]; [destruct rem; apply LT; lia|].
  assert (Z.ltb 0 s = true) as -> by (apply Z.ltb_lt; lia). destruct rem, fixed; simpl; apply LT; lia.
Qed.

Lemma laplace_timed_range r t k : 0 < r -> 0 < t -> (1 <= k)%nat -> 0 < 1 - / (1 + r / t) ^ k < 1.
Proof.
  intros R T K. assert (0 < r / t) by (apply Rdiv_lt_0_compat; auto).
  assert (1 < (1 + r / t) ^ k) by (apply Rlt_pow_R1; [lra|lia]).
  assert (0 < / (1 + r / t) ^ k) by (apply Rinv_0_lt_compat; lra).
  pose proof (Rinv_lt_contravar 1 ((1 + r / t) ^ k) ltac:(lra) ltac:(lra)) as I. rewrite Rinv_1 in I. lra.
Qed.
Lemma pow_mono a b k : 0 < a -> a < b -> (1 <= k)%nat -> a ^ k < b ^ k.
Proof.
  intros A B. induction k as [|k IH]; intros K; [lia|]. destruct k as [|k]; [simpl; lra|].
  change (a ^ S (S k)) with (a * a ^ S k). change (b ^ S (S k)) with (b * b ^ S k).
  pose proof (pow_lt a (S k) A). pose proof (IH ltac:(lia)). nra.
Qed.
Lemma laplace_base_mono b c k : 1 < b -> b < c -> (1 <= k)%nat -> 1 - / b ^ k < 1 - / c ^ k.
Proof.
  intros B C K. assert (/ c ^ k < / b ^ k); [|lra]. pose proof (pow_mono b c k ltac:(lra) C K).
  pose proof (pow_lt b k ltac:(lra)). apply Rinv_lt_contravar; auto. apply Rmult_lt_0_compat; lra.
Qed.
Lemma laplace_remaining r r' t k : 0 < r -> r < r' -> 0 < t -> (1 <= k)%nat ->
  1 - / (1 + r / t) ^ k < 1 - / (1 + r' / t) ^ k.
Proof.
  intros. apply laplace_base_mono; auto.
  - assert (0 < r / t) by (apply Rdiv_lt_0_compat; auto). lra.
  - apply Rplus_lt_compat_l. unfold Rdiv. apply Rmult_lt_compat_r; auto. now apply Rinv_0_lt_compat.
Qed.
Lemma laplace_passed r t t' k : 0 < r -> 0 < t -> t < t' -> (1 <= k)%nat ->
  1 - / (1 + r / t') ^ k < 1 - / (1 + r / t) ^ k.
Proof.
  intros. apply laplace_base_mono; auto.
  - assert (0 < r / t') by (apply Rdiv_lt_0_compat; lra). lra.
  - apply Rplus_lt_compat_l. unfold Rdiv. apply Rmult_lt_compat_l; auto. apply Rinv_lt_contravar; auto.
    apply Rmult_lt_0_compat; lra.
Qed.

(** Which calls fail. *)
Lemma laplace_failures s n tp tr fixed e : laplace s n tp tr fixed = Err e ->
  (forall t, tp = Some t -> 0 < t) -> (forall r, tr = Some r -> 0 < r) -> (0 <= s)%Z ->
  (e = ValueError "`s` cannot be greater than `n`" /\ exists m, n = Some m /\ (m < s)%Z) \/
  (tp = None /\ n = None /\ e = ValueError "Must define `time_passed` or `n`") \/
  (tp = None /\ n <> None /\ tr <> None /\ e = ValueError "Must define `time_passed`").
Proof.
  intros H T R S. destruct (match n with Some m => Z.ltb m s | None => false end) eqn:B.
  - left. destruct n as [m|]; [|discriminate]. unfold laplace in H. rewrite B in H. inversion H. split; auto.
    exists m. split; auto. now apply Z.ltb_lt.
  - assert (N : forall m, n = Some m -> (s <= m)%Z) by (intros m ->; now apply Z.ltb_ge).
    destruct tp as [t|].
    + rewrite (laplace_timed s n t tr fixed) in H; auto. discriminate.
    + unfold laplace in H. rewrite B in H. destruct tr, n as [m|]; inversion H; auto 10.
      * right; right. repeat split; auto; discriminate.
      * assert (Z.eqb (m + 2) 0 = false) as E by (apply Z.eqb_neq; specialize (N m eq_refl); lia). rewrite E in H. discriminate.
Qed.
Lemma laplace_negative s n t tr fixed : (s < 0)%Z -> (forall m, n = Some m -> (s <= m)%Z) ->
  laplace s n (Some t) tr fixed = Err (ValueError "Fatal logic error").
Proof.
  intros S N. unfold laplace. assert (match n with Some m => Z.ltb m s | None => false end = false) as ->.
  { destruct n as [m|]; auto. apply Z.ltb_ge. auto. }
  assert (Z.eqb s 0 = false) as -> by (apply Z.eqb_neq; lia). assert (Z.ltb 0 s = false) as -> by (apply Z.ltb_ge; lia).
  destruct tr; reflexivity.
Qed.

(* ---------------------------------------------------------------- growth *)
Lemma ln2_pos : 0 < ln 2.
Proof. rewrite <- ln_1. apply ln_increasing; lra. Qed.
Lemma doubling_value g : 0 < g -> growth_rate_to_doubling_time g = Ok (ln 2 / ln (1 + g)) /\
  0 < ln 2 / ln (1 + g) /\ Rpower (1 + g) (ln 2 / ln (1 + g)) = 2.
Proof.
  intros G. assert (L : 0 < ln (1 + g)) by (rewrite <- ln_1; apply ln_increasing; lra). pose proof ln2_pos.
  unfold growth_rate_to_doubling_time. rcases; try lra. split; auto. split; [now apply Rdiv_lt_0_compat|].
  unfold Rpower. replace (ln 2 / ln (1 + g) * ln (1 + g)) with (ln 2) by (field; lra). apply exp_ln. lra.
Qed.
Lemma growth_value t : 0 < t -> doubling_time_to_growth_rate t = Ok (exp (ln 2 / t) - 1) /\
  0 < exp (ln 2 / t) - 1 /\ Rpower (1 + (exp (ln 2 / t) - 1)) t = 2.
Proof.
  intros T. unfold doubling_time_to_growth_rate. rcases; [lra|]. split; auto. split.
  - assert (exp 0 < exp (ln 2 / t)); [|rewrite exp_0 in *; lra]. apply exp_increasing. apply Rdiv_lt_0_compat; auto. apply ln2_pos.
  - replace (1 + (exp (ln 2 / t) - 1)) with (exp (ln 2 / t)) by ring. unfold Rpower. rewrite ln_exp.
    replace (t * (ln 2 / t)) with (ln 2) by (field; lra). apply exp_ln. lra.
Qed.
Lemma growth_arrays l : Forall2 (fun g v =>
  match growth_rate_to_doubling_time g with
  | Ok d => v = RFin d
  | Err ZeroDivisionError => g = 0 /\ v = RInf
  | Err _ => g = -1 /\ v = RFin 0 \/ g < -1 /\ v = RNan
  end) l (growth_rates_to_doubling_times l).
Proof.
  unfold growth_rates_to_doubling_times. induction l as [|g l IH]; simpl; constructor; auto.
  unfold growth_rate_to_doubling_time, array_log. destruct (Rle_dec (1 + g) 0) as [L|L].
  - destruct (Rlt_dec 0 (1 + g)); [lra|]. destruct (Req_EM_T (1 + g) 0); simpl; [left|right]; split; auto; lra.
  - destruct (Rlt_dec 0 (1 + g)) as [P|]; [|lra]. cbn [ln2_over]. destruct (Req_EM_T (ln (1 + g)) 0) as [E|E]; auto.
    split; auto. assert (1 + g = 1); [|lra]. apply ln_inv; [auto|lra|]. now rewrite ln_1.
Qed.
Lemma doubling_arrays l : Forall2 (fun t v =>
  match doubling_time_to_growth_rate t with Ok g => v = RFin g | Err _ => t = 0 /\ v = RInf end)
  l (doubling_times_to_growth_rates l).
Proof.
  unfold doubling_times_to_growth_rates. induction l as [|t l IH]; simpl; constructor; auto.
  unfold doubling_time_to_growth_rate. destruct (Req_EM_T t 0); simpl; auto.
Qed.
Lemma growth_round_trip g : 0 < g -> bind (growth_rate_to_doubling_time g) doubling_time_to_growth_rate = Ok g.
Proof.
  intros G. destruct (doubling_value g G) as (E & P & _). rewrite E. simpl.
  destruct (growth_value _ P) as (E' & _). rewrite E'. f_equal.
  assert (L : 0 < ln (1 + g)) by (rewrite <- ln_1; apply ln_increasing; lra). pose proof ln2_pos.
  replace (ln 2 / (ln 2 / ln (1 + g))) with (ln (1 + g)) by (field; lra). rewrite exp_ln by lra. ring.
Qed.
Lemma doubling_round_trip t : 0 < t -> bind (doubling_time_to_growth_rate t) growth_rate_to_doubling_time = Ok t.
Proof.
  intros T. destruct (growth_value t T) as (E & P & _). rewrite E. simpl.
  destruct (doubling_value _ P) as (E' & _). rewrite E'. f_equal. pose proof ln2_pos.
  replace (1 + (exp (ln 2 / t) - 1)) with (exp (ln 2 / t)) by ring. rewrite ln_exp. field. lra.
Qed.

(* ---------------------------------------------------------------- extremize *)
Lemma power_unit x e : 0 < x < 1 -> 0 < e -> 0 < Rpower x e < 1.
Proof.
  intros [A B] E. split; [apply exp_pos|]. unfold Rpower. rewrite <- exp_0. apply exp_increasing.
  assert (ln x < 0) by (rewrite <- ln_1; apply ln_increasing; lra). nra.
Qed.
Lemma power_shrinks x e : 0 < x < 1 -> 1 <= e -> Rpower x e <= x.
Proof.
  intros [A B] E. rewrite <- (Rpower_1 x) at 2 by auto. unfold Rpower.
  assert (ln x < 0) by (rewrite <- ln_1; apply ln_increasing; lra).
  destruct (Req_dec e 1) as [->|N]; [lra|]. left. apply exp_increasing. nra.
Qed.
Lemma power_increasing x y e : 0 < x -> x < y -> 0 < e -> Rpower x e < Rpower y e.
Proof. intros A B E. unfold Rpower. apply exp_increasing. apply Rmult_lt_compat_l; auto. now apply ln_increasing. Qed.

Lemma extremize_value p e : 0 < p < 1 ->
  extremize p e = Ok (if Rlt_dec (1 / 2) p then 1 - Rpower (1 - p) e else Rpower p e).
Proof. intros H. unfold extremize. destruct (Rle_dec p 0); [lra|]. destruct (Rle_dec 1 p); [lra|]. destruct (Rlt_dec _ _); auto. Qed.
Lemma extremize_range p e r : 0 < e -> extremize p e = Ok r -> 0 < r < 1.
Proof.
  intros E H. unfold extremize in H. rcases; try discriminate; inversion H; subst.
  - pose proof (power_unit (1 - p) e ltac:(lra) E). lra.
  - apply power_unit; lra.
Qed.
Lemma extremize_one p : 0 < p < 1 -> extremize p 1 = Ok p.
Proof. intros H. rewrite extremize_value by auto. rcases; rewrite Rpower_1 by lra; f_equal; ring. Qed.
Lemma extremize_direction p e r : 1 <= e -> extremize p e = Ok r -> (1 / 2 < p -> p <= r) /\ (p <= 1 / 2 -> r <= p).
Proof.
  intros E H. unfold extremize in H. rcases; try discriminate; inversion H; subst.
  - pose proof (power_shrinks (1 - p) e ltac:(lra) E). lra.
  - pose proof (power_shrinks p e ltac:(lra) E). lra.
Qed.
Lemma extremize_symmetric p e : 0 < p < 1 -> p <> 1 / 2 -> extremize (1 - p) e = map_res (fun r => 1 - r) (extremize p e).
Proof.
  intros H N. rewrite !extremize_value by lra. simpl. f_equal. rcases; try lra; replace (1 - (1 - p)) with p by ring; ring.
Qed.
Lemma extremize_increasing p q e a b : 0 < e -> p < q -> extremize p e = Ok a -> extremize q e = Ok b ->
  (q <= 1 / 2 \/ 1 / 2 < p \/ 1 <= e) -> a < b.
Proof.
  intros E L A B C. unfold extremize in A, B. rcases; try discriminate; inversion A; inversion B; subst; try lra.
  - pose proof (power_increasing (1 - q) (1 - p) e ltac:(lra) ltac:(lra) E). lra.
  - destruct C as [?|[?|C]]; try lra.
    pose proof (power_shrinks (1 - q) e ltac:(lra) C). pose proof (power_shrinks p e ltac:(lra) C). lra.
  - apply power_increasing; lra.
Qed.
Lemma extremize_rejects p e : (exists r, extremize p e = Ok r) <-> 0 < p < 1.
Proof.
  split; [|intros H; rewrite extremize_value by auto; eauto]. intros (r & H). unfold extremize in H. rcases; try discriminate; lra.
Qed.

(* ---------------------------------------------------------------- Sharpe ratio *)
Lemma rsum_shift c l : rsum (map (fun x => x + c) l) = rsum l + INR (length l) * c.
Proof. induction l as [|x l IH]; [simpl; lra|]. cbn [map rsum length]. rewrite IH, S_INR. ring. Qed.
Lemma rsum_scale k l : rsum (map (fun x => k * x) l) = k * rsum l.
Proof. induction l as [|x l IH]; simpl; [lra|]. rewrite IH. ring. Qed.
Lemma mean_shift c l : l <> [] -> np_mean (map (fun x => x + c) l) = np_mean l + c.
Proof.
  intros N. unfold np_mean. rewrite map_length, rsum_shift. field. apply not_0_INR. destruct l; simpl; congruence.
Qed.
Lemma mean_scale k l : np_mean (map (fun x => k * x) l) = k * np_mean l.
Proof. unfold np_mean. rewrite map_length, rsum_scale. unfold Rdiv. ring. Qed.
Lemma std_shift c l : l <> [] -> np_std (map (fun x => x + c) l) = np_std l.
Proof.
  intros N. unfold np_std. rewrite mean_shift by auto. do 2 f_equal. rewrite map_map. apply map_ext. intros x. f_equal. ring.
Qed.
Lemma mean_nonneg l : (forall x, In x l -> 0 <= x) -> 0 <= np_mean l.
Proof.
  intros H. unfold np_mean. destruct l as [|x l]; [simpl; unfold Rdiv; lra|].
  apply Rmult_le_pos; [|left; apply Rinv_0_lt_compat, lt_0_INR; simpl; lia].
  clear - H. induction (x :: l) as [|y m IH]; simpl; [lra|]. pose proof (H y ltac:(now left)).
  assert (0 <= rsum m) by (apply IH; intros; apply H; now right). lra.
Qed.
Lemma std_scale k l : np_std (map (fun x => k * x) l) = Rabs k * np_std l.
Proof.
  unfold np_std. rewrite mean_scale, map_map.
  rewrite (map_ext _ (fun x => Rsqr k * Rsqr (x - np_mean l))).
  2: { intros x. unfold Rsqr. ring. }
  rewrite <- (map_map (fun x => Rsqr (x - np_mean l)) (fun y => Rsqr k * y)), mean_scale.
  rewrite sqrt_mult; [|apply Rle_0_sqr|]. { now rewrite sqrt_Rsqr_abs. }
  apply mean_nonneg. intros x I. apply in_map_iff in I as (y & <- & _). apply Rle_0_sqr.
Qed.

Lemma sharpe_shift c l r : sharpe_ratio (map (fun x => x + c) l) (r + c) = sharpe_ratio l r.
Proof.
  destruct l as [|x l]; [reflexivity|]. unfold sharpe_ratio. cbn [map].
  change (x + c :: map (fun x => x + c) l) with (map (fun x => x + c) (x :: l)).
  rewrite mean_shift, std_shift by discriminate.
  replace (np_mean (x :: l) + c - (r + c)) with (np_mean (x :: l) - r) by ring. reflexivity.
Qed.
Lemma sharpe_scale k l r : 0 < k -> sharpe_ratio (map (fun x => k * x) l) (k * r) = sharpe_ratio l r.
Proof.
  intros K. destruct l as [|x l]; [reflexivity|]. unfold sharpe_ratio. cbn [map].
  change (k * x :: map (fun x => k * x) l) with (map (fun x => k * x) (x :: l)).
  rewrite mean_scale, std_scale, Rabs_pos_eq by lra. set (m := np_mean (x :: l)). set (s := np_std (x :: l)).
  replace (k * m - k * r) with (k * (m - r)) by ring.
  destruct (Req_EM_T s 0) as [Z|Z], (Req_EM_T (k * s) 0) as [Z'|Z'].
  - destruct (Rlt_dec 0 (m - r)), (Rlt_dec 0 (k * (m - r))), (Rlt_dec (m - r) 0), (Rlt_dec (k * (m - r)) 0); auto; exfalso; nra.
  - exfalso. apply Z'. rewrite Z. ring.
  - exfalso. apply Rmult_integral in Z' as [?|?]; [lra|contradiction].
  - f_equal. field. split; auto. lra.
Qed.
Lemma sharpe_negate l r : sharpe_ratio (map (fun x => - x) l) (- r) = opposite (sharpe_ratio l r).
Proof.
  destruct l as [|y l]; [reflexivity|]. unfold sharpe_ratio in *. cbn [map].
  change (- y :: map (fun x => - x) l) with (map (fun x => - x) (y :: l)).
  rewrite (map_ext (fun x => - x) (fun x => -1 * x)) by (intros; ring).
  rewrite mean_scale, std_scale. set (m := np_mean (y :: l)) in *. set (s := np_std (y :: l)) in *.
  replace (Rabs (-1)) with 1 by (rewrite Rabs_left by lra; ring). rewrite Rmult_1_l.
  replace (-1 * m - - r) with (- (m - r)) by ring.
  destruct (Req_EM_T s 0) as [Z|Z]; [rcases; simpl; auto; lra|]. simpl. f_equal. field. auto.
Qed.
Lemma sharpe_formula l r : l <> [] -> np_std l <> 0 -> sharpe_ratio l r = RFin ((np_mean l - r) / np_std l).
Proof. intros N Z. destruct l; [contradiction|]. unfold sharpe_ratio. destruct (Req_EM_T _ 0); [contradiction|reflexivity]. Qed.
Lemma laplace_trials_increasing s s' n : (0 <= n)%Z -> (s < s')%Z -> IZR (s + 1) / IZR (n + 2) < IZR (s' + 1) / IZR (n + 2).
Proof.
  intros N L. unfold Rdiv. apply Rmult_lt_compat_r; [apply Rinv_0_lt_compat, IZR_lt; lia|apply IZR_lt; lia].
Qed.
Lemma laplace_more_successes b k k' : 1 < b -> (k < k')%nat -> 1 - / b ^ k < 1 - / b ^ k'.
Proof.
  intros B L. assert (/ b ^ k' < / b ^ k); [|lra]. pose proof (Rlt_pow b k k' B L). pose proof (pow_lt b k ltac:(lra)).
  apply Rinv_lt_contravar; auto. apply Rmult_lt_0_compat; lra.
Qed.

Lemma laplace_no_division s n t rem fixed : (0 <= s)%Z -> (forall m, n = Some m -> (s <= m)%Z) ->
  t = 0 \/ rem = Some (- t) ->
  laplace s n (Some t) rem fixed = Err ZeroDivisionError.
Proof.
  intros S N H.
  set (r := match rem with Some x => x | None => 1 end).
  assert (LT : forall k, (1 <= k)%Z -> laplace_time r t k = Err ZeroDivisionError).
  { intros k K. unfold laplace_time. destruct (Req_EM_T t 0) as [E|E]; [reflexivity|].
    destruct H as [H|H]; [contradiction|]. unfold r. rewrite H. unfold power_neg.
    replace (1 + - t / t) with 0 by (field; exact E). destruct (Req_EM_T 0 0); [|lra].
    assert (Z.ltb 0 k = true) as -> by (apply Z.ltb_lt; lia). reflexivity. }
  unfold laplace. assert (match n with Some m => Z.ltb m s | None => false end = false) as ->.
  { destruct n as [m|]; auto. apply Z.ltb_ge. auto. }
  change (match rem with Some x => x | None => 1 end) with r.
  destruct (Z.eqb_spec s 0) as [->|Z]; [destruct rem; apply LT; lia|].
  assert (Z.ltb 0 s = true) as -> by (apply Z.ltb_lt; lia). destruct rem, fixed; simpl; apply LT; lia.
Qed.

(** Growth rates and doubling times that are not positive. *)
Lemma growth_outside : (forall g, g <= -1 -> growth_rate_to_doubling_time g = Err (ValueError "math domain error")) /\
  growth_rate_to_doubling_time 0 = Err ZeroDivisionError /\
  (forall g, -1 < g < 0 -> exists d, growth_rate_to_doubling_time g = Ok d /\ d < 0) /\
  doubling_time_to_growth_rate 0 = Err ZeroDivisionError /\
  (forall t, t < 0 -> exists g, doubling_time_to_growth_rate t = Ok g /\ -1 < g < 0).
Proof.
  pose proof ln2_pos as L2. unfold growth_rate_to_doubling_time, doubling_time_to_growth_rate.
  split; [intros g G; destruct (Rle_dec (1 + g) 0); [reflexivity|lra]|].
  split. { destruct (Rle_dec (1 + 0) 0); [lra|]. destruct (Req_EM_T (ln (1 + 0)) 0) as [|N]; [reflexivity|]. exfalso. apply N. rewrite Rplus_0_r. apply ln_1. }
  split. { intros g G. destruct (Rle_dec (1 + g) 0); [lra|]. assert (L : ln (1 + g) < 0) by (rewrite <- ln_1; apply ln_increasing; lra).
    destruct (Req_EM_T (ln (1 + g)) 0); [lra|]. eexists. split; [reflexivity|]. pose proof (Rinv_lt_0_compat _ L). unfold Rdiv. nra. }
  split; [destruct (Req_EM_T 0 0); [reflexivity|contradiction]|].
  intros t T. destruct (Req_EM_T t 0); [lra|]. eexists. split; [reflexivity|]. pose proof (exp_pos (ln 2 / t)). pose proof (Rinv_lt_0_compat _ T).
  assert (N : ln 2 / t < 0) by (unfold Rdiv; nra). apply exp_increasing in N. rewrite exp_0 in N. lra.
Qed.

(** Orders of results. *)
Lemma scalar_odds x a : p_to_odds (RScalar (RFin x)) = Ok (RScalar (RFin a)) -> 0 < x < 1 /\ a = x / (1 - x).
Proof.
  intros H. assert (P : 0 < x < 1).
  { destruct (Rlt_dec 0 x) as [A|A], (Rlt_dec x 1) as [B|B]; auto; exfalso;
    (assert (F : p_to_odds (RScalar (RFin x)) = Err (ValueError "p must be between 0 and 1"));
     [apply (proj1 (p_to_odds_rejects _)); exists (RFin x); split; [left; reflexivity|cbn; lra]|congruence]). }
  split; auto. unfold p_to_odds in H. simpl in H. destruct (odds_value x P) as [E _]. rewrite E in H. now inversion H.
Qed.
Lemma scalar_prob x a : odds_to_p (RScalar (RFin x)) = Ok (RScalar (RFin a)) -> 0 < x /\ a = x / (1 + x).
Proof.
  intros H. assert (P : 0 < x).
  { destruct (Rlt_dec 0 x) as [A|A]; auto; exfalso.
    assert (F : odds_to_p (RScalar (RFin x)) = Err (ValueError "odds must be greater than 0")).
    { apply (proj1 (odds_to_p_rejects _)); exists (RFin x); split; [left; reflexivity|split; [cbn; lra|discriminate]]. }
    congruence. }
  split; auto. unfold odds_to_p in H. simpl in H. destruct (prob_value x P) as [E _]. rewrite E in H. now inversion H.
Qed.
Lemma conversions_increase x y a b : x < y ->
  (p_to_odds (RScalar (RFin x)) = Ok (RScalar (RFin a)) -> p_to_odds (RScalar (RFin y)) = Ok (RScalar (RFin b)) -> a < b) /\
  (odds_to_p (RScalar (RFin x)) = Ok (RScalar (RFin a)) -> odds_to_p (RScalar (RFin y)) = Ok (RScalar (RFin b)) -> a < b).
Proof.
  intros L. split; intros A B.
  - apply scalar_odds in A as [A ->]. apply scalar_odds in B as [B ->]. apply odds_increasing; lra.
  - apply scalar_prob in A as [A ->]. apply scalar_prob in B as [B ->]. apply prob_increasing; lra.
Qed.
Lemma laplace_within s n tp tr fixed p : laplace s (Some n) tp tr fixed = Ok p -> (s <= n)%Z.
Proof. intros H. unfold laplace in H. destruct (Z.ltb_spec n s); [discriminate|lia]. Qed.
Lemma laplace_trials_order s s' n fixed p q : (0 <= s < s')%Z -> laplace s (Some n) None None fixed = Ok p -> laplace s' (Some n) None None fixed = Ok q -> p < q.
Proof.
  intros L P Q. pose proof (laplace_within _ _ _ _ _ _ P). pose proof (laplace_within _ _ _ _ _ _ Q).
  destruct (laplace_trials s n fixed) as [E _]; [lia|lia|]. destruct (laplace_trials s' n fixed) as [E' _]; [lia|lia|].
  rewrite E in P. rewrite E' in Q. inversion P; inversion Q; subst. apply laplace_trials_increasing; lia.
Qed.
Lemma laplace_value s n t r fixed p : (0 <= s)%Z -> 0 < t -> 0 < r -> laplace s n (Some t) (Some r) fixed = Ok p ->
  p = 1 - / (1 + r / t) ^ Z.to_nat (laplace_power s fixed) /\ (1 <= Z.to_nat (laplace_power s fixed))%nat.
Proof.
  intros S T R H. pose proof (laplace_power_pos s fixed S).
  assert (W : forall m, n = Some m -> (s <= m)%Z) by (intros m ->; eapply laplace_within; eauto).
  pose proof (laplace_timed s n t (Some r) fixed S W T) as E. cbv zeta in E. rewrite E in H by (intros ? X; now inversion X; subst).
  inversion H; subst. split; [reflexivity|lia].
Qed.
Lemma laplace_times_order s n fixed t r p : (0 <= s)%Z -> 0 < t -> 0 < r -> laplace s n (Some t) (Some r) fixed = Ok p ->
  0 < p < 1 /\
  (forall r' q, r < r' -> laplace s n (Some t) (Some r') fixed = Ok q -> p < q) /\
  (forall t' q, t < t' -> laplace s n (Some t') (Some r) fixed = Ok q -> q < p) /\
  (forall s' q, (laplace_power s fixed < laplace_power s' fixed)%Z -> laplace s' n (Some t) (Some r) fixed = Ok q -> p < q).
Proof.
  intros S T R H. destruct (laplace_value _ _ _ _ _ _ S T R H) as [-> K]. split; [now apply laplace_timed_range|]. split; [|split].
  - intros r' q L H'. destruct (laplace_value s n t r' fixed q S T ltac:(lra) H') as [-> _]. apply laplace_remaining; auto.
  - intros t' q L H'. destruct (laplace_value s n t' r fixed q S ltac:(lra) R H') as [-> _]. apply laplace_passed; auto.
  - intros s' q L H'. assert (S' : (0 <= s')%Z).
    { destruct (Z.leb_spec 0 s'); auto. exfalso. unfold laplace_power in L. destruct (Z.eqb_spec s 0), (Z.eqb_spec s' 0), fixed; lia. }
    destruct (laplace_value s' n t r fixed q S' T R H') as [-> K']. apply laplace_more_successes; [|lia].
    assert (0 < r / t) by (apply Rdiv_lt_0_compat; auto). lra.
Qed.
