From Coq Require Import Permutation Qabs Lqa Qround Setoid Morphisms Qfield.
From Verif Require Import Base M_Ops M_Float M_Double M_DoubleProb M_DoubleMean M_DoubleConj SpecFloat SpecDouble SpecDoubleMean SpecDoubleConj P_Float P_Double P_DoubleProb P_DoubleMean.
Open Scope Q_scope.

(** Equal up to [k] roundings, a symmetric relation between positive numbers. *)
Notation v := (1 - double_u).
Definition near (k : nat) (x y : Q) : Prop := 0 < x /\ 0 < y /\ qpow v k * y <= x /\ qpow v k * x <= y.
Lemma v_bounds : 0 < v /\ v <= 1.
Proof. split; vm_compute; congruence. Qed.
Lemma vpow_pos k : 0 < qpow v k.
Proof. induction k; cbn [qpow]; [reflexivity|]. apply Qmult_lt_0_compat; [apply v_bounds|auto]. Qed.
Lemma vpow_add j k : qpow v (j + k) == qpow v j * qpow v k.
Proof. induction j; cbn [Nat.add qpow]; [ring|]. rewrite IHj. ring. Qed.
Lemma near_refl x : 0 < x -> near 0 x x.
Proof. intros H. unfold near. cbn [qpow]. repeat split; auto; lra. Qed.
Lemma near_weaken j k x y : (j <= k)%nat -> near j x y -> near k x y.
Proof.
  intros L (A & B & C & D). pose proof (vpow_pos j). pose proof (vpow_pos k).
  assert (V : qpow v k <= qpow v j).
  { replace k with (k - j + j)%nat by lia. rewrite vpow_add. pose proof (pow_le_1 v (k - j) ltac:(apply Qlt_le_weak, v_bounds) (proj2 v_bounds)).
    setoid_replace (qpow v j) with (1 * qpow v j) at 2 by ring. apply Qmult_le_compat_r; lra. }
  repeat split; auto; (eapply Qle_trans; [apply Qmult_le_compat_r; [exact V|lra]|auto]).
Qed.
Lemma near_trans j k x y z : near j x y -> near k y z -> near (j + k) x z.
Proof.
  intros (A & B & C & D) (A' & B' & C' & D'). pose proof (vpow_pos j) as J. pose proof (vpow_pos k) as K. repeat split; auto; rewrite vpow_add.
  - apply Qle_trans with (qpow v j * y); auto. rewrite <- Qmult_assoc, !(Qmult_comm (qpow v j)). apply Qmult_le_compat_r; [auto|lra].
  - apply Qle_trans with (qpow v k * y); auto. rewrite (Qmult_comm (qpow v j)), <- Qmult_assoc, !(Qmult_comm (qpow v k)). apply Qmult_le_compat_r; [auto|lra].
Qed.
Lemma near_compat k x x' y y' : x == x' -> y == y' -> near k x y -> near k x' y'.
Proof. unfold near. intros E F. rewrite E, F. auto. Qed.
Lemma near_rnd x : 0 < x -> near 1 (rnd x) x.
Proof.
  intros X. destruct (rnd_range x ltac:(lra)) as [L H]. pose proof (rnd_pos_lt x X) as R. unfold near. cbn [qpow]. split; [exact R|]. split; [exact X|]. split.
  - rewrite Qmult_1_r. exact L.
  - pose proof u_val as [U0 U1]. rewrite Qmult_1_r. apply Qle_trans with (v * ((1 + double_u) * x)).
    + rewrite !(Qmult_comm v). apply Qmult_le_compat_r; [auto|]. apply Qlt_le_weak, v_bounds.
    + setoid_replace (v * ((1 + double_u) * x)) with (x - double_u * double_u * x) by ring.
      assert (0 <= double_u * double_u * x) by (repeat apply Qmult_le_0_compat; lra). lra.
Qed.
Lemma near_mul j k a b c d : near j a b -> near k c d -> near (j + k) (a * c) (b * d).
Proof.
  intros (A & B & C & D) (A' & B' & C' & D'). pose proof (vpow_pos j) as J. pose proof (vpow_pos k) as K.
  assert (M : forall x y x' y', 0 <= x -> x <= y -> 0 <= x' -> x' <= y' -> x * x' <= y * y').
  { intros x y x' y' X XY X' XY'. apply Qle_trans with (y * x'); [apply Qmult_le_compat_r; auto|]. rewrite !(Qmult_comm y). apply Qmult_le_compat_r; auto. lra. }
  repeat split; try (apply Qmult_lt_0_compat; auto); rewrite vpow_add.
  - setoid_replace (qpow v j * qpow v k * (b * d)) with ((qpow v j * b) * (qpow v k * d)) by ring.
    apply M; auto; apply Qmult_le_0_compat; lra.
  - setoid_replace (qpow v j * qpow v k * (a * c)) with ((qpow v j * a) * (qpow v k * c)) by ring.
    apply M; auto; apply Qmult_le_0_compat; lra.
Qed.
Lemma near_inv k a b : near k a b -> near k (/ a) (/ b).
Proof.
  intros (A & B & C & D). pose proof (Qinv_lt_0_compat _ A) as A'. pose proof (Qinv_lt_0_compat _ B) as B'. repeat split; auto.
  - apply (Qmult_le_r _ _ (a * b)); [apply Qmult_lt_0_compat; auto|].
    setoid_replace (qpow v k * / b * (a * b)) with (qpow v k * a) by (field; apply pos_neq; auto).
    setoid_replace (/ a * (a * b)) with b by (field; apply pos_neq; auto). auto.
  - apply (Qmult_le_r _ _ (a * b)); [apply Qmult_lt_0_compat; auto|].
    setoid_replace (qpow v k * / a * (a * b)) with (qpow v k * b) by (field; apply pos_neq; auto).
    setoid_replace (/ b * (a * b)) with a by (field; apply pos_neq; auto). auto.
Qed.
Lemma near_add k a b c d : near k a b -> near k c d -> near k (a + c) (b + d).
Proof. intros (A & B & C & D) (A' & B' & C' & D'). repeat split; lra. Qed.
Lemma near_error k x y : (k <= 1000)%nat -> near k x y -> Qabs (x - y) <= inject_Z (Z.of_nat (S k)) * double_u * y.
Proof.
  intros K (A & B & C & D). pose proof u_val as [U0 _]. pose proof (pow_low double_u k ltac:(lra) ltac:(vm_compute; discriminate)) as P.
  rewrite nat_S_q. pose proof (nat_q_nonneg k) as N. assert (N1 : inject_Z (Z.of_nat k) <= 1000) by (apply (Zq_le _ 1000); lia).
  set (n := inject_Z (Z.of_nat k)) in *. clearbody n. assert (W : 1000 * double_u * 1001 <= 1) by (vm_compute; discriminate).
  set (w := qpow v k) in *. clearbody w. set (u := double_u) in *. clearbody u.
  assert (Cy : (1 - n * u) * y <= x) by (eapply Qle_trans; [apply Qmult_le_compat_r; [exact P|lra]|auto]).
  assert (Cx : (1 - n * u) * x <= y) by (eapply Qle_trans; [apply Qmult_le_compat_r; [exact P|lra]|auto]).
  assert (NU : 0 <= n * u) by (apply Qmult_le_0_compat; lra).
  assert (NU1 : n * u <= 1000 * u) by (apply Qmult_le_compat_r; lra).
  apply Qabs_Qle_condition. split.
  - assert (0 <= u * y) by (apply Qmult_le_0_compat; lra). lra.
  - destruct (Qlt_le_dec ((1 + (n + 1) * u) * y) x) as [L|L]; [exfalso|lra].
    assert (X : (1 - n * u) * ((1 + (n + 1) * u) * y) < (1 - n * u) * x) by (rewrite !(Qmult_comm (1 - n * u)); apply Qmult_lt_compat_r; [lra|auto]).
    assert (Y : 0 <= u * (1 - n * (u * (n + 1))) * y).
    { apply Qmult_le_0_compat; [apply Qmult_le_0_compat|]; try lra.
      assert (n * (u * (n + 1)) <= 1000 * u * 1001); [|lra].
      apply Qle_trans with (n * u * 1001); [|apply Qmult_le_compat_r; lra].
      setoid_replace (n * (u * (n + 1))) with ((n + 1) * (n * u)) by ring. rewrite (Qmult_comm (n * u)). apply Qmult_le_compat_r; lra. }
    assert (Z : (1 - n * u) * ((1 + (n + 1) * u) * y) == y + u * (1 - n * (u * (n + 1))) * y) by ring.
    lra.
Qed.
Lemma near_op k x y : near k x y -> near (k + 1) (Qred (rnd x)) y.
Proof.
  intros N. rewrite Nat.add_comm. eapply near_trans; [|exact N]. eapply near_compat; [symmetry; apply Qred_correct|reflexivity|].
  apply near_rnd. apply N.
Qed.
Lemma divide_near j k a b c d : near j a b -> near k c d -> exists q, fdivide a c = Ok q /\ near (j + k + 1) q (b / d).
Proof.
  intros A C. unfold fdivide. destruct (Qeq_bool c 0) eqn:E.
  - apply Qeq_bool_iff in E. exfalso. apply (pos_neq c); [apply C|auto].
  - eexists. split; [reflexivity|]. apply near_op. apply near_mul; auto. apply near_inv; auto.
Qed.
Lemma gamma_near s t s' t' w : 0 < s -> 0 < t -> 0 < s' -> 0 < t' -> 0 < w ->
  exists K Th, fl_gamma_update (s, t) (s', t') w = Ok (K, Th) /\ near 2 K (exact_shape s s' w) /\ near 8 Th (exact_scale s t s' t' w).
Proof.
  intros S T S' T' W. unfold fl_gamma_update. cbn [fst snd].
  assert (ES : near 1 (dmul s' w) (s' * w)) by (apply (near_op 0), near_refl, Qmult_lt_0_compat; auto).
  assert (SH : near 2 (dadd s (dmul s' w)) (s + s' * w)).
  { apply (near_op 1), near_add; auto. apply (near_weaken 0); [lia|]. apply near_refl; auto. }
  destruct (divide_near 0 0 1 1 t t (near_refl 1 eq_refl) (near_refl t T)) as (pr & -> & PR). cbn [bind].
  destruct (divide_near 0 0 1 1 t' t' (near_refl 1 eq_refl) (near_refl t' T')) as (er & -> & ER). cbn [bind].
  assert (P1 : near 2 (dmul s pr) (s * (1 / t))) by (apply (near_op 1), (near_mul 0 1); auto; apply near_refl; auto).
  assert (P2 : near 3 (dmul (dmul s' w) er) (s' * w * (1 / t'))) by (apply (near_op 2), (near_mul 1 1); auto).
  assert (P3 : near 4 (dadd (dmul s pr) (dmul (dmul s' w) er)) (s * (1 / t) + s' * w * (1 / t'))).
  { apply (near_op 3), near_add; auto. apply (near_weaken 2); auto. }
  destruct (divide_near 4 2 _ _ _ _ P3 SH) as (rate & -> & R). cbn [bind].
  destruct (divide_near 0 7 1 1 _ _ (near_refl 1 eq_refl) R) as (sc & -> & SC). cbn [bind].
  exists (dadd s (dmul s' w)), sc. split; [reflexivity|]. split; [exact SH|].
  eapply near_compat; [reflexivity| |exact SC]. unfold exact_scale. destruct SH as (_ & SP & _). destruct P3 as (_ & PP & _).
  assert (E : s * (1 / t) + s' * w * (1 / t') == s / t + s' * w / t') by (field; split; apply pos_neq; auto).
  rewrite E in *. set (a := s + s' * w) in *. set (b := s / t + s' * w / t') in *. field. split; apply pos_neq; auto.
Qed.
Lemma gamma_close s t s' t' w : 0 < s -> 0 < t -> 0 < s' -> 0 < t' -> 0 < w ->
  exists K Th, fl_gamma_update (s, t) (s', t') w = Ok (K, Th) /\ 0 < K /\ 0 < Th /\
    Qabs (K - exact_shape s s' w) <= 3 * double_u * exact_shape s s' w /\
    Qabs (Th - exact_scale s t s' t' w) <= 9 * double_u * exact_scale s t s' t' w.
Proof.
  intros S T S' T' W. destruct (gamma_near s t s' t' w S T S' T' W) as (K & Th & E & NK & NT). exists K, Th.
  split; [exact E|]. split; [apply NK|]. split; [apply NT|]. split; [apply (near_error 2)|apply (near_error 8)]; auto; lia.
Qed.
Lemma dadd_comm a b : dadd a b = dadd b a.
Proof. unfold dadd. apply Qred_complete, rnd_compat. ring. Qed.
Lemma dadd_compat a a' b b' : a == a' -> b == b' -> dadd a b = dadd a' b'.
Proof. intros A B. unfold dadd. apply Qred_complete, rnd_compat. rewrite A, B. reflexivity. Qed.
Lemma dmul_compat a a' b b' : a == a' -> b == b' -> dmul a b = dmul a' b'.
Proof. intros A B. unfold dmul. apply Qred_complete, rnd_compat. rewrite A, B. reflexivity. Qed.
Lemma dmul_one a : is_double a -> dmul a 1 == a.
Proof. intros D. rewrite dmul_rnd, (rnd_compat _ a) by ring. apply rnd_exact; auto. Qed.
Lemma gamma_comm p e : is_double (fst p) -> is_double (fst e) -> fl_gamma_update p e 1 = fl_gamma_update e p 1.
Proof.
  destruct p as [s t], e as [s' t']. cbn [fst]. intros D D'. unfold fl_gamma_update. cbn [fst snd].
  rewrite (dadd_compat s s (dmul s' 1) s') by (auto using dmul_one; reflexivity).
  rewrite (dadd_compat s' s' (dmul s 1) s) by (auto using dmul_one; reflexivity).
  rewrite (dadd_comm s' s).
  unfold fdivide at 1 2 5 6. destruct (Qeq_bool t 0) eqn:E, (Qeq_bool t' 0) eqn:E'; cbn [bind]; try reflexivity.
  rewrite (dmul_compat (dmul s' 1) s' _ _) by (auto using dmul_one; reflexivity).
  rewrite (dmul_compat (dmul s 1) s _ _) by (auto using dmul_one; reflexivity).
  rewrite dadd_comm. reflexivity.
Qed.
Lemma beta_comm p e : fl_beta_update p e = fl_beta_update e p.
Proof. unfold fl_beta_update. rewrite (dadd_comm (fst p)), (dadd_comm (snd p)). reflexivity. Qed.

Fixpoint part (f : Q * Q -> Q) (t : combined) : additions :=
  match t with Single ab => Term (f ab) | Both x y => Plus (part f x) (part f y) end.
Lemma part_terms f t : terms (part f t) = map f (pieces t).
Proof. induction t; cbn [part terms pieces map]; [reflexivity|]. rewrite map_app. congruence. Qed.
Lemma part_sum t : posterior t = (fl_sum (part fst t), fl_sum (part snd t)).
Proof. induction t as [[a b]|x IHx y IHy]; cbn [posterior part fl_sum]; [reflexivity|]. rewrite IHx, IHy. reflexivity. Qed.
Lemma sum_of_exactly f l : sum_of f l = exactly (map f l).
Proof. induction l as [|p l IH]; [reflexivity|]. cbn [sum_of fold_right map]. fold (sum_of f l). rewrite IH. reflexivity. Qed.
Lemma nonneg_magnitude l : Forall (Qle 0) l -> magnitude l == exactly l.
Proof. induction 1 as [|x l H _ IH]; [reflexivity|]. rewrite magnitude_cons, exactly_cons, IH, Qabs_pos; auto. reflexivity. Qed.
Lemma whole_exactly l : Forall whole l -> exists n : Z, (0 <= n)%Z /\ exactly l == inject_Z n.
Proof.
  induction 1 as [|x l (m & M & ->) _ (n & N & E)]; [exists 0%Z; split; [lia|reflexivity]|]. exists (m + n)%Z. split; [lia|].
  rewrite exactly_cons, E, inject_Z_plus. reflexivity.
Qed.
Lemma whole_sum t : Forall whole (terms t) -> exactly (terms t) <= inject_Z (2 ^ 53) -> fl_sum t == exactly (terms t).
Proof.
  induction t as [x|a IHa b IHb]; cbn [fl_sum terms].
  - intros _ _. unfold exactly. cbn [fold_right]. ring.
  - intros W L. apply Forall_app in W. destruct W as [Wa Wb]. rewrite exactly_app in *.
    destruct (whole_exactly _ Wa) as (m & M & Em). destruct (whole_exactly _ Wb) as (n & N & En).
    pose proof (Zq_le _ _ M) as M'. pose proof (Zq_le _ _ N) as N'. change (inject_Z 0) with 0 in *.
    rewrite Em, En in *. rewrite <- inject_Z_plus in L. pose proof L as L'. rewrite <- Zle_Qle in L'.
    rewrite dadd_rnd, (rnd_compat _ (inject_Z (m + n))).
    + rewrite inject_Z_plus, <- inject_Z_plus. apply rnd_exact, is_double_int. lia.
    + rewrite inject_Z_plus, IHa, IHb; auto; try reflexivity; apply Zq_le; lia.
Qed.
Lemma beta_whole t : Forall (fun p => whole (fst p) /\ whole (snd p)) (pieces t) ->
  sum_of fst (pieces t) <= inject_Z (2 ^ 53) -> sum_of snd (pieces t) <= inject_Z (2 ^ 53) ->
  fst (posterior t) == sum_of fst (pieces t) /\ snd (posterior t) == sum_of snd (pieces t).
Proof.
  intros W A B. rewrite part_sum, !sum_of_exactly, <- !part_terms in *. cbn [fst snd].
  split; apply whole_sum; auto; rewrite part_terms; apply Forall_map; eapply Forall_impl; [|exact W| |exact W]; cbn; tauto.
Qed.
Lemma sum_close t : Forall (Qle 0) (terms t) -> short_for double_u (length (terms t)) ->
  Qabs (fl_sum t - exactly (terms t)) <= (1002 # 1000) * (inject_Z (Z.of_nat (length (terms t))) * double_u) * exactly (terms t).
Proof.
  intros P S. eapply Qle_trans; [apply sum_error|]. rewrite (nonneg_magnitude _ P).
  apply Qmult_le_compat_r; [|rewrite <- (nonneg_magnitude _ P); apply magnitude_nonneg].
  pose proof (grow_small _ S). pose proof u_val as [U0 _]. pose proof (qpow_le (1 + double_u) (length (terms t) - 1) (length (terms t)) ltac:(lra) ltac:(lia)). lra.
Qed.
Lemma beta_close t : Forall (fun p => 0 <= fst p /\ 0 <= snd p) (pieces t) -> short_for double_u (length (pieces t)) ->
  let e := (1002 # 1000) * (inject_Z (Z.of_nat (length (pieces t))) * double_u) in
  Qabs (fst (posterior t) - sum_of fst (pieces t)) <= e * sum_of fst (pieces t) /\
  Qabs (snd (posterior t) - sum_of snd (pieces t)) <= e * sum_of snd (pieces t).
Proof.
  intros P S. rewrite part_sum, !sum_of_exactly, <- !part_terms. cbn [fst snd].
  assert (L : forall f, length (terms (part f t)) = length (pieces t)) by (intros; rewrite part_terms; apply map_length).
  split; [rewrite <- (L fst) | rewrite <- (L snd)]; apply sum_close; try (rewrite L; auto); rewrite part_terms; apply Forall_map; eapply Forall_impl; [|exact P| |exact P]; cbn; tauto.
Qed.
Lemma beta_grouping : exists x y z, Forall is_double [fst x; snd x; fst y; snd y; fst z; snd z] /\
  ~ fst (posterior (Both (Both (Single x) (Single y)) (Single z))) == fst (posterior (Both (Single x) (Both (Single y) (Single z)))).
Proof.
  exists (Qred (rnd (1 # 10)), 1), (Qred (rnd (2 # 10)), 1), (Qred (rnd (3 # 10)), 1). split.
  - cbn [fst snd]. repeat (apply Forall_cons; [first [apply dred_double | apply one_double]|]). apply Forall_nil.
  - vm_compute. discriminate.
Qed.
Lemma gamma_same_scale : exists s t K Th, is_double s /\ is_double t /\ 0 < s /\ 0 < t /\ fl_gamma_update (s, t) (s, t) 1 = Ok (K, Th) /\ Th < t.
Proof.
  exists 1, 93. do 2 eexists. split; [apply one_double|]. split; [apply (is_double_int 93); lia|]. split; [reflexivity|]. split; [reflexivity|].
  split; vm_compute; reflexivity.
Qed.
