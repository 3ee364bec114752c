(** Lemmas about probabilities in double precision. *)
From Coq Require Import Qabs Lqa Setoid Qround.
From Verif Require Import Base M_Values M_Ops M_Float M_Double M_DoubleProb M_Bayesnet SpecFloat SpecDouble
  P_Support P_Ops2 P_Round P_Float P_Double.
Open Scope Q_scope.

Lemma u_val : 0 < double_u /\ double_u <= 1 # 1000000.
Proof. split; vm_compute; [reflexivity|discriminate]. Qed.
Lemma rnd_range x : 0 <= x -> (1 - double_u) * x <= rnd x <= (1 + double_u) * x.
Proof.
  intros H. pose proof (rnd_error x) as E. rewrite (Qabs_pos x H) in E. apply Qabs_Qle_condition in E. lra.
Qed.
Lemma rnd_pos_lt x : 0 < x -> 0 < rnd x.
Proof.
  intros H. pose proof u_val as [A B]. destruct (rnd_range x ltac:(lra)) as [L _].
  assert (0 < (1 - double_u) * x) by (apply Qmult_lt_0_compat; lra). lra.
Qed.
Lemma one_double : is_double 1.
Proof. exists 1%Z, 0%Z. split; [lia|reflexivity]. Qed.
Lemma rnd_le_1 x : x <= 1 -> rnd x <= 1.
Proof. intros H. rewrite <- (rnd_exact 1 one_double). now apply rnd_mono. Qed.
Lemma dred_double x : is_double (Qred (rnd x)).
Proof. eapply is_double_compat; [symmetry; apply Qred_correct|apply rnd_double]. Qed.
Lemma div_le_1 a b : 0 < b -> a <= b -> a / b <= 1.
Proof. intros B L. apply Qle_shift_div_r; auto. lra. Qed.
Lemma div_nonneg a b : 0 <= a -> 0 < b -> 0 <= a / b.
Proof. intros A B. apply Qle_shift_div_l; auto. lra. Qed.
Lemma div_pos a b : 0 < a -> 0 < b -> 0 < a / b.
Proof. intros A B. apply Qlt_shift_div_l; auto. lra. Qed.

(* ------------------------------------------------------------------ simple_bayes *)
Section Bayes.
  Variables lh lnh p : Q.
  Hypothesis H1 : 0 <= lh. Hypothesis H2 : 0 <= lnh. Hypothesis P0 : 0 <= p. Hypothesis P1 : p <= 1.
  Let a := dmul lh p.
  Let b := dmul lnh (dsub 1 p).
  Let d := dadd a b.
  Let A := lh * p.
  Let B := lnh * (1 - p).
  Notation u := double_u.
  Lemma a_range : 0 <= A /\ (1 - u) * A <= a /\ a <= (1 + u) * A.
  Proof.
    assert (0 <= A) as HA by (apply Qmult_le_0_compat; lra). unfold a, dmul. rewrite Qred_correct. split; auto. now apply rnd_range.
  Qed.
  Lemma b_range : 0 <= B /\ (1 - u) * (1 - u) * B <= b /\ b <= (1 + u) * (1 + u) * B.
  Proof.
    pose proof u_val as [U0 U1].
    assert (0 <= B) as HB by (apply Qmult_le_0_compat; lra). split; auto.
    unfold b, dmul, dsub. rewrite Qred_correct.
    destruct (rnd_range (1 - p) ltac:(lra)) as [L1 L2]. rewrite (rnd_compat _ (lnh * rnd (1 - p))) by now rewrite Qred_correct.
    set (x := rnd (1 - p)) in *.
    assert (X0 : 0 <= x). { assert (0 <= (1 - u) * (1 - p)) by (apply Qmult_le_0_compat; lra). lra. }
    destruct (rnd_range (lnh * x)) as [M1 M2]; [now apply Qmult_le_0_compat|].
    assert (Y1 : lnh * ((1 - u) * (1 - p)) <= lnh * x) by (rewrite !(Qmult_comm lnh); apply Qmult_le_compat_r; auto).
    assert (Y2 : lnh * x <= lnh * ((1 + u) * (1 - p))) by (rewrite !(Qmult_comm lnh); apply Qmult_le_compat_r; auto).
    split.
    - apply Qle_trans with ((1 - u) * (lnh * x)); [|exact M1].
      assert ((1 - u) * (1 - u) * B == (1 - u) * (lnh * ((1 - u) * (1 - p)))) as -> by (unfold B; ring).
      rewrite !(Qmult_comm (1 - u) (lnh * _)). apply Qmult_le_compat_r; lra.
    - apply Qle_trans with ((1 + u) * (lnh * x)); [exact M2|].
      assert ((1 + u) * (1 + u) * B == (1 + u) * (lnh * ((1 + u) * (1 - p)))) as -> by (unfold B; ring).
      rewrite !(Qmult_comm (1 + u) (lnh * _)). apply Qmult_le_compat_r; lra.
  Qed.
  Lemma d_range : a <= d /\ (1 - u) * (a + b) <= d /\ d <= (1 + u) * (a + b).
  Proof.
    pose proof u_val as [U0 U1]. destruct a_range as (A0 & A1 & A2). destruct b_range as (B0 & B1 & B2).
    assert (0 <= a) by (assert (0 <= (1 - u) * A) by (apply Qmult_le_0_compat; lra); lra).
    assert (0 <= b) by (assert (0 <= (1 - u) * (1 - u) * B) by (apply Qmult_le_0_compat; auto; apply Qmult_le_0_compat; lra); lra).
    unfold d, dadd. rewrite Qred_correct. split; [|apply rnd_range; lra].
    rewrite <- (rnd_exact a) at 1 by apply dred_double. apply rnd_mono. lra.
  Qed.
  Lemma bayes_unit r : fl_simple_bayes lh lnh p = Ok r -> 0 <= r <= 1.
  Proof.
    unfold fl_simple_bayes. fold a b d. destruct (Qeq_bool d 0) eqn:E; [discriminate|]. intros H. injection H as <-.
    apply Qeq_bool_neq in E. destruct a_range as (A0 & A1 & _). destruct d_range as (D0 & _). pose proof u_val as [U0 U1].
    assert (0 <= a) by (assert (0 <= (1 - u) * A) by (apply Qmult_le_0_compat; lra); lra).
    assert (DP : 0 < d) by (apply Qle_lteq in D0; destruct (Qlt_le_dec 0 d) as [X|X]; auto; exfalso; apply E; lra).
    unfold ddiv. rewrite Qred_correct. split.
    - apply rnd_sign. now apply div_nonneg.
    - apply rnd_le_1. now apply div_le_1.
  Qed.
  (** Zero exactly when the exact denominator is. *)
  Lemma bayes_defined : (exists e, fl_simple_bayes lh lnh p = Err e) <-> A + B == 0.
  Proof.
    unfold fl_simple_bayes. fold a b d. destruct a_range as (A0 & A1 & A2). destruct b_range as (B0 & B1 & B2).
    destruct d_range as (D0 & D1 & D2). pose proof u_val as [U0 U1]. split.
    - destruct (Qeq_bool d 0) eqn:E; [intros _|intros (e & X); discriminate]. apply Qeq_bool_iff in E.
      assert (0 <= (1 - u) * A) by (apply Qmult_le_0_compat; lra).
      assert (UU : 0 < (1 - u) * (1 - u)) by (apply Qmult_lt_0_compat; lra).
      assert (0 <= (1 - u) * (1 - u) * B) by (apply Qmult_le_0_compat; lra).
      assert (Z : a + b <= 0).
      { apply Qnot_lt_le. intros C. assert (0 < (1 - u) * (a + b)) by (apply Qmult_lt_0_compat; lra). lra. }
      assert (A <= 0). { apply Qnot_lt_le. intros C. assert (0 < (1 - u) * A) by (apply Qmult_lt_0_compat; lra). lra. }
      assert (B <= 0). { apply Qnot_lt_le. intros C. assert (0 < (1 - u) * (1 - u) * B) by (apply Qmult_lt_0_compat; lra). lra. }
      lra.
    - intros Z. assert (A == 0) as ZA by lra. assert (B == 0) as ZB by lra.
      assert (a == 0) by (rewrite ZA in A1, A2; lra). assert (b == 0) by (rewrite ZB in B1, B2; lra).
      assert (d == 0) as E by (assert (a + b == 0) as X by lra; rewrite X in D1, D2; lra).
      apply Qeq_bool_iff in E. rewrite E. eauto.
  Qed.
  Lemma bayes_close r : fl_simple_bayes lh lnh p = Ok r ->
    exists x, simple_bayes lh lnh p = Ok x /\ Qabs (r - x) <= 6 * u * x.
  Proof.
    intros H. pose proof u_val as [U0 U1].
    assert (NZ : ~ A + B == 0). { intros C. apply bayes_defined in C as (e & C). congruence. }
    exists (A / (A + B)). unfold simple_bayes. fold A B. split.
    { destruct (Qeq_bool (A + B) 0) eqn:E; auto. apply Qeq_bool_iff in E. contradiction. }
    unfold fl_simple_bayes in H. fold a b d in H. destruct (Qeq_bool d 0) eqn:E; [discriminate|]. injection H as <-.
    apply Qeq_bool_neq in E. destruct a_range as (A0 & A1 & A2). destruct b_range as (B0 & B1 & B2).
    destruct d_range as (D0 & D1 & D2).
    assert (SP : 0 < A + B) by (destruct (Qlt_le_dec 0 (A + B)) as [X|X]; auto; exfalso; apply NZ; lra).
    assert (UU : 0 < (1 - u) * (1 - u)) by (apply Qmult_lt_0_compat; lra).
    assert (AN : 0 <= a) by (assert (0 <= (1 - u) * A) by (apply Qmult_le_0_compat; lra); lra).
    assert (DP : 0 < d) by (destruct (Qlt_le_dec 0 d) as [X|X]; auto; exfalso; apply E; lra).
    unfold ddiv. rewrite Qred_correct.
    destruct (rnd_range (a / d) ltac:(now apply div_nonneg)) as [R1 R2]. set (r := rnd (a / d)) in *.
    set (x := A / (A + B)). assert (X0 : 0 <= x) by (now apply div_nonneg).
    assert (XS : x * (A + B) == A) by (unfold x; field; lra).
    assert (AD : a / d * d == a) by (field; lra). set (y := a / d) in *.
    assert (Y0 : 0 <= y) by now apply div_nonneg.
    (* bounds on d in terms of A + B *)
    set (v := 1 - u) in *. set (w := 1 + u) in *.
    assert (V : 0 < v) by (unfold v; lra). assert (W : 0 < w) by (unfold w; lra).
    assert (DU : d <= w * w * w * (A + B)).
    { apply Qle_trans with (w * (a + b)); [exact D2|]. 
      assert (w * w * w * (A + B) == w * (w * w * (A + B))) as -> by ring. rewrite !(Qmult_comm w (_ + _)), (Qmult_comm w (w * w * (A + B))).
      apply Qmult_le_compat_r; [|lra].
      assert (w * A <= w * w * A) by (apply Qmult_le_compat_r; [vm_compute; discriminate|exact A0]).
      assert (w * w * (A + B) == w * w * A + w * w * B) as -> by ring. lra. }
    assert (DL : v * v * v * (A + B) <= d).
    { apply Qle_trans with (v * (a + b)); [|exact D1].
      assert (v * v * v * (A + B) == v * (v * v * (A + B))) as -> by ring. rewrite !(Qmult_comm v (_ + _)), (Qmult_comm v (v * v * (A + B))).
      apply Qmult_le_compat_r; [|lra].
      assert (v * v * A <= v * A) by (apply Qmult_le_compat_r; [vm_compute; discriminate|exact A0]).
      assert (v * v * (A + B) == v * v * A + v * v * B) as -> by ring. lra. }
    (* y against x *)
    assert (Yhi : y * (v * v * v) <= w * x).
    { apply (Qmult_le_r _ _ (A + B)); auto. assert (w * x * (A + B) == w * A) as -> by (rewrite <- Qmult_assoc, XS; reflexivity).
      apply Qle_trans with a; [|exact A2]. rewrite <- AD at 1. rewrite <- Qmult_assoc, !(Qmult_comm y). apply Qmult_le_compat_r; auto. }
    assert (Ylo : v * x <= y * (w * w * w)).
    { apply (Qmult_le_r _ _ (A + B)); auto. assert (v * x * (A + B) == v * A) as -> by (rewrite <- Qmult_assoc, XS; reflexivity).
      apply Qle_trans with a; [exact A1|]. rewrite <- AD at 1. rewrite <- Qmult_assoc, !(Qmult_comm y). apply Qmult_le_compat_r; auto. }
    clear -R1 R2 Yhi Ylo X0 Y0 U0 U1.
    assert (UX : 0 <= u * x) by (apply Qmult_le_0_compat; lra).
    apply Qabs_Qle_condition.
    (* polynomial bounds *)
    assert (K1 : w * w <= (1 + 6 * u) * (v * v * v)) by (vm_compute; discriminate).
    assert (K2 : (1 - 6 * u) * (w * w * w) <= v * v) by (vm_compute; discriminate).
    assert (V3 : 0 < v * v * v) by (unfold v; repeat apply Qmult_lt_0_compat; lra).
    assert (W3 : 0 < w * w * w) by (unfold w; repeat apply Qmult_lt_0_compat; lra).
    assert (Rhi : r <= (1 + 6 * u) * x).
    { apply (Qmult_le_r _ _ (v * v * v)); auto.
      apply Qle_trans with (w * y * (v * v * v)); [apply Qmult_le_compat_r; lra|].
      apply Qle_trans with (w * (w * x)).
      - rewrite <- Qmult_assoc, !(Qmult_comm w (_ * _)). apply Qmult_le_compat_r; [exact Yhi|unfold w; lra].
      - assert (w * (w * x) == w * w * x) as -> by ring. assert ((1 + 6 * u) * x * (v * v * v) == (1 + 6 * u) * (v * v * v) * x) as -> by ring.
        apply Qmult_le_compat_r; auto. }
    assert (Rlo : (1 - 6 * u) * x <= r).
    { apply (Qmult_le_r _ _ (w * w * w)); auto.
      apply Qle_trans with (v * y * (w * w * w)); [|apply Qmult_le_compat_r; lra].
      apply Qle_trans with (v * (v * x)).
      - assert (v * (v * x) == v * v * x) as -> by ring. assert ((1 - 6 * u) * x * (w * w * w) == (1 - 6 * u) * (w * w * w) * x) as -> by ring.
        apply Qmult_le_compat_r; auto.
      - rewrite <- Qmult_assoc, !(Qmult_comm v (_ * _)). apply Qmult_le_compat_r; [exact Ylo|unfold v; lra]. }
    lra.
  Qed.
End Bayes.

(* ------------------------------------------------------------------ odds *)
Notation vv := (1 - double_u).
Notation ww := (1 + double_u).
Lemma v_w : 0 < vv /\ 0 < ww /\ vv <= 1 /\ 1 <= ww /\ vv <= ww.
Proof. repeat split; vm_compute; congruence. Qed.
(** Rounding numerator-free quotients: [rnd (a / rnd b)] is [a / b] up to (w / v). *)
Lemma div_rnd_near a b : 0 < a -> 0 < b ->
  vv * (a / b) <= ww * rnd (a / rnd b) /\ vv * rnd (a / rnd b) <= ww * (a / b).
Proof.
  intros A B. pose proof v_w as (V & W & V1 & W1 & VW). destruct (rnd_range b ltac:(lra)) as [B1 B2].
  pose proof (rnd_pos_lt b B) as BP. set (d := rnd b) in *.
  set (y := a / d). set (x := a / b).
  assert (Y : y * d == a) by (unfold y; field; lra). assert (X : x * b == a) by (unfold x; field; lra).
  assert (YP : 0 < y) by now apply div_pos. assert (XP : 0 < x) by now apply div_pos.
  destruct (rnd_range y ltac:(lra)) as [R1 R2].
  assert (Y1 : vv * y <= x).
  { apply (Qmult_le_r _ _ b); auto. rewrite X, <- Y. assert (vv * y * b == y * (vv * b)) as -> by ring.
    rewrite !(Qmult_comm y). apply Qmult_le_compat_r; lra. }
  assert (Y2 : x <= ww * y).
  { apply (Qmult_le_r _ _ b); auto. rewrite X, <- Y. assert (ww * y * b == y * (ww * b)) as -> by ring.
    rewrite !(Qmult_comm y). apply Qmult_le_compat_r; lra. }
  split.
  - apply Qle_trans with (vv * (ww * y)).
    + rewrite !(Qmult_comm vv). apply Qmult_le_compat_r; lra.
    + assert (vv * (ww * y) == ww * (vv * y)) as -> by ring. rewrite !(Qmult_comm ww). apply Qmult_le_compat_r; lra.
  - apply Qle_trans with (vv * (ww * y)).
    + rewrite !(Qmult_comm vv). apply Qmult_le_compat_r; lra.
    + assert (vv * (ww * y) == ww * (vv * y)) as -> by ring. rewrite !(Qmult_comm ww). apply Qmult_le_compat_r; lra.
Qed.

Lemma odds_defined p : 0 < p -> p < 1 -> exists o, fl_p_to_odds p = Ok o /\ 0 < o /\ o == rnd (p / rnd (1 - p)).
Proof.
  intros P0 P1. unfold fl_p_to_odds.
  destruct (Qle_bool p 0) eqn:E1; [apply Qle_bool_iff in E1; lra|].
  destruct (Qle_bool 1 p) eqn:E2; [apply Qle_bool_iff in E2; lra|]. cbn [orb].
  pose proof (rnd_pos_lt (1 - p) ltac:(lra)) as D. unfold dsub.
  destruct (Qeq_bool (Qred (rnd (1 - p))) 0) eqn:E3; [apply Qeq_bool_iff in E3; rewrite Qred_correct in E3; lra|].
  eexists. split; [reflexivity|]. unfold ddiv. rewrite Qred_correct.
  assert (Z : rnd (p / Qred (rnd (1 - p))) == rnd (p / rnd (1 - p))) by (apply rnd_compat; now rewrite Qred_correct).
  rewrite Z. split; [|reflexivity]. apply rnd_pos_lt. now apply div_pos.
Qed.
Lemma prob_defined o : is_double o -> 0 < o -> exists p, fl_odds_to_p o = Ok p /\ 0 < p /\ p <= 1 /\ p == rnd (o / rnd (1 + o)).
Proof.
  intros Do O. unfold fl_odds_to_p. destruct (Qle_bool o 0) eqn:E1; [apply Qle_bool_iff in E1; lra|].
  eexists. split; [reflexivity|]. unfold ddiv, dadd. rewrite Qred_correct.
  assert (Z : rnd (o / Qred (rnd (1 + o))) == rnd (o / rnd (1 + o))) by (apply rnd_compat; now rewrite Qred_correct).
  rewrite Z. pose proof (rnd_pos_lt (1 + o) ltac:(lra)) as D.
  split; [apply rnd_pos_lt; now apply div_pos|]. split; [|reflexivity].
  apply rnd_le_1, div_le_1; auto. rewrite <- (rnd_exact o Do) at 1. apply rnd_mono. lra.
Qed.
Lemma odds_round_trip p : 0 < p -> p < 1 ->
  exists o r, fl_p_to_odds p = Ok o /\ fl_odds_to_p o = Ok r /\ Qabs (r - p) <= 5 * double_u * p.
Proof.
  intros P0 P1. destruct (odds_defined p P0 P1) as (o & E1 & O & Eo).
  assert (Do : is_double o) by (eapply is_double_compat; [symmetry; exact Eo|apply rnd_double]).
  destruct (prob_defined o Do O) as (r & E2 & _ & _ & Er). exists o, r. split; auto. split; auto.
  pose proof v_w as (V & W & V1 & W1 & VW).
  destruct (div_rnd_near p (1 - p) P0 ltac:(lra)) as [A1 A2]. rewrite <- Eo in A1, A2.
  destruct (div_rnd_near o (1 + o) O ltac:(lra)) as [B1 B2]. rewrite <- Er in B1, B2.
  set (x := p / (1 - p)) in *. set (z := o / (1 + o)) in *.
  assert (X : x * (1 - p) == p) by (unfold x; field; lra). assert (Z : z * (1 + o) == o) by (unfold z; field; lra).
  assert (X' : p * (1 + x) == x) by (rewrite <- X at 1; assert (x * (1 - p) * (1 + x) == x * ((1 - p) + x * (1 - p))) as -> by ring; rewrite X; ring).
  assert (XP : 0 < x) by (apply div_pos; lra).
  assert (OX : 0 <= o * x) by (apply Qmult_le_0_compat; lra).
  assert (C1 : vv * z <= ww * p).
  { apply (Qmult_le_r _ _ ((1 + o) * (1 + x))); [apply Qmult_lt_0_compat; lra|].
    assert (vv * z * ((1 + o) * (1 + x)) == vv * (z * (1 + o)) * (1 + x)) as -> by ring.
    assert (ww * p * ((1 + o) * (1 + x)) == ww * (p * (1 + x)) * (1 + o)) as -> by ring. rewrite Z, X'.
    assert (vv * (o * x) <= ww * (o * x)) by (apply Qmult_le_compat_r; lra).
    assert (vv * o * (1 + x) == vv * o + vv * (o * x)) as -> by ring.
    assert (ww * x * (1 + o) == ww * x + ww * (o * x)) as -> by ring. lra. }
  assert (C2 : vv * p <= ww * z).
  { apply (Qmult_le_r _ _ ((1 + o) * (1 + x))); [apply Qmult_lt_0_compat; lra|].
    assert (ww * z * ((1 + o) * (1 + x)) == ww * (z * (1 + o)) * (1 + x)) as -> by ring.
    assert (vv * p * ((1 + o) * (1 + x)) == vv * (p * (1 + x)) * (1 + o)) as -> by ring. rewrite Z, X'.
    assert (vv * (o * x) <= ww * (o * x)) by (apply Qmult_le_compat_r; lra).
    assert (ww * o * (1 + x) == ww * o + ww * (o * x)) as -> by ring.
    assert (vv * x * (1 + o) == vv * x + vv * (o * x)) as -> by ring. lra. }
  clear -V W C1 C2 B1 B2 P0.
  assert (D1 : vv * vv * r <= ww * ww * p).
  { apply Qle_trans with (vv * (ww * z)).
    - assert (vv * vv * r == vv * (vv * r)) as -> by ring. rewrite !(Qmult_comm vv (_ * _)). apply Qmult_le_compat_r; lra.
    - assert (vv * (ww * z) == ww * (vv * z)) as -> by ring. assert (ww * ww * p == ww * (ww * p)) as -> by ring.
      rewrite !(Qmult_comm ww (_ * _)). apply Qmult_le_compat_r; lra. }
  assert (D2 : vv * vv * p <= ww * ww * r).
  { apply Qle_trans with (vv * (ww * z)).
    - assert (vv * vv * p == vv * (vv * p)) as -> by ring. rewrite !(Qmult_comm vv (_ * _)). apply Qmult_le_compat_r; lra.
    - assert (vv * (ww * z) == ww * (vv * z)) as -> by ring. assert (ww * ww * r == ww * (ww * r)) as -> by ring.
      rewrite !(Qmult_comm ww (_ * _)). apply Qmult_le_compat_r; lra. }
  assert (K1 : ww * ww <= (1 + 5 * double_u) * (vv * vv)) by (vm_compute; discriminate).
  assert (K2 : (1 - 5 * double_u) * (ww * ww) <= vv * vv) by (vm_compute; discriminate).
  assert (E1 : r <= (1 + 5 * double_u) * p).
  { apply (Qmult_le_r _ _ (vv * vv)); [apply Qmult_lt_0_compat; lra|].
    assert (r * (vv * vv) == vv * vv * r) as -> by ring. eapply Qle_trans; [exact D1|].
    assert ((1 + 5 * double_u) * p * (vv * vv) == (1 + 5 * double_u) * (vv * vv) * p) as -> by ring. apply Qmult_le_compat_r; lra. }
  assert (E2 : (1 - 5 * double_u) * p <= r).
  { apply (Qmult_le_r _ _ (ww * ww)); [apply Qmult_lt_0_compat; lra|].
    assert (r * (ww * ww) == ww * ww * r) as -> by ring. eapply Qle_trans; [|exact D2].
    assert ((1 - 5 * double_u) * p * (ww * ww) == (1 - 5 * double_u) * (ww * ww) * p) as -> by ring. apply Qmult_le_compat_r; lra. }
  apply Qabs_Qle_condition. lra.
Qed.
Lemma big_odds : exists o, is_double o /\ 0 < o /\ fl_odds_to_p o = Ok 1 /\ exists m, fl_p_to_odds 1 = Err (ValueError m).
Proof.
  exists (inject_Z (2 ^ 54)). split; [exists 1%Z, 54%Z; split; [lia|reflexivity]|]. split; [reflexivity|].
  split; [vm_compute; reflexivity|]. eexists. vm_compute. reflexivity.
Qed.

(* ------------------------------------------------------------------ laplace, events, percentages *)
Lemma laplace_range s n : (0 <= s <= n)%Z -> 0 < fl_laplace s n /\ fl_laplace s n <= 1 /\
  ((n + 2 <= 2 ^ 53)%Z -> fl_laplace s n < 1).
Proof.
  intros H. unfold fl_laplace, ddiv. rewrite Qred_correct.
  assert (N : 0 < inject_Z (n + 2)) by (apply (proj2 (inject_Z_lt 0 _)); lia).
  assert (S1 : 0 < inject_Z (s + 1)) by (apply (proj2 (inject_Z_lt 0 _)); lia).
  split; [apply rnd_pos_lt; now apply div_pos|]. split; [apply rnd_le_1, div_le_1; auto; apply (proj2 (inject_Z_le _ _)); lia|].
  intros B. set (t := (2 ^ 53 - 1) # 2 ^ 53). apply Qle_lt_trans with t; [|reflexivity].
  assert (D : is_double t) by (exists (2 ^ 53 - 1)%Z, (-53)%Z; split; [lia|reflexivity]).
  rewrite <- (rnd_exact t D). apply rnd_mono. apply Qle_shift_div_r; auto.
  assert (inject_Z (s + 1) <= inject_Z (n + 2) - 1).
  { assert (inject_Z (n + 2) - 1 == inject_Z (n + 1)) as -> by (rewrite !inject_Z_plus; ring). apply (proj2 (inject_Z_le _ _)). lia. }
  assert (t == 1 - (1 # 2 ^ 53)) as -> by reflexivity.
  assert ((1 # 2 ^ 53) * inject_Z (n + 2) <= 1); [|lra].
  assert (1 == (1 # 2 ^ 53) * inject_Z (2 ^ 53)) as -> by reflexivity.
  rewrite !(Qmult_comm (1 # 2 ^ 53)). apply Qmult_le_compat_r; [|discriminate]. apply (proj2 (inject_Z_le _ _)). lia.
Qed.
Lemma laplace_certain : exists s n, (0 <= s <= n)%Z /\ fl_laplace s n == 1.
Proof. exists (2 ^ 54)%Z, (2 ^ 54)%Z. split; [lia|vm_compute; reflexivity]. Qed.

Lemma event_draws p k : fl_event_occurs p k = true <-> (k < Qceiling (p * inject_Z (2 ^ 53)))%Z.
Proof.
  unfold fl_event_occurs. rewrite qlt_true.
  assert (E : inject_Z k * pow2 (-53) < p <-> inject_Z k < p * inject_Z (2 ^ 53)).
  { assert (P : pow2 (-53) * inject_Z (2 ^ 53) == 1) by reflexivity. split; intros H.
    - apply (Qmult_lt_r _ _ (inject_Z (2 ^ 53))) in H; [|reflexivity]. rewrite <- Qmult_assoc, P in H. lra.
    - apply (Qmult_lt_r _ _ (inject_Z (2 ^ 53))); [reflexivity|]. rewrite <- Qmult_assoc, P. lra. }
  rewrite E. split; intros H.
  - pose proof (Qle_ceiling (p * inject_Z (2 ^ 53))) as C.
    apply (proj1 (inject_Z_lt _ _)). eapply Qlt_le_trans; eauto.
  - pose proof (Qceiling_lt (p * inject_Z (2 ^ 53))) as C.
    eapply Qle_lt_trans; [|exact C]. apply (proj2 (inject_Z_le _ _)). lia.
Qed.
(** The share of draws for which the event occurs. *)
Lemma event_share p : 0 <= p -> p <= 1 -> let c := Qceiling (p * inject_Z (2 ^ 53)) in
  (0 <= c <= 2 ^ 53)%Z /\ 0 <= (c # 2 ^ 53) - p /\ (c # 2 ^ 53) - p < (1 # 2 ^ 53) /\
  ((exists k, p == inject_Z k * pow2 (-53)) -> (c # 2 ^ 53) == p).
Proof.
  intros P0 P1 c. pose proof (Qle_ceiling (p * inject_Z (2 ^ 53))) as C1. pose proof (Qceiling_lt (p * inject_Z (2 ^ 53))) as C2.
  fold c in C1, C2.
  assert (M : p * inject_Z (2 ^ 53) <= inject_Z (2 ^ 53)).
  { assert (p * inject_Z (2 ^ 53) <= 1 * inject_Z (2 ^ 53)); [|lra]. apply Qmult_le_compat_r; [lra|discriminate]. }
  assert (M0 : 0 <= p * inject_Z (2 ^ 53)) by (apply Qmult_le_0_compat; [lra|discriminate]).
  assert (E : (c # 2 ^ 53) == inject_Z c * (1 # 2 ^ 53)) by (unfold Qeq; simpl; lia).
  assert (PE : p == p * inject_Z (2 ^ 53) * (1 # 2 ^ 53)) by (rewrite <- Qmult_assoc; assert (inject_Z (2 ^ 53) * (1 # 2 ^ 53) == 1) as -> by reflexivity; ring).
  assert (CB : (0 <= c <= 2 ^ 53)%Z).
  { split.
    - apply (proj1 (inject_Z_le 0 c)). change (inject_Z 0) with 0. lra.
    - assert (inject_Z (c - 1) < inject_Z (2 ^ 53)) as X by lra. apply (proj1 (inject_Z_lt _ _)) in X. lia. }
  split; [exact CB|]. set (x := p * inject_Z (2 ^ 53)) in *.
  assert (C3 : inject_Z c < x + 1). { assert (inject_Z (c - 1) == inject_Z c - 1) as Y by (unfold Z.sub; rewrite inject_Z_plus; reflexivity). lra. }
  split; [|split].
  - assert (x * (1 # 2 ^ 53) <= inject_Z c * (1 # 2 ^ 53)) by (apply Qmult_le_compat_r; [exact C1|discriminate]). lra.
  - assert (inject_Z c * (1 # 2 ^ 53) < (x + 1) * (1 # 2 ^ 53)) by (apply Qmult_lt_r; [reflexivity|exact C3]).
    assert ((x + 1) * (1 # 2 ^ 53) == x * (1 # 2 ^ 53) + (1 # 2 ^ 53)) by ring. lra.
  - intros (k & K). assert (X : x == inject_Z k).
    { unfold x. rewrite K, <- Qmult_assoc. assert (pow2 (-53) * inject_Z (2 ^ 53) == 1) as -> by reflexivity. ring. }
    assert (c = k). { unfold c. fold x. rewrite (Qceiling_comp _ _ X). apply Qceiling_Z. }
    subst k. rewrite E, PE, X. reflexivity.
Qed.
Lemma percentage_range v t : (0 <= v <= t)%Z -> (0 < t)%Z -> 0 <= fl_percentage v t <= 100 /\
  Qabs (fl_percentage v t - inject_Z v / inject_Z t * 100) <= 3 * double_u * (inject_Z v / inject_Z t * 100).
Proof.
  intros H T. unfold fl_percentage, dmul, ddiv. rewrite Qred_correct.
  assert (TP : 0 < inject_Z t) by (apply (proj2 (inject_Z_lt 0 _)); lia).
  assert (VP : 0 <= inject_Z v) by (apply (proj2 (inject_Z_le 0 _)); lia).
  set (x := inject_Z v / inject_Z t). assert (X0 : 0 <= x) by now apply div_nonneg.
  assert (X1 : x <= 1) by (apply div_le_1; auto; apply (proj2 (inject_Z_le _ _)); lia).
  assert (Z : rnd (Qred (rnd x) * 100) == rnd (rnd x * 100)) by (apply rnd_compat; now rewrite Qred_correct).
  rewrite Z. destruct (rnd_range x X0) as [A B].
  assert (R0 : 0 <= rnd x) by now apply rnd_sign. assert (R1 : rnd x <= 1) by now apply rnd_le_1.
  split; [split|].
  - apply rnd_sign. lra.
  - assert (D : is_double 100) by (exists 100%Z, 0%Z; split; [lia|reflexivity]).
    apply Qle_trans with (rnd 100); [apply rnd_mono; lra|]. pose proof (rnd_exact 100 D). lra.
  - destruct (rnd_range (rnd x * 100) ltac:(lra)) as [C D]. pose proof v_w as (V & W & _).
    assert (S1 : rnd (rnd x * 100) <= ww * ww * (x * 100)).
    { eapply Qle_trans; [exact D|]. assert (ww * ww * (x * 100) == ww * (ww * x * 100)) as -> by ring.
      rewrite !(Qmult_comm ww (_ * 100)). apply Qmult_le_compat_r; lra. }
    assert (S2 : vv * vv * (x * 100) <= rnd (rnd x * 100)).
    { eapply Qle_trans; [|exact C]. assert (vv * vv * (x * 100) == vv * (vv * x * 100)) as -> by ring.
      rewrite !(Qmult_comm vv (_ * 100)). apply Qmult_le_compat_r; lra. }
    assert (K1 : ww * ww <= 1 + 3 * double_u) by (vm_compute; discriminate).
    assert (K2 : 1 - 3 * double_u <= vv * vv) by (vm_compute; discriminate).
    assert (Y0 : 0 <= x * 100) by lra. set (y := x * 100) in *.
    assert (ww * ww * y <= (1 + 3 * double_u) * y) by (now apply Qmult_le_compat_r).
    assert ((1 - 3 * double_u) * y <= vv * vv * y) by (now apply Qmult_le_compat_r).
    apply Qabs_Qle_condition. lra.
Qed.
Lemma laplace_nearest s n : nearest_double (inject_Z (s + 1) / inject_Z (n + 2)) (fl_laplace s n).
Proof.
  unfold fl_laplace, ddiv. destruct (rnd_nearest (inject_Z (s + 1) / inject_Z (n + 2))) as [D M]. split.
  - eapply is_double_compat; [symmetry; apply Qred_correct|exact D].
  - intros z Dz. rewrite Qred_correct. now apply M.
Qed.

Lemma bayes_error lh lnh p e : fl_simple_bayes lh lnh p = Err e -> e = ZeroDivisionError.
Proof. unfold fl_simple_bayes. match goal with |- context [if ?b then _ else _] => destruct b end; intros H; inversion H; auto. Qed.
