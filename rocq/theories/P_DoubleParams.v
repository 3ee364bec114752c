(** Error bounds for parameters computed in double precision. *)
From Coq Require Import Qabs Lqa.
From Verif Require Import Base M_Float M_Double M_DoubleProb M_DoubleParams SpecWeights SpecFloat SpecDouble SpecKelly SpecDoubleParams
  P_Double P_DoubleProb.
Open Scope Q_scope.
Notation u := double_u.


(** [a] is [A] up to [e] times the magnitude [M]. *)
Definition within (e a A M : Q) : Prop := Qabs (a - A) <= e * M /\ Qabs A <= M.
Lemma within_exact a : within 0 a a (Qabs a).
Proof. split; [|apply Qle_refl]. assert (a - a == 0) as -> by ring. rewrite Qmult_0_l. discriminate. Qed.
Lemma within_M e a A M : within e a A M -> 0 <= M.
Proof. intros [_ H]. pose proof (Qabs_nonneg A). lra. Qed.
Lemma within_weaken e f a A M : within e a A M -> e <= f -> within f a A M.
Proof.
  intros W L. pose proof (within_M _ _ _ _ W) as HM. destruct W as [H H']. split; auto.
  apply Qle_trans with (e * M); auto. now apply Qmult_le_compat_r.
Qed.
Lemma within_abs e a A M : within e a A M -> Qabs a <= (1 + e) * M.
Proof.
  intros [H H']. pose proof (Qabs_triangle (a - A) A) as T.
  assert (Qabs (a - A + A) == Qabs a) as X by (apply Qabs_wd; ring). rewrite X in T. lra.
Qed.
Lemma within_rnd e a A M : within e a A M -> within (e + u * (1 + e)) (rnd a) A M.
Proof.
  intros W. pose proof (within_abs _ _ _ _ W) as HA. destruct W as [H H']. split; auto.
  pose proof (rnd_error a) as E. pose proof (Qabs_triangle (rnd a - a) (a - A)) as T.
  assert (Qabs (rnd a - a + (a - A)) == Qabs (rnd a - A)) as X by (apply Qabs_wd; ring). rewrite X in T.
  assert (u * Qabs a <= u * ((1 + e) * M)) as Y by (rewrite !(Qmult_comm u); apply Qmult_le_compat_r; auto; discriminate).
  assert ((e + u * (1 + e)) * M == e * M + u * ((1 + e) * M)) as -> by ring. lra.
Qed.
Lemma within_red e a A M : within e a A M -> within e (Qred a) A M.
Proof. intros [H H']. split; auto. now rewrite Qred_correct. Qed.
Lemma within_add e a b A B M N : within e a A M -> within e b B N -> within e (a + b) (A + B) (M + N).
Proof.
  intros [H H'] [K K']. split.
  - pose proof (Qabs_triangle (a - A) (b - B)) as T.
    assert (Qabs (a - A + (b - B)) == Qabs (a + b - (A + B))) as X by (apply Qabs_wd; ring). rewrite X in T.
    assert (e * (M + N) == e * M + e * N) as -> by ring. lra.
  - pose proof (Qabs_triangle A B). lra.
Qed.
Lemma within_opp e a A M : within e a A M -> within e (- a) (- A) M.
Proof.
  intros [H H']. split; [|now rewrite Qabs_opp]. assert (- a - - A == - (a - A)) as -> by ring. now rewrite Qabs_opp.
Qed.
Lemma within_sub e a b A B M N : within e a A M -> within e b B N -> within e (a - b) (A - B) (M + N).
Proof. intros H K. unfold Qminus. apply within_add; auto. now apply within_opp. Qed.
Lemma within_mul e f a b A B M N : 0 <= e -> within e a A M -> within f b B N -> within (e + f + e * f) (a * b) (A * B) (M * N).
Proof.
  intros E0 W1 W2. pose proof (within_M _ _ _ _ W1) as M0. pose proof (within_M _ _ _ _ W2) as N0.
  pose proof (within_abs _ _ _ _ W2) as HB. destruct W1 as [H H'], W2 as [K K'].
  split.
  - pose proof (Qabs_triangle ((a - A) * b) (A * (b - B))) as T.
    assert (Qabs ((a - A) * b + A * (b - B)) == Qabs (a * b - A * B)) as X by (apply Qabs_wd; ring). rewrite X in T.
    rewrite !Qabs_Qmult in T.
    assert (Qabs (a - A) * Qabs b <= e * M * ((1 + f) * N)) as Y1.
    { apply Qle_trans with (e * M * Qabs b).
      - apply Qmult_le_compat_r; [exact H|apply Qabs_nonneg].
      - rewrite !(Qmult_comm (e * M)). apply Qmult_le_compat_r; auto. now apply Qmult_le_0_compat. }
    assert (Qabs A * Qabs (b - B) <= M * (f * N)) as Y2.
    { apply Qle_trans with (M * Qabs (b - B)).
      - apply Qmult_le_compat_r; [exact H'|apply Qabs_nonneg].
      - rewrite !(Qmult_comm M). now apply Qmult_le_compat_r. }
    assert ((e + f + e * f) * (M * N) == e * M * ((1 + f) * N) + M * (f * N)) as -> by ring. lra.
  - rewrite Qabs_Qmult. apply Qle_trans with (M * Qabs B).
    + apply Qmult_le_compat_r; [exact H'|apply Qabs_nonneg].
    + rewrite !(Qmult_comm M). now apply Qmult_le_compat_r.
Qed.
(** Dividing by something positive. *)
Lemma within_pos e b B : within e b B B -> 0 < B -> e < 1 -> 0 < b.
Proof.
  intros [H _] P E. apply Qabs_Qle_condition in H as [H _].
  assert (0 < (1 - e) * B) by (apply Qmult_lt_0_compat; lra). assert ((1 - e) * B == B - e * B) as X by ring. lra.
Qed.
Lemma within_div e f g a b A B M : 0 <= e -> 0 <= f -> f < 1 -> e + f <= g * (1 - f) ->
  within e a A M -> within f b B B -> 0 < B -> within g (a / b) (A / B) (M / B).
Proof.
  intros E0 F0 F1 G W1 W2 P. pose proof (within_pos _ _ _ W2 P F1) as Pb. pose proof (within_M _ _ _ _ W1) as M0.
  destruct W1 as [H H'], W2 as [K _].
  assert (0 <= M / B) as MB by now apply div_nonneg.
  split.
  - assert (a / b - A / B == ((a - A) * B + A * (B - b)) / (b * B)) as X by (field; split; lra). rewrite X.
    assert (0 < b * B) as PB by now apply Qmult_lt_0_compat.
    unfold Qdiv at 1. rewrite Qabs_Qmult, (Qabs_pos (/ (b * B))) by (apply Qlt_le_weak, Qinv_lt_0_compat; auto).
    apply (Qmult_le_r _ _ (b * B)); auto.
    assert (forall z, z * / (b * B) * (b * B) == z) as Y by (intros z; field; split; lra). rewrite Y.
    assert (g * (M / B) * (b * B) == g * M * b) as -> by (field; lra).
    pose proof (Qabs_triangle ((a - A) * B) (A * (B - b))) as T. rewrite !Qabs_Qmult in T. rewrite (Qabs_pos B) in T by lra.
    assert (Qabs (a - A) * B <= e * M * B) as Y1 by (apply Qmult_le_compat_r; lra).
    assert (Qabs (B - b) <= f * B) as K' by (rewrite Qabs_Qminus; exact K).
    assert (Qabs A * Qabs (B - b) <= M * (f * B)) as Y2.
    { apply Qle_trans with (M * Qabs (B - b)).
      - apply Qmult_le_compat_r; [exact H'|apply Qabs_nonneg].
      - rewrite !(Qmult_comm M). now apply Qmult_le_compat_r. }
    apply Qabs_Qle_condition in K as [K1 _].
    assert ((1 - f) * B <= b) as Lb by (assert ((1 - f) * B == B - f * B) as -> by ring; lra).
    assert (0 <= g) as G0.
    { destruct (Qlt_le_dec g 0) as [N|N]; auto. exfalso.
      assert (0 < (- g) * (1 - f)) by (apply Qmult_lt_0_compat; lra). assert ((- g) * (1 - f) == - (g * (1 - f))) by ring. lra. }
    assert (g * M * ((1 - f) * B) <= g * M * b) as Y3.
    { rewrite !(Qmult_comm (g * M)). apply Qmult_le_compat_r; auto. now apply Qmult_le_0_compat. }
    assert ((e + f) * (M * B) <= g * (1 - f) * (M * B)) as Y4
      by (apply Qmult_le_compat_r; auto; apply Qmult_le_0_compat; lra).
    assert ((e + f) * (M * B) == e * M * B + M * (f * B)) as Y5 by ring.
    assert (g * M * ((1 - f) * B) == g * (1 - f) * (M * B)) as Y6 by ring. lra.
  - unfold Qdiv. rewrite Qabs_Qmult, (Qabs_pos (/ B)) by (apply Qlt_le_weak, Qinv_lt_0_compat; auto).
    apply Qmult_le_compat_r; auto. apply Qlt_le_weak, Qinv_lt_0_compat; auto.
Qed.
Lemma within_compat e a A A' M M' : within e a A M -> A == A' -> M == M' -> within e a A' M'.
Proof. intros [H H'] E1 E2. unfold within. now rewrite <- E1, <- E2. Qed.

(** Exact operands, one operation. *)
Lemma dmul_pos a b : 0 <= a -> 0 <= b -> within u (dmul a b) (a * b) (a * b).
Proof.
  intros A B. unfold dmul. apply within_red. assert (0 <= a * b) as P by now apply Qmult_le_0_compat.
  eapply within_compat; [eapply within_weaken; [apply within_rnd, (within_exact (a * b))|vm_compute; discriminate]|reflexivity|].
  now apply Qabs_pos.
Qed.

(* ------------------------------------------------------------------ normal intervals *)
Lemma double_twice x : is_double x -> is_double (2 * x).
Proof.
  intros (m & e & H & E). exists m, (e + 1)%Z. split; auto. rewrite E, Qpower_plus by discriminate. change (Qpower 2 1) with 2. ring.
Qed.
Lemma double_half x : is_double x -> is_double (x / 2).
Proof.
  intros (m & e & H & E). exists m, (e - 1)%Z. split; auto. rewrite E. unfold Z.sub. rewrite Qpower_plus by discriminate.
  change (Qpower 2 (- (1))) with (1#2).
  generalize (inject_Z m) (Qpower 2 e). intros p q. field.
Qed.
Section Interval.
  Variables x y sigma : Q.
  Hypotheses (Dx : is_double x) (Dy : is_double y) (LE : x <= y) (SG : 0 < sigma).
  Let m := ddiv (dadd x y) 2.
  Let s := ddiv (dsub y m) sigma.
  Lemma norm_params_eq : fl_norm_params x y sigma = Ok (m, s).
  Proof. unfold fl_norm_params. destruct (Qlt_bool y x) eqn:E; auto. exfalso. apply negb_true_iff in E.
    assert (Qle_bool x y = true) by now apply Qle_bool_iff. congruence. Qed.
  Lemma mean_half : m == rnd (x + y) / 2.
  Proof.
    unfold m, ddiv, dadd. rewrite Qred_correct.
    assert (rnd (Qred (rnd (x + y)) / 2) == rnd (rnd (x + y) / 2)) as -> by (apply rnd_compat; now rewrite Qred_correct).
    apply rnd_exact, double_half, rnd_double.
  Qed.
  Lemma mean_nearest : nearest_double ((x + y) / 2) m.
  Proof.
    split; [apply dred_double|]. intros z Dz. rewrite mean_half.
    destruct (rnd_nearest (x + y)) as [_ N]. specialize (N (2 * z) (double_twice _ Dz)).
    assert (rnd (x + y) / 2 - (x + y) / 2 == (rnd (x + y) - (x + y)) * (1#2)) as -> by field.
    assert (z - (x + y) / 2 == (2 * z - (x + y)) * (1#2)) as -> by field.
    rewrite !Qabs_Qmult. apply Qmult_le_compat_r; auto. discriminate.
  Qed.
  Lemma mean_between : x <= m /\ m <= y.
  Proof.
    rewrite mean_half. 
    assert (rnd (2 * x) <= rnd (x + y)) as A by (apply rnd_mono; lra).
    assert (rnd (x + y) <= rnd (2 * y)) as B by (apply rnd_mono; lra).
    rewrite (rnd_exact _ (double_twice _ Dx)) in A. rewrite (rnd_exact _ (double_twice _ Dy)) in B.
    split; [apply Qle_shift_div_l|apply Qle_shift_div_r]; lra.
  Qed.
  Lemma sd_nonneg : 0 <= s.
  Proof.
    unfold s, ddiv. rewrite Qred_correct. apply (proj1 (rnd_sign _)), div_nonneg; auto.
    unfold dsub. rewrite Qred_correct. apply (proj1 (rnd_sign _)). pose proof mean_between. lra.
  Qed.
  Lemma sd_zero_iff : s == 0 <-> m == y.
  Proof.
    split; intros H.
    - destruct mean_between as [_ B]. destruct (Qlt_le_dec m y) as [L|L]; [|lra]. exfalso.
      assert (0 < s) as P; [|lra]. unfold s, ddiv. rewrite Qred_correct. apply rnd_pos_lt, div_pos; auto.
      unfold dsub. rewrite Qred_correct. apply rnd_pos_lt. lra.
    - unfold s, ddiv, dsub. rewrite Qred_correct.
      assert (Qred (rnd (y - m)) / sigma == 0) as E.
      { rewrite Qred_correct. assert (rnd (y - m) == 0) as ->; [|field; lra].
        rewrite (rnd_compat (y - m) 0) by lra. reflexivity. }
      rewrite (rnd_compat _ _ E). reflexivity.
  Qed.
  Lemma room_between z : is_double z -> x < z -> z < y -> x < m /\ m < y /\ 0 < s.
  Proof.
    intros Dz L R. destruct mean_nearest as [_ N]. specialize (N z Dz). destruct mean_between as [A B].
    assert (Qabs (z - (x + y) / 2) < (y - x) / 2) as Z.
    { apply Qabs_case; intros _; [|]; apply Qlt_shift_div_l; try reflexivity; 
        [setoid_replace ((z - (x + y) / 2) * 2) with (2 * z - (x + y)) by field|setoid_replace (- (z - (x + y) / 2) * 2) with (x + y - 2 * z) by field]; lra. }
    assert (Qabs (m - (x + y) / 2) < (y - x) / 2) as Z2 by (eapply Qle_lt_trans; eauto).
    apply Qabs_Qlt_condition in Z2 as [Z3 Z4].
    assert ((x + y) / 2 == x + (y - x) / 2) as E1 by field. assert ((x + y) / 2 == y - (y - x) / 2) as E2 by field.
    assert (x < m) by lra. assert (m < y) by lra. split; [assumption|]. split; [assumption|].
    pose proof sd_nonneg. destruct (Qlt_le_dec 0 s) as [P|P]; auto. exfalso.
    assert (s == 0) as S0 by lra. apply sd_zero_iff in S0. lra.
  Qed.
  Lemma sd_back : within ((5#2) * u) (s * sigma) (y - m) (y - m).
  Proof.
    destruct mean_between as [A B]. assert (0 <= y - m) as P by lra.
    assert (within u (dsub y m) (y - m) (y - m)) as W.
    { unfold dsub. apply within_red. eapply within_compat; [eapply within_weaken; [apply within_rnd, within_exact|]|reflexivity|].
      - vm_compute; discriminate.
      - now apply Qabs_pos. }
    assert (within 0 sigma sigma sigma) as Ws.
    { eapply within_compat; [apply within_exact|reflexivity|apply Qabs_pos; lra]. }
    assert (within (2 * u + u * u) s ((y - m) / sigma) ((y - m) / sigma)) as Wd.
    { unfold s, ddiv. apply within_red. eapply within_weaken; [apply within_rnd; eapply (within_div u 0 u); eauto|]; try (vm_compute; congruence). }
    assert (0 <= 2 * u + u * u) as E0 by (vm_compute; discriminate).
    pose proof (within_mul _ _ _ _ _ _ _ _ E0 Wd Ws) as Wm.
    eapply within_compat; [eapply within_weaken; [exact Wm|vm_compute; discriminate]| |]; field; lra.
  Qed.
  Lemma interval_back : Qabs (m + s * sigma - y) <= (5#2) * u * (y - x) /\ Qabs (m - s * sigma - x) <= (5#2) * u * (y - x) + u * Qabs (x + y).
  Proof.
    destruct sd_back as [W _]. destruct mean_between as [A B].
    assert ((5#2) * u * (y - m) <= (5#2) * u * (y - x)) as L by (rewrite !(Qmult_comm ((5#2) * u)); apply Qmult_le_compat_r; [lra|vm_compute; discriminate]).
    split.
    - assert (m + s * sigma - y == s * sigma - (y - m)) as -> by ring. lra.
    - pose proof (rnd_error (x + y)) as E.
      assert (m - s * sigma - x == - (s * sigma - (y - m)) + (rnd (x + y) - (x + y))) as ->.
      { assert (rnd (x + y) == 2 * m) as -> by (rewrite mean_half; field). ring. }
      eapply Qle_trans; [apply Qabs_triangle|]. rewrite Qabs_opp. lra.
  Qed.
End Interval.
