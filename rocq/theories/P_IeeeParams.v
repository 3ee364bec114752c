(** Lemmas: normal intervals and updates in IEEE arithmetic with its range. *)
From Coq Require Import Qabs Lqa.
From Verif Require Import Base M_Values M_Ops M_Percentiles M_Double M_DoubleProb M_DoubleParams M_Ieee M_IeeeParams SpecFloat SpecDouble SpecIeee
  P_Support P_Round P_Double P_DoublePct P_Ieee P_Ieee2 P_IeeePct P_DoubleParams P_DoubleParams2.
Open Scope Q_scope.

(* ---------------------------------------------------------------- intervals *)
Lemma r64_opp q : r64 (- q) == - r64 q.
Proof.
  destruct q as [[|n|n] d]; unfold r64; cbn [Qnum Qopp Z.opp].
  - reflexivity.
  - change (- - (Zpos n # d)) with (Zpos n # d). reflexivity.
  - change (- (Zneg n # d)) with (Zpos n # d). ring.
Qed.
Lemma abs_below q : Qabs q < limit64 -> Qabs (r64 q) < pow2 1024.
Proof.
  intro L. apply Qabs_Qlt_condition. apply Qabs_Qlt_condition in L as [L1 L2]. destruct (Qlt_le_dec q 0) as [N|N].
  - pose proof (below_limit (- q) ltac:(lra) ltac:(lra)) as B. rewrite r64_opp in B. split; [lra|].
    apply Qle_lt_trans with 0; [|apply pow2_pos]. rewrite <- (r64_fix 0); [apply r64_mono; lra|]. exists 0%Z, 0%Z. repeat split; lia.
  - pose proof (below_limit q N L2). split; auto.
    assert (Z : 0 <= r64 q) by (rewrite <- (r64_fix 0); [apply r64_mono; lra|exists 0%Z, 0%Z; repeat split; lia]). pose proof (pow2_pos 1024). lra.
Qed.
Lemma to_fin q : Qabs (r64 q) < pow2 1024 -> exists r, round64 (Fin q) = Fin r /\ r == r64 q.
Proof. intro L. pose proof (round64_r64 q L) as S. destruct (round64 (Fin q)) as [r| | |]; try contradiction. now exists r. Qed.
Lemma u_0 : u_double 0. Proof. exists 0%Z, 0%Z. repeat split; lia. Qed.
Lemma u_twice x : u_double x -> u_double (2 * x).
Proof.
  intros (m & e & M & L & E). exists m, (e + 1)%Z. repeat split; [lia|lia|]. rewrite E, pow2_plus. change (pow2 1) with 2. ring.
Qed.
Section Interval.
  Variables x y : Q.
  Hypothesis Ux : u_double x. Hypothesis Uy : u_double y.
  Hypothesis Bx : Qabs x < pow2 1024. Hypothesis By : Qabs y < pow2 1024. Hypothesis XY : x <= y.
  Let S := r64 (x + y).
  Let m := r64 (S / 2).
  Lemma half_between : x <= m /\ m <= y.
  Proof.
    unfold m. assert (A : 2 * x <= S) by (unfold S; rewrite <- (r64_fix _ (u_twice x Ux)); apply r64_mono; lra).
    assert (B : S <= 2 * y) by (unfold S; rewrite <- (r64_fix _ (u_twice y Uy)); apply r64_mono; lra).
    assert (H : S / 2 == S * (1#2)) by reflexivity.
    split; [rewrite <- (r64_fix _ Ux) at 1|rewrite <- (r64_fix _ Uy)]; apply r64_mono; rewrite H; lra.
  Qed.
  Lemma upper_part : 0 <= r64 (y - m) /\ r64 (y - m) < pow2 1024.
  Proof.
    pose proof half_between as [M0 M1]. apply Qabs_Qlt_condition in Bx as [Bx0 Bx1]. apply Qabs_Qlt_condition in By as [By0 By1]. split.
    - rewrite <- (r64_fix 0 u_0). apply r64_mono. lra.
    - destruct (Qlt_le_dec (x + y) 0) as [N|N].
      + destruct (half_fits y (- x) Uy (u_double_opp _ Ux) ltac:(lra) (1#2)) as [_ H]; [discriminate|apply Qle_refl|].
        assert (E : r64 (r64 (- x - y) * (1#2)) == - m).
        { unfold m. rewrite <- r64_opp. apply r64_compat. unfold S. assert (T : r64 (- x - y) == - r64 (x + y)) by (rewrite <- r64_opp; apply r64_compat; ring).
          rewrite T. assert (Q2 : r64 (x + y) / 2 == r64 (x + y) * (1#2)) by reflexivity. rewrite Q2. ring. }
        rewrite E in H. apply Qle_lt_trans with (- x); [|lra]. rewrite <- (r64_fix (- x)) by now apply u_double_opp. apply r64_mono. lra.
      + assert (0 <= m).
        { unfold m. rewrite <- (r64_fix 0 u_0). apply r64_mono. assert (0 <= S) by (unfold S; rewrite <- (r64_fix 0 u_0); now apply r64_mono).
          assert (H1 : S / 2 == S * (1#2)) by reflexivity. rewrite H1. lra. }
        apply Qle_lt_trans with y; auto. rewrite <- (r64_fix _ Uy) at 2. apply r64_mono. lra.
  Qed.
  Lemma interval_finite sigma : Qabs (x + y) < limit64 -> 1 <= sigma ->
    exists M s, ieee_norm_params x y sigma = Ok (Fin M, Fin s) /\ x <= M /\ M <= y /\ 0 <= s.
  Proof.
    intros L SG. pose proof half_between as [M0 M1]. pose proof upper_part as [D0 D1].
    unfold ieee_norm_params. destruct (Qlt_bool y x) eqn:C; [apply qlt_true in C; lra|].
    unfold i_add, i_sub, i_div. cbn [xadd]. destruct (to_fin (x + y) (abs_below _ L)) as (s0 & -> & E0). cbn [xdiv]. change (Qeq_bool 2 0) with false. cbv iota.
    assert (E1 : r64 (s0 / 2) == m) by (unfold m, S; apply r64_compat; now rewrite E0).
    destruct (to_fin (s0 / 2)) as (M & EM & E2). { rewrite E1. apply Qabs_Qlt_condition. apply Qabs_Qlt_condition in Bx, By. lra. }
    rewrite EM. unfold xsub. cbn [xneg xadd]. rewrite E1 in E2.
    assert (E3 : r64 (y + - M) == r64 (y - m)) by (apply r64_compat; rewrite E2; reflexivity).
    destruct (to_fin (y + - M)) as (D & ED & E4). { rewrite E3, Qabs_pos; auto. }
    rewrite ED. cbn [xdiv]. destruct (Qeq_bool sigma 0) eqn:Z; [apply Qeq_bool_iff in Z; lra|]. rewrite E3 in E4.
    assert (E5 : 0 <= r64 (D / sigma) /\ r64 (D / sigma) <= r64 (y - m)).
    { assert (U : u_double (r64 (y - m))) by apply r64_u. assert (DS : D / sigma * sigma == D) by (field; lra).
      assert (P : 0 <= D / sigma). { apply Qle_shift_div_l; lra. }
      split; [rewrite <- (r64_fix 0 u_0); now apply r64_mono|]. rewrite <- (r64_fix _ U). apply r64_mono. rewrite <- E4. nra. }
    destruct (to_fin (D / sigma)) as (s & -> & E6). { rewrite Qabs_pos by apply E5. lra. }
    exists M, s. split; auto. lra.
  Qed.
End Interval.
Lemma round64_inf q : limit64 <= q -> round64 (Fin q) = PInf.
Proof.
  intro L. assert (P : 0 < q) by (assert (0 < limit64) by reflexivity; lra). pose proof (from_limit q L) as B.
  destruct (round64_cases q) as [[A _]|[[A ->]|[A _]]]; try lra. destruct (r64_cases q) as [[A' _]|[[_ E]|[A' _]]]; try lra. rewrite E in B.
  unfold round64_pos. cbv zeta. change (inject_Z (round_half_even (q * pow2 (- Z.max (last_digit q) (-1074)))) * pow2 (Z.max (last_digit q) (-1074))) with (r64_pos q).
  assert (Qlt_bool (r64_pos q) (pow2 1024) = false) as -> by (apply qlt_false; exact B). reflexivity.
Qed.
Lemma round64_ninf q : q <= - limit64 -> round64 (Fin q) = NInf.
Proof.
  intro L. assert (P : q < 0) by (assert (0 < limit64) by reflexivity; lra). pose proof (round64_inf (- q) ltac:(lra)) as B.
  destruct (round64_cases q) as [[A _]|[[A _]|[A ->]]]; try lra. destruct (round64_cases (- q)) as [[A' _]|[[_ E]|[A' _]]]; try lra. rewrite E in B. now rewrite B.
Qed.
Lemma sign_pos sigma : 0 < sigma -> qsign sigma = Datatypes.Gt.
Proof. intro P. unfold qsign. destruct sigma as [[|n|n] d]; unfold Qlt in P; cbn in P; try lia. reflexivity. Qed.
Lemma interval_overflow x y sigma : x <= y -> 0 < sigma ->
  (limit64 <= x + y -> ieee_norm_params x y sigma = Ok (PInf, NInf)) /\ (x + y <= - limit64 -> ieee_norm_params x y sigma = Ok (NInf, PInf)).
Proof.
  intros XY SG. unfold ieee_norm_params. destruct (Qlt_bool y x) eqn:C; [apply qlt_true in C; lra|].
  assert (Z : Qeq_bool sigma 0 = false) by (destruct (Qeq_bool sigma 0) eqn:Z; auto; apply Qeq_bool_iff in Z; lra).
  unfold i_add, i_sub, i_div, xsub. cbn [xadd]. split; intro L.
  - rewrite round64_inf by auto. cbn. rewrite Z, (sign_pos _ SG). reflexivity.
  - rewrite round64_ninf by auto. cbn. rewrite Z, (sign_pos _ SG). reflexivity.
Qed.

(* ------------------------------------------------------------------ updates *)
(** Zero, or a size between two powers of two. *)
Definition rg (a b : Z) (q : Q) : Prop := q == 0 \/ (pow2 a <= Qabs q /\ Qabs q <= pow2 b).
Lemma rg_compat a b p q : p == q -> rg a b p -> rg a b q.
Proof. intros E [H|H]; [left|right]; now rewrite <- E. Qed.
Lemma is_pow2 e : is_double (pow2 e).
Proof. exists 1%Z, e. split; [lia|]. change (pow2 e == 1 * pow2 e). ring. Qed.
Lemma is_0 : is_double 0.
Proof. exists 0%Z, 0%Z. split; [lia|]. reflexivity. Qed.
Lemma rnd_opp q : rnd (- q) == - rnd q.
Proof.
  destruct q as [[|n|n] d]; unfold rnd; cbn [Qnum Qopp Z.opp].
  - reflexivity.
  - change (- - (Zpos n # d)) with (Zpos n # d). reflexivity.
  - change (- (Zneg n # d)) with (Zpos n # d). ring.
Qed.
Lemma rnd_abs q : Qabs (rnd q) == rnd (Qabs q).
Proof.
  destruct (Qlt_le_dec q 0) as [N|N].
  - assert (H : Qabs q == - q) by (rewrite Qabs_neg; [reflexivity|lra]). rewrite (rnd_compat _ _ H), rnd_opp.
    apply Qabs_neg. apply rnd_sign. lra.
  - assert (H : Qabs q == q) by (rewrite Qabs_pos; [reflexivity|lra]). rewrite (rnd_compat _ _ H).
    apply Qabs_pos. now apply rnd_sign.
Qed.
Lemma rg_rnd a b q : rg a b q -> rg a b (rnd q).
Proof.
  intros [H|[H1 H2]].
  - left. rewrite (rnd_compat _ _ H). apply (rnd_exact 0 is_0).
  - right. rewrite rnd_abs. split.
    + rewrite <- (rnd_exact _ (is_pow2 a)). now apply rnd_mono.
    + rewrite <- (rnd_exact _ (is_pow2 b)). now apply rnd_mono.
Qed.
Lemma rg_mul a b c d p q : rg a b p -> rg c d q -> rg (a + c) (b + d) (p * q).
Proof.
  intros [H|[H1 H2]] [K|[K1 K2]]; try (left; rewrite ?H, ?K; ring). right. rewrite Qabs_Qmult, !pow2_plus.
  pose proof (pow2_pos a). pose proof (pow2_pos c). pose proof (pow2_pos b). split; nra.
Qed.
Lemma rg_wider a b a' b' q : (a' <= a)%Z -> (b <= b')%Z -> rg a b q -> rg a' b' q.
Proof.
  intros A B [H|[H1 H2]]; [now left|right]. split; (eapply Qle_trans; [|eassumption]) || (eapply Qle_trans; [eassumption|]); now apply pow2_mono.
Qed.
Lemma rg_inv a b q : rg a b q -> rg (- b) (- a) (/ q).
Proof.
  intros [H|[H1 H2]]; [left; rewrite H; reflexivity|right].
  pose proof (pow2_pos a). assert (P : 0 < Qabs q) by lra. assert (E : Qabs (/ q) * Qabs q == 1).
  { rewrite <- Qabs_Qmult. assert (N : ~ q == 0) by (intro Z; rewrite Z in P; discriminate). assert (/ q * q == 1) as -> by (field; auto). reflexivity. }
  pose proof (pow2_opp a). pose proof (pow2_opp b). pose proof (pow2_pos (- a)). pose proof (pow2_pos (- b)). pose proof (pow2_pos b). split; nra.
Qed.
Lemma rg_div a b c d p q : rg a b p -> rg c d q -> rg (a - d) (b - c) (p / q).
Proof. intros H K. apply (rg_mul _ _ _ _ _ _ H (rg_inv _ _ _ K)). Qed.
Lemma rg_units a b q : is_double q -> rg a b q -> exists k, q == inject_Z k * pow2 (a - 53).
Proof.
  intros (m & e & M & E) [H|[H _]]; [exists 0%Z; rewrite H; ring|].
  assert (L : (a - 53 <= e)%Z).
  { destruct (Z_lt_le_dec e (a - 53)) as [C|C]; auto. exfalso. change (Qpower 2 e) with (pow2 e) in E.
    rewrite E, Qabs_Qmult, (Qabs_pos (pow2 e)) in H by (pose proof (pow2_pos e); lra).
    assert (I : Qabs (inject_Z m) <= pow2 53) by (rewrite (pow2_Z 53) by lia; change (Qabs (inject_Z m)) with (inject_Z (Z.abs m)); now rewrite <- Zle_Qle).
    assert (J : Qabs (inject_Z m) * pow2 e <= pow2 (53 + e)) by (rewrite pow2_plus; apply Qmult_le_compat_r; auto; pose proof (pow2_pos e); lra).
    pose proof (pow2_lt (53 + e) a ltac:(lia)). lra. }
  exists (m * 2 ^ (e - (a - 53)))%Z. rewrite E, inject_Z_mult, <- (pow2_Z (e - (a - 53))) by lia.
  replace e with (e - (a - 53) + (a - 53))%Z at 1 by lia. change (Qpower 2 ?z) with (pow2 z). rewrite pow2_plus. ring.
Qed.
Lemma rg_add a b p q : is_double p -> is_double q -> rg a b p -> rg a b q -> rg (a - 53) (b + 1) (p + q).
Proof.
  intros P Q H K. destruct (rg_units _ _ _ P H) as (k & Ek). destruct (rg_units _ _ _ Q K) as (l & El).
  assert (E : p + q == inject_Z (k + l) * pow2 (a - 53)) by (rewrite Ek, El, inject_Z_plus; ring).
  destruct (Z.eq_dec (k + l) 0) as [Z|Z]; [left; rewrite E, Z; ring|right]. split.
  - rewrite E, Qabs_Qmult, (Qabs_pos (pow2 _)) by (pose proof (pow2_pos (a - 53)); lra).
    rewrite <- (Qmult_1_l (pow2 (a - 53))) at 1. apply Qmult_le_compat_r; [|pose proof (pow2_pos (a - 53)); lra].
    change (Qabs (inject_Z (k + l))) with (inject_Z (Z.abs (k + l))). change 1 with (inject_Z 1). rewrite <- Zle_Qle. lia.
  - eapply Qle_trans; [apply Qabs_triangle|]. rewrite pow2_plus. change (pow2 1) with 2. pose proof (pow2_pos b).
    assert (Qabs p <= pow2 b) by (destruct H as [H|[_ H]]; auto; rewrite H; change (Qabs 0) with 0; lra).
    assert (Qabs q <= pow2 b) by (destruct K as [K|[_ K]]; auto; rewrite K; change (Qabs 0) with 0; lra). lra.
Qed.
(** Rounding in range is [rnd]. *)
Lemma rg_round a b q q' : q == q' -> rg a b q' -> (-1022 <= a)%Z -> (b <= 1023)%Z -> exists r, round64 (Fin q) = Fin r /\ r == rnd q'.
Proof.
  intros E G A B. destruct (rg_rnd _ _ _ G) as [R|[_ R]].
  - destruct G as [G|[G _]].
    + exists 0. split; [|now rewrite R]. destruct (round64_cases q) as [[_ ->]|[[C _]|[C _]]]; auto; exfalso; lra.
    + exfalso. assert (W : pow2 a <= Qabs (rnd q')) by (rewrite rnd_abs, <- (rnd_exact _ (is_pow2 a)); now apply rnd_mono).
      rewrite R in W. pose proof (pow2_pos a). change (Qabs 0) with 0 in W. lra.
  - destruct G as [G|[G _]].
    + exists 0. split; [|rewrite (rnd_compat _ _ G); symmetry; apply (rnd_exact 0 is_0)].
      destruct (round64_cases q) as [[_ ->]|[[C _]|[C _]]]; auto; exfalso; lra.
    + destruct (normal_rounds q) as [N _]. { rewrite E. eapply Qle_trans; [|exact G]. now apply pow2_mono. }
      assert (S : same (round64 (Fin q)) (Fin (rnd q'))).
      { assert (T : same (round64 (Fin q)) (Fin (rnd q))). { apply N. rewrite (rnd_compat _ _ E). eapply Qle_lt_trans; [exact R|]. apply pow2_lt. lia. }
        destruct (round64 (Fin q)); try contradiction. cbn in T |- *. rewrite T. now apply rnd_compat. }
      destruct (round64 (Fin q)) as [r| | |]; try contradiction. now exists r.
Qed.

Lemma square_range s : pow2 (-50) <= s /\ s <= pow2 50 -> exists v, ieee_square s = Ok (Fin v) /\ v == dmul s s /\ pow2 (-100) <= v /\ v <= pow2 100.
Proof.
  intros [A B]. pose proof (pow2_pos (-50)) as P. assert (Q0 : Qabs s == s) by (apply Qabs_pos; lra).
  assert (G : rg (-50) 50 s) by (right; now rewrite Q0). pose proof (rg_mul _ _ _ _ _ _ G G) as G2. cbn [Z.add] in G2.
  destruct (rg_round _ _ _ _ (Qeq_refl _) G2 ltac:(lia) ltac:(lia)) as (v & E1 & E2).
  exists v. unfold ieee_square, i_mul. cbn [xmul]. rewrite E1. split; auto. split; [now rewrite dmul_eq|].
  assert (V : 0 <= v) by (rewrite E2; apply (proj1 (rnd_sign _)); apply Qmult_le_0_compat; lra).
  destruct (rg_rnd _ _ _ G2) as [Z|[Z1 Z2]]; rewrite <- E2 in *.
  - exfalso. assert (W : pow2 (-100) <= rnd (s * s)).
    { rewrite <- (rnd_exact _ (is_pow2 (-100))). apply rnd_mono. change (-100)%Z with (-50 + -50)%Z. rewrite pow2_plus. apply Qle_trans with (s * pow2 (-50)); [apply Qmult_le_compat_r|rewrite (Qmult_comm s (pow2 (-50))); apply Qmult_le_compat_r]; lra. }
    rewrite <- E2, Z in W. pose proof (pow2_pos (-100)). lra.
  - rewrite Qabs_pos in Z1, Z2 by auto. auto.
Qed.
Lemma double_of a q : a == rnd q -> is_double a.
Proof. intro E. eapply is_double_compat; [symmetry; exact E|apply rnd_double]. Qed.
Section Update.
  Variables pm ps em es w : Q.
  Hypothesis Gp : rg (-100) 100 pm. Hypothesis Ge : rg (-100) 100 em. Hypothesis Gw : rg (-100) 100 w. Hypothesis W0 : 0 <= w.
  Hypothesis Gps : pow2 (-50) <= ps /\ ps <= pow2 50. Hypothesis Ges : pow2 (-50) <= es /\ es <= pow2 50.
  Lemma update_in_range : exists M V, ieee_update pm ps em es w = Ok (Fin M, Fin V) /\
    M == fst (fl_update pm (dmul ps ps) em (dmul es es) w) /\ V == snd (fl_update pm (dmul ps ps) em (dmul es es) w).
  Proof.
    destruct (square_range ps Gps) as (pv & Ep & Vp & P1 & P2). destruct (square_range es Ges) as (ev & Ee & Ve & E1 & E2).
    unfold ieee_update. rewrite Ep, Ee. cbn [bind]. pose proof (pow2_pos (-100)) as P0.
    assert (Gpv : rg (-100) 100 pv) by (right; rewrite Qabs_pos by lra; auto).
    assert (Gev : rg (-100) 100 ev) by (right; rewrite Qabs_pos by lra; auto).
    unfold i_add, i_mul, i_div. cbn [xmul].
    assert (MUL : forall a b c d p q p' q', p == p' -> q == q' -> rg a b p -> rg c d q -> (-1022 <= a + c)%Z -> (b + d <= 1023)%Z ->
       exists r, round64 (Fin (p * q)) = Fin r /\ r == rnd (p' * q') /\ rg (a + c) (b + d) r).
    { intros a b c d p q p' q' EP EQ H K A B. pose proof (rg_mul _ _ _ _ _ _ H K) as G.
      destruct (rg_round _ _ _ _ (Qeq_refl _) G A B) as (r & R1 & R2). exists r. split; auto. split.
      - rewrite R2. apply rnd_compat. now rewrite EP, EQ.
      - eapply rg_compat; [symmetry; exact R2|now apply rg_rnd]. }
    destruct (MUL _ _ _ _ w pv w (dmul ps ps) (Qeq_refl _) Vp Gw Gpv ltac:(lia) ltac:(lia)) as (t1 & -> & T1 & R1).
    destruct (MUL _ _ _ _ ev pm (dmul es es) pm Ve (Qeq_refl _) Gev Gp ltac:(lia) ltac:(lia)) as (t2 & -> & T2 & R2).
    destruct (MUL _ _ _ _ pv em (dmul ps ps) em Vp (Qeq_refl _) Gpv Ge ltac:(lia) ltac:(lia)) as (t3 & -> & T3 & R3). cbn [xmul].
    destruct (MUL _ _ _ _ w t3 w (rnd (dmul ps ps * em)) (Qeq_refl _) T3 Gw R3 ltac:(lia) ltac:(lia)) as (t4 & -> & T4 & R4).
    destruct (MUL _ _ _ _ ev pv (dmul es es) (dmul ps ps) Ve Vp Gev Gpv ltac:(lia) ltac:(lia)) as (t5 & -> & T5 & R5). cbn [xadd Z.add] in *.
    assert (N1 : 0 <= t1) by (rewrite T1, <- (rnd_compat _ _ (Qmult_comp _ _ (Qeq_refl w) _ _ Vp)); apply (proj1 (rnd_sign _)); apply Qmult_le_0_compat; lra).
    assert (U1 : t1 <= pow2 200). { destruct R1 as [R1|[_ R1]]; [rewrite R1; apply Qlt_le_weak, pow2_pos|]. now rewrite Qabs_pos in R1. }
    assert (GD : rg (-100) 201 (t1 + ev)).
    { right. rewrite Qabs_pos by lra. split; [lra|]. change 201%Z with (200 + 1)%Z. rewrite (pow2_plus 200 1). change (pow2 1) with 2.
      pose proof (pow2_mono 100 200 ltac:(lia)). lra. }
    destruct (rg_round _ _ _ _ (Qeq_refl _) GD ltac:(lia) ltac:(lia)) as (d & -> & D).
    assert (GD' : rg (-100) 201 d) by (eapply rg_compat; [symmetry; exact D|now apply rg_rnd]).
    assert (DP : pow2 (-100) <= d) by (rewrite D, <- (rnd_exact _ (is_pow2 (-100))); apply rnd_mono; lra).
    cbn [xzero]. destruct (Qeq_bool d 0) eqn:Z; [apply Qeq_bool_iff in Z; lra|].
    assert (GN : rg (-353) 301 (t2 + t4)).
    { apply (rg_add (-300) 300); [eapply double_of; exact T2|eapply double_of; exact T4| |]; eapply rg_wider; [| |exact R2| | |exact R4]; lia. }
    destruct (rg_round _ _ _ _ (Qeq_refl _) GN ltac:(lia) ltac:(lia)) as (n & -> & NN). cbn [xdiv]. rewrite Z.
    assert (GN' : rg (-353) 301 n) by (eapply rg_compat; [symmetry; exact NN|now apply rg_rnd]).
    destruct (rg_round _ _ _ _ (Qeq_refl _) (rg_div _ _ _ _ _ _ GN' GD') ltac:(lia) ltac:(lia)) as (M & -> & EM).
    destruct (rg_round _ _ _ _ (Qeq_refl _) (rg_div _ _ _ _ _ _ R5 GD') ltac:(lia) ltac:(lia)) as (V & -> & EV).
    exists M, V. split; auto. unfold fl_update. cbn [fst snd].
    assert (ED : d == dadd (dmul w (dmul ps ps)) (dmul es es)).
    { rewrite D, dadd_eq. apply rnd_compat. now rewrite T1, Ve, (dmul_eq w). }
    assert (EN : n == dadd (dmul (dmul es es) pm) (dmul w (dmul (dmul ps ps) em))).
    { rewrite NN, dadd_eq. apply rnd_compat. rewrite T2, T4, (dmul_eq (dmul es es) pm), (dmul_eq w). apply Qplus_comp; [reflexivity|].
      apply rnd_compat. now rewrite (dmul_eq (dmul ps ps) em). }
    split.
    - rewrite EM, ddiv_eq. apply rnd_compat. now rewrite EN, ED.
    - rewrite EV, ddiv_eq. apply rnd_compat. now rewrite T5, ED, (dmul_eq (dmul es es) (dmul ps ps)).
  Qed.
End Update.
Lemma interval_rejects x y sigma : y < x -> exists e, ieee_norm_params x y sigma = Err (ValueError e).
Proof. intro L. unfold ieee_norm_params. apply qlt_true in L. rewrite L. eauto. Qed.
Lemma update_positive pm ps em es w : rg (-100) 100 pm -> rg (-100) 100 em -> rg (-100) 100 w -> 0 <= w ->
  pow2 (-50) <= ps /\ ps <= pow2 50 -> pow2 (-50) <= es /\ es <= pow2 50 ->
  exists M V, ieee_update pm ps em es w = Ok (Fin M, Fin V) /\ 0 < V.
Proof.
  intros A B C D E F. destruct (update_in_range pm ps em es w A B C D E F) as (M & V & H & _ & HV). exists M, V. split; auto.
  rewrite HV. pose proof (pow2_pos (-100)).
  destruct (square_range ps E) as (v & _ & V1 & V2 & _). destruct (square_range es F) as (u & _ & U1 & U2 & _).
  apply update_var_pos; auto; [rewrite <- V1|rewrite <- U1]; lra.
Qed.
