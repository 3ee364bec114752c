(** Exponential bounds for conditional answers (C206). *)
From Coq Require Import Qabs ZArith Lia Lqa.
From Verif Require Import Base M_Weights M_Values M_Sampler M_Ops M_SampleApi M_Bayesnet SpecWeights SpecSampler SpecOps SpecBayes SpecConversation SpecShare P_DiceShare P_Support P_Bayesnet P_Conversation P_Count P_Ops P_Program P_Program2 P_Large P_Indep P_Columns P_Columns2 P_Chernoff.
From Verif Require Import SpecProgram SpecLarge SpecIndep SpecColumns SpecChernoff SpecTilt.
Open Scope Q_scope.

Lemma npow_1 n : npow 1 n == 1.
Proof. induction n as [|n IH]; cbn [npow]; [reflexivity|rewrite IH; ring]. Qed.
Lemma inv_pos x : 0 < x -> 0 < / x.
Proof. intros H. now apply Qinv_lt_0_compat. Qed.
Section Law.
  Variables (A : Type) (p : prog A) (P1 P2 : A -> bool) (L c : nat).
  Hypothesis F : fits p L c.
  Hypothesis D : forall a, P1 a && P2 a = false.
  Definition mix (x y : Q) : Q := 1 + chance p P1 * (x - 1) + chance p P2 * (y - 1).
  Lemma generating2 x y : forall n, expect (repeated n p) (fun l => npow x (count P1 l) * npow y (count P2 l)) == npow (mix x y) n.
  Proof.
    induction n as [|n IH]; [reflexivity|]. rewrite expect_repeated. cbn [npow].
    rewrite (expect_ext p _ (fun a => npow (mix x y) n * (1 * (1 * 1 + (x - 1) * (if P1 a then 1 else 0)) + (y - 1) * (if P2 a then 1 else 0)))).
    - rewrite expect_scale, !expect_linear, (expect_const p 1 L c F), <- !expect_chance. unfold mix. ring.
    - intros a. rewrite <- IH. rewrite (expect_ext _ _ (fun l => (if P1 a then x else if P2 a then y else 1) * (npow x (count P1 l) * npow y (count P2 l)))).
      + rewrite expect_scale. specialize (D a). destruct (P1 a), (P2 a); try discriminate D; ring.
      + intros l. cbn [count]. specialize (D a). destruct (P1 a), (P2 a); try discriminate D; cbn [Nat.add npow]; ring.
  Qed.
  Lemma markov2 x y n (E : list A -> bool) : 0 < x -> 0 < y -> (forall l, E l = true -> 1 <= npow x (count P1 l) * npow y (count P2 l)) ->
    chance (repeated n p) E <= npow (mix x y) n.
  Proof.
    intros X Y H. rewrite <- generating2, expect_chance.
    apply (expect_le_sure _ (fun _ => True) _ _ (returns_all _ _ (fun _ => I)) ) with (L := (n * L)%nat) (c := (n * c)%nat); [|now apply fits_repeated].
    intros l _. destruct (E l) eqn:El; [now apply H|]. apply Qmult_le_0_compat; apply Qlt_le_weak; now apply npow_pos.
  Qed.
  Lemma powers t a b m k : 0 < t -> npow (npow t a) m * npow (/ npow t b) k == npow t (a * m) / npow t (b * k).
  Proof. intros T. pose proof (npow_pos t b T). rewrite npow_inv by auto. rewrite !npow_mul. reflexivity. Qed.
  Lemma more t a b n : 1 <= t -> chance (repeated n p) (fun l => Nat.leb (b * count P2 l) (a * count P1 l)) <= npow (mix (npow t a) (/ npow t b)) n.
  Proof.
    intros T. apply markov2; [apply npow_pos; lra|apply inv_pos, npow_pos; lra|]. intros l E. apply Nat.leb_le in E. rewrite powers by lra.
    pose proof (npow_pos t (b * count P2 l) ltac:(lra)). apply Qle_shift_div_l; [auto|]. rewrite Qmult_1_l. now apply npow_grow.
  Qed.
  Lemma fewer t a b n : 0 < t <= 1 -> chance (repeated n p) (fun l => Nat.leb (a * count P1 l) (b * count P2 l)) <= npow (mix (npow t a) (/ npow t b)) n.
  Proof.
    intros T. apply markov2; [apply npow_pos; lra|apply inv_pos, npow_pos; lra|]. intros l E. apply Nat.leb_le in E. rewrite powers by lra.
    pose proof (npow_pos t (b * count P2 l) ltac:(lra)). apply Qle_shift_div_l; [auto|]. rewrite Qmult_1_l. now apply npow_shrink.
  Qed.
  Lemma sum_unit : 0 <= chance p P1 /\ 0 <= chance p P2 /\ chance p P1 + chance p P2 <= 1.
  Proof.
    split; [apply (chance_unit A p P1 L c F)|]. split; [apply (chance_unit A p P2 L c F)|].
    pose proof (chance_unit A p (fun a => P1 a || P2 a) L c F) as [_ U]. eapply Qle_trans; [|exact U]. rewrite !expect_chance. apply Qle_lteq. right.
    rewrite (expect_ext p (fun a => if P1 a || P2 a then 1 else 0) (fun a => 1 * (if P1 a then 1 else 0) + 1 * (if P2 a then 1 else 0))).
    - rewrite expect_linear. ring.
    - intros a. specialize (D a). destruct (P1 a), (P2 a); try discriminate D; cbn [orb]; ring.
  Qed.
  Lemma decay2 a b : chance p P1 * qnat a < chance p P2 * qnat b ->
    exists r, 0 <= r /\ r < 1 /\ forall n, chance (repeated n p) (fun l => Nat.leb (b * count P2 l) (a * count P1 l)) <= npow r n.
  Proof.
    intros H. destruct sum_unit as (U1 & U2 & U3). pose proof (qnat_nn a) as A0. pose proof (qnat_nn b) as B0.
    set (p1 := chance p P1) in *. set (p2 := chance p P2) in *. set (x := qnat a) in *. set (y := qnat b) in *. set (g := p2 * y - p1 * x).
    assert (G : 0 < g) by (unfold g; lra). set (K := (1 + x) * (1 + y) * (1 + g)). assert (K0 : 0 < K) by (unfold K; assert (0 < (1 + x) * (1 + y)) by nra; nra).
    assert (KE : K == (1 + x + y + x * y) * (1 + g)) by (unfold K; ring). assert (XY : 0 <= x * y) by nra. assert (XG : 0 <= x * g) by nra. assert (YG : 0 <= y * g) by nra. assert (XYG : 0 <= x * y * g) by nra.
    set (d := g / K). assert (D0 : 0 < d) by (apply Qlt_shift_div_l; [exact K0|lra]).
    assert (D1 : d <= 1) by (apply Qle_shift_div_r; [exact K0|]; rewrite KE; nra).
    assert (D2 : x * d < 1). { unfold d. setoid_replace (x * (g / K)) with (x * g / K) by (field; lra). apply Qlt_shift_div_r; [exact K0|]. rewrite KE. lra. }
    assert (D3 : x * y * d < g). { unfold d. setoid_replace (x * y * (g / K)) with (x * y * g / K) by (field; lra). apply Qlt_shift_div_r; [exact K0|]. rewrite KE. assert (0 < g * g) by nra. assert (0 <= x * g * g) by nra. assert (0 <= y * g * g) by nra. assert (0 <= x * y * g * g) by nra. lra. }
    set (t := 1 + d). exists (mix (npow t a) (/ npow t b)).
    assert (T : 1 <= t) by (unfold t; lra). pose proof (npow_pos t a ltac:(lra)) as Pa. pose proof (npow_pos t b ltac:(lra)) as Pb. pose proof (inv_pos _ Pb) as Ib.
    assert (M : forall u v, mix u v == (1 - p1 - p2) + p1 * u + p2 * v) by (intros u v; unfold mix; fold p1 p2; ring).
    split; [rewrite M; assert (0 <= p1 * npow t a) by nra; assert (0 <= p2 * / npow t b) by nra; lra|]. split; [|intros n; now apply more].
    pose proof (bernoulli_up d b ltac:(lra)) as Bu. fold y t in Bu. pose proof (bernoulli_down d a ltac:(lra)) as Bd. fold x in Bd.
    assert (Z : npow (1 - d) a * npow t a <= 1).
    { rewrite <- npow_prod. pose proof (npow_le ((1 - d) * t) 1 a ltac:(unfold t; nra) ltac:(unfold t; nra)) as N. rewrite npow_1 in N. exact N. }
    assert (X1 : (1 - x * d) * npow t a <= 1) by nra.
    assert (Y1 : (1 + y * d) * / npow t b <= 1). { setoid_replace 1 with (npow t b * / npow t b) at 2 by (field; lra). apply Qmult_le_compat_r; lra. }
    rewrite M. set (u := npow t a) in *. set (v := / npow t b) in *. clearbody u v.
    assert (E1 : 0 < 1 - x * d) by lra. assert (E2 : 0 < 1 + y * d) by nra.
    (* multiply by (1 - x d) (1 + y d) *)
    set (m := (1 - x * d) * (1 + y * d)). assert (Pm : 0 < m) by (unfold m; nra).
    assert (Q1 : p1 * (u - 1) * m <= p1 * (x * d) * (1 + y * d)).
    { setoid_replace (p1 * (u - 1) * m) with (p1 * (1 + y * d) * ((1 - x * d) * u - (1 - x * d))) by (unfold m; ring). setoid_replace (p1 * (x * d) * (1 + y * d)) with (p1 * (1 + y * d) * (x * d)) by ring.
      rewrite !(Qmult_comm (p1 * (1 + y * d))). apply Qmult_le_compat_r; [lra|]. apply Qmult_le_0_compat; lra. }
    assert (Q2 : p2 * (v - 1) * m <= p2 * (- (y * d)) * (1 - x * d)).
    { setoid_replace (p2 * (v - 1) * m) with (p2 * (1 - x * d) * ((1 + y * d) * v - (1 + y * d))) by (unfold m; ring). setoid_replace (p2 * (- (y * d)) * (1 - x * d)) with (p2 * (1 - x * d) * (- (y * d))) by ring.
      rewrite !(Qmult_comm (p2 * (1 - x * d))). apply Qmult_le_compat_r; [lra|]. apply Qmult_le_0_compat; lra. }
    assert (Q3 : p1 * (x * d) * (1 + y * d) + p2 * (- (y * d)) * (1 - x * d) < 0).
    { setoid_replace (p1 * (x * d) * (1 + y * d) + p2 * (- (y * d)) * (1 - x * d)) with (- (d * (g - (p1 + p2) * (x * y * d)))) by (unfold g; ring).
      assert (0 <= x * y * d) by nra. assert ((p1 + p2) * (x * y * d) <= 1 * (x * y * d)) by (apply Qmult_le_compat_r; lra). assert (0 < d * (g - (p1 + p2) * (x * y * d))) by (apply Qmult_lt_0_compat; lra). lra. }
    assert (Q4 : (p1 * (u - 1) + p2 * (v - 1)) * m < 0) by lra. assert (Q5 : p1 * (u - 1) + p2 * (v - 1) < 0).
    { apply (Qmult_lt_r _ _ m Pm). lra. }
    lra.
  Qed.
End Law.
Section Given.
  Variables (A : Type) (p : prog A) (find given : A -> bool) (L c : nat).
  Hypothesis F : fits p L c.
  Lemma apart a : both find given a && other find given a = false.
  Proof. unfold both, other. now destruct (given a), (find a). Qed.
  Lemma apart' a : other find given a && both find given a = false.
  Proof. unfold both, other. now destruct (given a), (find a). Qed.
  Lemma count_given l : count given l = (count (both find given) l + count (other find given) l)%nat.
  Proof. induction l as [|a l IH]; [reflexivity|]. cbn [count]. rewrite IH. unfold both, other. destruct (given a), (find a); cbn; lia. Qed.
  Lemma given_splits : chance p given == chance p (both find given) + chance p (other find given).
  Proof.
    rewrite !expect_chance. rewrite (expect_ext p (fun a => if given a then 1 else 0) (fun a => 1 * (if both find given a then 1 else 0) + 1 * (if other find given a then 1 else 0))).
    - rewrite expect_linear. ring.
    - intros a. unfold both, other. destruct (given a), (find a); cbn; ring.
  Qed.
  Lemma at_least_is x y l : (x <= y)%nat -> at_least x y find given l = Nat.leb (x * count (other find given) l) ((y - x) * count (both find given) l).
  Proof. intros H. unfold at_least. rewrite count_given. apply Bool.eq_true_iff_eq. rewrite !Nat.leb_le. set (u := count _ l). set (v := count _ l). rewrite Nat.mul_sub_distr_r. nia. Qed.
  Lemma at_most_is x y l : (x <= y)%nat -> at_most x y find given l = Nat.leb ((y - x) * count (both find given) l) (x * count (other find given) l).
  Proof. intros H. unfold at_most. rewrite count_given. apply Bool.eq_true_iff_eq. rewrite !Nat.leb_le. set (u := count _ l). set (v := count _ l). rewrite Nat.mul_sub_distr_r. nia. Qed.
  Lemma chance_same n P Q : (forall l, P l = Q l) -> chance (repeated n p) P == chance (repeated n p) Q.
  Proof. intros H. rewrite !expect_chance. apply expect_ext. intros l. now rewrite H. Qed.
  Lemma above_tilt x y t n : (x <= y)%nat -> 1 <= t -> chance (repeated n p) (at_least x y find given) <= npow (tilt p find given x y t) n.
  Proof. intros H T. rewrite (chance_same n _ _ (fun l => at_least_is x y l H)). exact (more A p _ _ L c F apart t (y - x) x n T). Qed.
  Lemma below_tilt x y t n : (x <= y)%nat -> 0 < t <= 1 -> chance (repeated n p) (at_most x y find given) <= npow (tilt p find given x y t) n.
  Proof. intros H T. rewrite (chance_same n _ _ (fun l => at_most_is x y l H)). exact (fewer A p _ _ L c F apart t (y - x) x n T). Qed.
  Lemma tilt_geometric x y : (x <= y)%nat ->
    (chance p (both find given) * qnat y < chance p given * qnat x -> exists r, 0 <= r /\ r < 1 /\ forall n, chance (repeated n p) (at_least x y find given) <= npow r n) /\
    (chance p given * qnat x < chance p (both find given) * qnat y -> exists r, 0 <= r /\ r < 1 /\ forall n, chance (repeated n p) (at_most x y find given) <= npow r n).
  Proof.
    intros H. assert (E : qnat y == qnat (y - x) + qnat x) by (rewrite <- qnat_add; replace (y - x + x)%nat with y by lia; reflexivity). split; intros G; rewrite given_splits, E in G.
    - destruct (decay2 A p (both find given) (other find given) L c F apart (y - x) x ltac:(lra)) as (r & R0 & R1 & Rn). exists r. split; [exact R0|]. split; [exact R1|].
      intros n. rewrite (chance_same n _ _ (fun l => at_least_is x y l H)). apply Rn.
    - destruct (decay2 A p (other find given) (both find given) L c F apart' x (y - x) ltac:(lra)) as (r & R0 & R1 & Rn). exists r. split; [exact R0|]. split; [exact R1|].
      intros n. rewrite (chance_same n _ _ (fun l => at_most_is x y l H)). apply Rn.
  Qed.
End Given.
Lemma count_imp {A} (P Q : A -> bool) l : (forall a, P a = true -> Q a = true) -> (count P l <= count Q l)%nat.
Proof. intros H. induction l as [|a l IH]; [auto|]. cbn [count]. specialize (H a). destruct (P a), (Q a); cbn; lia. Qed.

Section Net.
  Variables (Or : oracle) (N : nat) (ahead : G Or -> nat -> nat).
  Hypotheses (HN : (0 < N)%nat) (RL : right_length Or) (R : reads Or N ahead).
  Notation St := (state (G Or)).
  Variables (A Y : Type) (p : prog A) (L c n : nat) (find given : A -> bool) (wire : A -> res A) (q : bcall St A Y) (w : St -> bworld St A) (k : nat).
  Hypotheses (F : fits p L c) (Q1 : q_fn _ _ _ q = Some k) (Q2 : wonders St A Y q find given) (Q3 : q_cores _ _ _ q = 1%nat) (Q4 : q_dump _ _ _ q = None).
  Hypotheses (Q5 : forall s, uncached St A Y q (w s)) (Q6 : forall s, b_st _ _ (w s) = s) (Qn : q_n _ _ _ q = n) (Hn : (1 <= n)%nat).
  Lemma answer_given s : exists es s', SpecProgram.run Or (repeated n p) s = (Ok es, s') /\
    ((0 < count given es)%nat -> exists x, fst (bayesnet St A Y (fun _ => SpecProgram.run Or p) wire q (w s)) = Ok (OMean A Y (PFlt (Fin x))) /\ x == qnat (count (both find given) es) / qnat (count given es)).
  Proof.
    destruct (runs_are_calls2 Or N ahead HN RL R p L c k F n s) as (es & s' & Cs & Le & _ & _). exists es, s'.
    pose proof (run_repeated Or p k n s es s' Cs Le) as Rn. rewrite <- (Q6 s) in Cs. rewrite <- Qn in Le. split; [exact Rn|]. intros K.
    destruct (wonders_mean Or q find given es Q2 K) as (x & X & E). exists x. split; [|exact E].
    rewrite (bayesnet_uncached St A Y (fun _ => SpecProgram.run Or p) wire q (w s) k Q1 (Q5 s)), (single_core St A Y (fun _ => SpecProgram.run Or p) wire q (w s) k es s' Q3 Cs Le), nodump_outcome by assumption. exact X.
  Qed.
  Lemma cross a b x y : (0 < b)%nat -> (0 < y)%nat -> qnat x / qnat y <= qnat a / qnat b <-> (x * b <= y * a)%nat.
  Proof.
    intros B Yp. pose proof (qnat_pos b B) as Pb. pose proof (qnat_pos y Yp) as Py.
    assert (J : qnat x * qnat b <= qnat y * qnat a <-> (x * b <= y * a)%nat) by (unfold qnat; rewrite <- !inject_Z_mult, <- Zle_Qle; lia). rewrite <- J.
    assert (Pm : 0 < qnat y * qnat b) by nra. rewrite <- (Qmult_le_r _ _ _ Pm).
    setoid_replace (qnat x / qnat y * (qnat y * qnat b)) with (qnat x * qnat b) by (field; lra). setoid_replace (qnat a / qnat b * (qnat y * qnat b)) with (qnat y * qnat a) by (field; lra). reflexivity.
  Qed.
  Lemma cross' a b x y : (0 < b)%nat -> (0 < y)%nat -> qnat a / qnat b <= qnat x / qnat y <-> (y * a <= x * b)%nat.
  Proof.
    intros B Yp. pose proof (qnat_pos b B) as Pb. pose proof (qnat_pos y Yp) as Py.
    assert (J : qnat y * qnat a <= qnat x * qnat b <-> (y * a <= x * b)%nat) by (unfold qnat; rewrite <- !inject_Z_mult, <- Zle_Qle; lia). rewrite <- J.
    assert (Pm : 0 < qnat y * qnat b) by nra. rewrite <- (Qmult_le_r _ _ _ Pm).
    setoid_replace (qnat x / qnat y * (qnat y * qnat b)) with (qnat x * qnat b) by (field; lra). setoid_replace (qnat a / qnat b * (qnat y * qnat b)) with (qnat y * qnat a) by (field; lra). reflexivity.
  Qed.
  Lemma above_least x y s : (1 <= y)%nat -> answers_above (fun _ => SpecProgram.run Or p) wire q w (qnat x / qnat y) s = true -> ends_in Or (repeated n p) (at_least x y find given) s = true.
  Proof.
    intros Hy. destruct (answer_given s) as (es & s' & Rn & An). unfold answers_above, ends_in. rewrite Rn. cbn [fst]. unfold at_least. destruct (count given es) as [|m] eqn:K; [rewrite Nat.mul_0_r; reflexivity|].
    destruct (An ltac:(lia)) as (z & -> & E). intros H. apply Qle_bool_iff in H. rewrite E in H. apply cross in H; [|lia|lia]. now apply Nat.leb_le.
  Qed.
  Lemma below_most x y s : (1 <= y)%nat -> answers_below (fun _ => SpecProgram.run Or p) wire q w (qnat x / qnat y) s = true -> ends_in Or (repeated n p) (at_most x y find given) s = true.
  Proof.
    intros Hy. destruct (answer_given s) as (es & s' & Rn & An). unfold answers_below, ends_in. rewrite Rn. cbn [fst]. unfold at_most. destruct (count given es) as [|m] eqn:K.
    - intros _. apply Nat.leb_le. assert (B : (count (both find given) es <= count given es)%nat) by (apply count_imp; unfold both; intros a H; now apply andb_true_iff in H). rewrite K in B. assert (count (both find given) es = 0%nat) as -> by lia. lia.
    - destruct (An ltac:(lia)) as (z & -> & E). intros H. apply Qle_bool_iff in H. rewrite E in H. apply cross' in H; [|lia|lia]. now apply Nat.leb_le.
  Qed.
  Lemma tilt_net x y t ss : (x <= y)%nat -> (1 <= y)%nat -> each_once N (n * L) (map (coming Or ahead (n * L)) ss) ->
    (1 <= t -> qnat (count (answers_above (fun _ => SpecProgram.run Or p) wire q w (qnat x / qnat y)) ss) / qnat (N ^ (n * L)) <= npow (tilt p find given x y t) n + qnat (n * c) / qnat N) /\
    (0 < t <= 1 -> qnat (count (answers_below (fun _ => SpecProgram.run Or p) wire q w (qnat x / qnat y)) ss) / qnat (N ^ (n * L)) <= npow (tilt p find given x y t) n + qnat (n * c) / qnat N).
  Proof.
    intros XY Hy Eo. pose proof (fun P => share_of_runs Or N ahead HN RL R (repeated n p) (n * L) (n * c) P ss (fits_repeated p L c n F) Eo) as S.
    assert (PN : 0 < qnat (N ^ (n * L))) by (apply qnat_pos; apply Nat.neq_0_lt_0, Nat.pow_nonzero; lia).
    assert (M : forall P Q : St -> bool, (forall s, P s = true -> Q s = true) -> qnat (count P ss) / qnat (N ^ (n * L)) <= qnat (count Q ss) / qnat (N ^ (n * L))).
    { intros P Q H. unfold Qdiv. apply Qmult_le_compat_r; [|apply Qinv_le_0_compat; lra]. unfold qnat. rewrite <- Zle_Qle. apply inj_le. now apply count_imp. }
    split; intros T.
    - eapply Qle_trans; [apply M; intros s; apply (above_least x y s Hy)|]. specialize (S (at_least x y find given)). apply Qabs_Qle_condition in S. pose proof (above_tilt A p find given L c F x y t n XY T). lra.
    - eapply Qle_trans; [apply M; intros s; apply (below_most x y s Hy)|]. specialize (S (at_most x y find given)). apply Qabs_Qle_condition in S. pose proof (below_tilt A p find given L c F x y t n XY T). lra.
  Qed.
End Net.
