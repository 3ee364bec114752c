(** Exponential bounds on how often percentiles of samples are off (C205). *)
From Coq Require Import Qabs Qminmax ZArith Lia Lqa.
From Verif Require Import Base M_Values M_Sampler M_Percentiles SpecWeights SpecSampler SpecShare SpecPercentiles SpecPctOrder P_Support P_Percentiles P_Percentiles3 P_Program P_Program2 P_Large P_Indep P_Columns P_Columns2 P_BayesRule P_Weights P_PctNear P_Chernoff.
From Verif Require Import M_SampleApi M_Bayesnet SpecBayes SpecProgram SpecLarge SpecIndep SpecColumns SpecPctNear SpecChernoff SpecPctSharp.
Open Scope Q_scope.

Definition off (g : guard) (l : list Q) : bool := many (rank_low g) (fun x => Qlt_bool x (low g)) l || few (rank_high g) (fun x => Qle_bool x (high g)) l.
Lemma guarded n p g l r : percent p -> (1 <= n)%nat -> guards n p g -> length l = n -> percentile_of l p r -> off g l = false -> low g <= r <= high g.
Proof.
  intros Hp Hn (G1 & G2 & _) Hl Pr H. unfold off in H. apply orb_false_iff in H. destruct H as [H1 H2]. unfold many in H1. unfold few in H2. apply Nat.leb_gt in H1, H2. split.
  - apply Qnot_lt_le. intros H. pose proof (P_PctNear.rank_low l p r _ Hp ltac:(lia) Pr H) as G. rewrite Hl in G. unfold count_below in G. rewrite <- P_BayesRule.count_filter in G.
    assert (X : (S (count (fun x => Qlt_bool x (low g)) l) <= rank_low g)%nat) by lia. apply inject_nat_le in X. rewrite inject_S in X. unfold qnat in *. lra.
  - apply Qnot_lt_le. intros H. pose proof (P_PctNear.rank_high l p r _ Hp ltac:(lia) Pr H) as G. rewrite Hl in G. unfold count_upto in G. rewrite <- P_BayesRule.count_filter in G.
    assert (X : (S (rank_high g) <= count (fun x => Qle_bool x (high g)) l)%nat) by lia. apply inject_nat_le in X. rewrite inject_S in X. unfold qnat in *. lra.
Qed.
Lemma rare_off e n p g : sound e -> guards n p g -> rare (repeated n (prog_of e)) (off g) (misses e n g).
Proof.
  intros S (_ & _ & T & U). pose proof (fits_prog e S) as F. apply (rare_or _ _ _ _ _ _ _ (fits_repeated _ _ _ n F)); unfold rare.
  - exact (chance_many _ _ _ _ _ F _ _ _ T).
  - exact (chance_few _ _ _ _ _ F _ _ _ U).
Qed.
Lemma percentile_chance argsort e n p g x : sorts_numbers argsort -> sound e -> (1 <= n)%nat -> percent p -> guards n p g -> rare (repeated n (prog_of e)) (off g) x ->
  1 - x <= chance (repeated n (prog_of e)) (percentile_within argsort p (low g) (high g)).
Proof.
  intros HS S Hn Hp G R. pose proof (fits_repeated _ _ _ n (fits_prog e S)) as F.
  apply (usual _ (fun l => length l = n) _ _ _ _ _ F (returns_repeated _ n)) with (2 := R).
  intros l Hl H. assert (Nl : l <> []) by (intros Z; rewrite Z in Hl; cbn in Hl; lia). unfold percentile_within.
  assert (PP : forall q, In q [p] -> percent q) by (intros q [<-|[]]; exact Hp).
  destruct (get_single argsort HS l (POne p) p None false None eq_refl (conj Nl PP)) as (v & -> & V). cbn [round_to]. apply within_iff.
  eapply guarded; eauto.
Qed.
Lemma percentile_geometric argsort e p a b u u' v : sorts_numbers argsort -> sound e -> percent p -> (1 <= v)%nat ->
  chance (prog_of e) (fun x => Qlt_bool x a) * qnat v < qnat u -> qnat u <= qnat v * (p / 100) ->
  qnat v * (p / 100) < qnat u' -> qnat u' < chance (prog_of e) (fun x => Qle_bool x b) * qnat v ->
  exists r, 0 <= r /\ r < 1 /\ forall m, (1 <= m)%nat -> 1 - 2 * npow r m <= chance (repeated (v * m) (prog_of e)) (percentile_within argsort p a b).
Proof.
  intros HS S Hp Hv A1 A2 A3 A4. pose proof (fits_prog e S) as F.
  destruct (decay _ _ _ _ _ F u v Hv A1) as (r1 & R0 & R1 & Rm). destruct (decay_few _ _ _ _ _ u' v F Hv A4) as (r2 & T0 & T1 & Tm).
  exists (Qmax r1 r2). split; [apply Qle_trans with r1; [exact R0|apply Q.le_max_l]|]. split; [now apply Q.max_lub_lt|]. intros m Hm.
  pose proof (qnat_pos m ltac:(lia)) as Pm. assert (ML : forall x y, qnat (x * y) == qnat x * qnat y) by (intros x y; unfold qnat; rewrite Nat2Z.inj_mul, inject_Z_mult; reflexivity).
  set (g := Guard a b (u * m) (u' * m) 1 1).
  assert (G : guards (v * m) p g).
  { unfold guards, g. cbn. rewrite !ML. setoid_replace (qnat v * qnat m * (p / 100)) with (qnat v * (p / 100) * qnat m) by ring.
    split; [apply Qmult_le_compat_r; lra|]. split; [apply Qmult_lt_r; auto|]. lra. }
  apply (percentile_chance argsort e (v * m) p g); auto; [lia|].
  assert (X : rare (repeated (v * m) (prog_of e)) (off g) (npow r1 m + npow r2 m)) by (apply (rare_or _ _ _ _ _ _ _ (fits_repeated _ _ _ (v * m) F)); unfold rare; [apply Rm|apply Tm]).
  unfold rare in *. pose proof (npow_le r1 (Qmax r1 r2) m R0 (Q.le_max_l _ _)). pose proof (npow_le r2 (Qmax r1 r2) m T0 (Q.le_max_r _ _)). lra.
Qed.
Section Samples.
  Variables (Or : oracle) (N : nat) (ahead : G Or -> nat -> nat).
  Hypotheses (HN : (0 < N)%nat) (RL : right_length Or) (RA : reads_all Or N ahead).
  Lemma percentile_sharp argsort e n p g ss : sorts_numbers argsort -> sound e -> (1 <= n)%nat -> percent p -> guards n p g ->
    each_once N (n * work e) (map (coming Or ahead (n * work e)) ss) ->
    1 - misses e n g - qnat (n * spread e) / qnat N <= qnat (count (samples_in Or (obj_of e) n (percentile_within argsort p (low g) (high g))) ss) / qnat (N ^ (n * work e)).
  Proof.
    intros HS S Hn Hp G Eo. apply (samples_usual Or N ahead HN RL RA); auto using percentile_numbers.
    apply percentile_chance; auto. now apply rare_off with (p := p).
  Qed.
  Lemma interval_sharp argsort e n c g1 g2 g3 ss : sorts_numbers argsort -> sound e -> (1 <= n)%nat -> percent c ->
    guards n ((100 - c) / 2) g1 -> guards n 50 g2 -> guards n (100 - (100 - c) / 2) g3 ->
    each_once N (n * work e) (map (coming Or ahead (n * work e)) ss) ->
    1 - (misses e n g1 + misses e n g2 + misses e n g3) - qnat (n * spread e) / qnat N <=
    qnat (count (samples_in Or (obj_of e) n (interval_within argsort c (ends g1) (ends g2) (ends g3))) ss) / qnat (N ^ (n * work e)).
  Proof.
    intros HS S Hn Hp E1 E2 E3 Eo. apply (samples_usual Or N ahead HN RL RA); auto using interval_numbers. pose proof (fits_repeated _ _ _ n (fits_prog e S)) as F.
    pose proof (rare_or _ _ _ _ _ _ _ F (rare_or _ _ _ _ _ _ _ F (rare_off e n _ g1 S E1) (rare_off e n _ g2 S E2)) (rare_off e n _ g3 S E3)) as R.
    apply (usual _ (fun l => length l = n) _ _ _ _ _ F (returns_repeated _ n)) with (2 := R).
    intros l Hl H. assert (Nl : l <> []) by (intros Z; rewrite Z in Hl; cbn in Hl; lia). rewrite !orb_false_iff in H. destruct H as [[H1 H2] H3]. unfold interval_within.
    destruct (median_ci argsort HS l c None None Nl Hp) as (r & lo & m & h & -> & L & M & H & Q1 & Q2 & Q3 & _). cbn [round_to] in *. destruct Hp as [Hp0 Hp1].
    assert (P1 : percent ((100 - c) / 2)) by (split; [apply Qle_shift_div_l|apply Qle_shift_div_r]; lra).
    assert (P3 : percent (100 - (100 - c) / 2)) by (destruct P1; split; lra). assert (P2 : percent 50) by (split; lra).
    rewrite (within_same _ _ _ _ Q1), (within_same _ _ _ _ Q2), (within_same _ _ _ _ Q3). rewrite !andb_true_iff, !within_iff. cbn [ends fst snd].
    split; [split|]; [exact (guarded n _ g1 l lo P1 Hn E1 Hl L H1)|exact (guarded n _ g2 l m P2 Hn E2 Hl M H2)|exact (guarded n _ g3 l h P3 Hn E3 Hl H H3)].
  Qed.
End Samples.
