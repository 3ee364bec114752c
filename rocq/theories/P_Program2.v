(** Averages over the runs of a program (C189). *)
From Coq Require Import Qabs ZArith Lia Lqa Permutation.
From Verif Require Import Base M_Weights M_Pick M_Values M_Sampler M_Ops SpecWeights SpecSampler SpecMixture SpecShare P_DiceShare P_Mean
  M_SampleApi M_Bayesnet SpecBayes SpecConversation P_Bayesnet P_Conversation SpecSampler2 P_Sampler2 P_Pure P_Program.
From Verif Require Import SpecProgram.
Open Scope Q_scope.

Lemma total_app l m : total (l ++ m) == total l + total m.
Proof. unfold total. induction l as [|x l IH]; cbn [app fold_right]; [ring|]. rewrite IH. ring. Qed.
Lemma total_perm l m : Permutation l m -> total l == total m.
Proof. induction 1; unfold total in *; cbn [fold_right]; try lra. Qed.
Lemma total_flat (g : list nat -> Q) (l : nat -> list (list nat)) N : total (map g (flat_map l (seq 0 N))) == sum_to (fun k => total (map g (l k))) N.
Proof.
  induction N as [|N IH]; [reflexivity|]. rewrite seq_S, flat_map_app, map_app, total_app, IH. cbn [flat_map sum_to]. rewrite app_nil_r. reflexivity.
Qed.
Lemma total_step g N L : total (map g (seqs N (S L))) == sum_to (fun k => total (map (fun r => g (k :: r)) (seqs N L))) N.
Proof. cbn [seqs]. rewrite total_flat. apply sum_to_ext. intros k _. now rewrite map_map. Qed.
Lemma total_same {A} x (l : list A) : total (map (fun _ => x) l) == qnat (length l) * x.
Proof. unfold total. induction l as [|a l IH]; [cbn; unfold qnat; cbn; ring|]. cbn [map fold_right length]. rewrite IH, qnat_S. ring. Qed.
Definition num {A} (f : A -> Q) (o : option A) : Q := match o with Some a => f a | None => 0 end.
Lemma weigh_bound l f B : nonneg (map fst l) -> total (map fst l) == 1 -> (forall w v, In (w, v) l -> Qabs (f v) <= B) -> Qabs (weigh l f) <= B.
Proof.
  intros P T F. assert (H : Qabs (weigh l f) <= total (map fst l) * B).
  { clear T. unfold nonneg, total in *. induction l as [|[w v] l IH]; cbn [weigh map fold_right fst] in *; [rewrite Qmult_0_l; apply Qle_refl|].
    inversion P; subst. pose proof (IH H2 (fun w0 v0 I => F w0 v0 (or_intror I))) as A. pose proof (F w v (or_introl eq_refl)) as C.
    eapply Qle_trans; [apply Qabs_triangle|]. rewrite Qabs_Qmult, (Qabs_pos w) by auto. pose proof (Qabs_nonneg (f v)). nra. }
  rewrite T in H. lra.
Qed.
Lemma expect_bound {A} (p : prog A) f B : (forall a, Qabs (f a) <= B) -> forall L c, fits p L c -> Qabs (expect p f) <= B.
Proof.
  intros HB. induction p as [a|ch next IH]; intros L c F; cbn [expect]; [apply HB|]. destruct F as (Pr & L' & c' & -> & -> & F).
  apply weigh_bound; [now apply law_weights_nonneg|now apply law_weights_total|]. intros w v I. apply (IH v L' c'), (F w v I).
Qed.
Lemma sequences_average {A} N (p : prog A) f B : (0 < N)%nat -> 0 <= B -> (forall a, Qabs (f a) <= B) -> forall L c, fits p L c -> forall M, (L <= M)%nat ->
  Qabs (total (map (fun ks => num f (follow N p ks)) (seqs N M)) / qnat (N ^ M) - expect p f) <= qnat c * B / qnat N.
Proof.
  intros HN B0 HB. pose proof (qnat_pos N HN) as PN. induction p as [a|ch next IH]; intros L c F M LM.
  - cbn [follow num expect]. assert (0 <= qnat c * B / qnat N) by (apply Qle_shift_div_l; auto; pose proof (qnat_nn c); nra).
    assert (PM : 0 < qnat (N ^ M)) by (apply qnat_pos, Nat.neq_0_lt_0, Nat.pow_nonzero; lia).
    rewrite total_same, seqs_length. assert (qnat (N ^ M) * f a / qnat (N ^ M) - f a == 0) as -> by (field; intros E; rewrite E in PM; now apply Qlt_irrefl in PM). exact H.
  - destruct F as (Pr & L' & c' & -> & -> & F). cbn [expect follow].
    assert (EC : qnat c' * B / qnat N <= qnat (length (law ch) + c') * B / qnat N).
    { unfold Qdiv. apply Qmult_le_compat_r; [|apply Qinv_le_0_compat; lra]. rewrite qnat_add. pose proof (qnat_nn (length (law ch))). nra. }
    destruct (single ch) eqn:Sg.
    + apply Nat.eqb_eq in Sg. pose proof (law_weights_total ch Pr) as T. destruct (law ch) as [|[w v] [|]] eqn:El; try discriminate Sg.
      cbn [nth snd weigh]. cbn in T. eapply Qle_trans; [|exact EC]. assert (w == 1) as W by lra.
      assert (w * expect (next v) f + 0 == expect (next v) f) as -> by (rewrite W; ring).
      apply (IH v L' c'); [|lia]. apply (F w v). now left.
    + destruct M as [|M]; [lia|]. set (x := fun i => expect (next (snd (nth i (law ch) (0, PNone)))) f).
      set (y := fun i => total (map (fun ks => num f (follow N (next (snd (nth i (law ch) (0, PNone)))) ks)) (seqs N M)) / qnat (N ^ M)).
      assert (PM : 0 < qnat (N ^ M)) by (apply qnat_pos, Nat.neq_0_lt_0, Nat.pow_nonzero; lia).
      assert (XY : forall i, (i < length (law ch))%nat -> Qabs (y i - x i) <= qnat c' * B / qnat N /\ Qabs (x i) <= B).
      { intros i Hi. pose proof (nth_In (law ch) (0, PNone) Hi) as I. destruct (nth i (law ch) (0, PNone)) as [w v] eqn:Ei.
        assert (y i = total (map (fun ks => num f (follow N (next v) ks)) (seqs N M)) / qnat (N ^ M)) as -> by (unfold y; now rewrite Ei).
        assert (x i = expect (next v) f) as -> by (unfold x; now rewrite Ei).
        split; [apply (IH v L' c' (F w v I)); lia|]. apply (expect_bound (next v) f B HB L' c'), (F w v I). }
      rewrite total_step.
      assert (E1 : sum_to (fun k => total (map (fun r => num f (follow N (next (value_of N ch k)) r)) (seqs N M))) N ==
                   qnat (N ^ M) * sum_to (fun i => y i * qnat (hits (pick_of N ch) i N)) (length (law ch))).
      { rewrite <- (by_component (pick_of N ch) y (length (law ch)) N) by (intros k Hk; now apply pick_bound).
        rewrite <- sum_to_scale. apply sum_to_ext. intros k _. unfold y, value_of. field. intros E; rewrite E in PM; now apply Qlt_irrefl in PM. }
      rewrite E1. cbn [Nat.pow]. rewrite qnat_mul, weigh_sum. fold x.
      change (sum_to (fun i => fst (nth i (law ch) (0, PNone)) * expect (next (snd (nth i (law ch) (0, PNone)))) f) (length (law ch)))
        with (sum_to (fun i => weight ch i * x i) (length (law ch))).
      set (m := length (law ch)) in *. set (h := fun i => qnat (hits (pick_of N ch) i N)).
      assert (E2 : qnat (N ^ M) * sum_to (fun i => y i * h i) m / (qnat N * qnat (N ^ M)) - sum_to (fun i => weight ch i * x i) m
              == / qnat N * sum_to (fun i => (y i - x i) * h i + x i * (h i - weight ch i * qnat N)) m).
      { assert (S2 : sum_to (fun i => (y i - x i) * h i + x i * (h i - weight ch i * qnat N)) m == sum_to (fun i => y i * h i) m - qnat N * sum_to (fun i => weight ch i * x i) m).
        { rewrite <- sum_to_scale. assert (forall a, - a == -(1) * a) as O by (intros; ring). unfold Qminus. rewrite O, <- sum_to_scale, <- sum_to_add.
          apply sum_to_ext. intros i _. ring. }
        rewrite S2. field. split; intros E; [rewrite E in PN; now apply Qlt_irrefl in PN|rewrite E in PM; now apply Qlt_irrefl in PM]. }
      unfold h in E2 at 1. rewrite E2. rewrite Qabs_Qmult. assert (0 < / qnat N) by now apply Qinv_lt_0_compat.
      rewrite (Qabs_pos (/ qnat N)) by lra. unfold Qdiv. rewrite (Qmult_comm (/ qnat N)). apply Qmult_le_compat_r; [|lra].
      eapply Qle_trans; [apply sum_to_abs|]. eapply Qle_trans with (sum_to (fun i => qnat c' * B / qnat N * h i + B) m).
      * apply sum_to_le. intros i Hi. destruct (XY i Hi) as (A1 & A2). pose proof (pick_hits N ch i Pr HN Hi) as A4. fold (h i) in A4.
        assert (0 <= h i) by apply qnat_nn. eapply Qle_trans; [apply Qabs_triangle|]. rewrite !Qabs_Qmult, (Qabs_pos (h i)) by auto.
        assert (Qabs (y i - x i) * h i <= qnat c' * B / qnat N * h i) by (apply Qmult_le_compat_r; auto).
        pose proof (Qabs_nonneg (h i - weight ch i * qnat N)). pose proof (Qabs_nonneg (x i)). nra.
      * rewrite sum_to_add, sum_to_scale, sum_to_const. unfold h. rewrite (hits_total (pick_of N ch) m N) by (intros k Hk; now apply pick_bound).
        rewrite qnat_add. fold m. assert (qnat c' * B / qnat N * qnat N == qnat c' * B) as -> by (field; intros E; rewrite E in PN; now apply Qlt_irrefl in PN). lra.
Qed.
Lemma expect_chance {A} (p : prog A) P : chance p P == expect p (fun a => if P a then 1 else 0).
Proof.
  induction p as [a|ch next IH]; cbn [chance expect]; [reflexivity|]. induction (law ch) as [|[w v] l IHl]; cbn [weigh]; [reflexivity|]. now rewrite IHl, IH.
Qed.
Lemma expect_linear {A} (p : prog A) f g x y : expect p (fun a => x * f a + y * g a) == x * expect p f + y * expect p g.
Proof.
  induction p as [a|ch next IH]; cbn [expect]; [reflexivity|]. induction (law ch) as [|[w v] l IHl]; cbn [weigh]; [ring|]. rewrite IHl, IH. ring.
Qed.

Section Runs.
  Variable Or : oracle.
  Notation St := (state (G Or)).
  Variable N : nat.
  Variable ahead : G Or -> nat -> nat.
  Hypothesis HN : (0 < N)%nat.
  Hypothesis RL : right_length Or.
  Hypothesis R : reads Or N ahead.
  Lemma average_of_runs {A} (p : prog A) L c f B ss : fits p L c -> 0 <= B -> (forall a, Qabs (f a) <= B) -> each_once N L (map (coming Or ahead L) ss) ->
    Qabs (total (map (result Or p f) ss) / qnat (N ^ L) - expect p f) <= qnat c * B / qnat N.
  Proof.
    intros F B0 HB [ND I]. pose proof (sequences_average N p f B HN B0 HB L c F L (le_n _)) as S.
    assert (P : Permutation (map (coming Or ahead L) ss) (seqs N L)).
    { apply NoDup_Permutation; auto using seqs_nodup. intros x. rewrite I, seqs_in. reflexivity. }
    rewrite <- (total_perm _ _ (Permutation_map _ P)), map_map in S.
    assert (E : map (result Or p f) ss = map (fun s => num f (follow N p (coming Or ahead L s))) ss).
    { apply map_ext. intros s. unfold result. destruct (run_coming Or N ahead HN RL R p L c s F) as (a & s' & -> & ->). reflexivity. }
    rewrite E. exact S.
  Qed.
  Lemma runs_are_calls2 {A} (p : prog A) L c k : fits p L c -> forall n s, exists es s', calls St A (fun _ => run Or p) k s es s' /\ length es = n /\
    (forall P, count P es = count (ends_in Or p P) (starts Or p n s)) /\ forall f, map f es = map (result Or p f) (starts Or p n s).
  Proof.
    intros F. induction n as [|n IH]; intros s; [exists [], s; repeat split; constructor|].
    destruct (run_coming Or N ahead HN RL R p L c s F) as (a & s1 & E & _). destruct (IH s1) as (es & s' & C & Le & Q & T).
    exists (a :: es), s'. split; [econstructor; eauto|]. split; [cbn; congruence|]. split.
    - intros P. cbn [starts count]. rewrite E. cbn [snd]. rewrite Q. unfold ends_in at 2. now rewrite E.
    - intros f. cbn [starts map]. rewrite E. cbn [snd]. rewrite T. unfold result at 2. now rewrite E.
  Qed.
  Lemma only_total {A} (given : A -> bool) f l : total (map f (filter given l)) == total (map (only given f) l).
  Proof. unfold total, only. induction l as [|x l IH]; cbn [filter map fold_right]; [reflexivity|]. destruct (given x); cbn [map fold_right]; rewrite IH; [reflexivity|ring]. Qed.
  Lemma averages_mean {A Y} (q : bcall St A Y) f given es : averages q f given -> (0 < count given es)%nat ->
    exists x, M_Bayesnet.analyse St A Y q es = Ok (OMean A Y (PFlt (Fin x))) /\ x == total (map (only given f) es) / qnat (count given es).
  Proof.
    intros (F & C & R0 & W) K. unfold M_Bayesnet.analyse. rewrite C, keep_total. cbn [bind]. rewrite <- length_filter in *.
    destruct (filter given es) as [|e l] eqn:E; [cbn in K; lia|]. rewrite <- E in *. rewrite F, W, R0.
    assert (M : forall l, mapM (fun e => Ok (PFlt (Fin (f e)))) l = Ok (map (fun e => PFlt (Fin (f e))) l)) by (intros m; induction m as [|y m IH]; cbn; [reflexivity|rewrite IH; reflexivity]).
    rewrite M. cbn [bind]. unfold np_mean.
    assert (M2 : forall l, mapM as_num (map (fun e => PFlt (Fin (f e))) l) = Ok (map Fin (map f l))) by (intros m; induction m as [|y m IH]; cbn; [reflexivity|rewrite IH; reflexivity]).
    rewrite M2. cbn [bind]. destruct (fold_fin (map f (filter given es)) 0) as (t & -> & Ht). rewrite map_length.
    destruct (xdiv_fin t (length (filter given es)) K) as (x & -> & Hx). exists x. split; [reflexivity|]. rewrite Hx, Ht, Qplus_0_l, only_total. reflexivity.
  Qed.
  Lemma ratio_close2 F G f g e B : Qabs (F - f) <= e * B -> Qabs (G - g) <= e -> Qabs f <= B * g -> e < g -> 0 <= B -> 0 < G /\ Qabs (F / G - f / g) <= 2 * B * e / (g - e).
  Proof.
    intros A1 B1 fg eg B0. assert (0 <= e) by (eapply Qle_trans; [apply Qabs_nonneg|exact B1]). assert (g0 : 0 < g) by lra.
    assert (GE : g - e <= G) by (apply Qabs_Qle_condition in B1; lra). assert (G0 : 0 < G) by lra. split; [exact G0|].
    assert (NG : ~ G == 0) by (intros X; rewrite X in G0; now apply Qlt_irrefl in G0). assert (Ng : ~ g == 0) by (intros X; rewrite X in g0; now apply Qlt_irrefl in g0).
    assert (F / G - f / g == / G * ((F - f) + (f / g) * (g - G))) as -> by (field; auto).
    assert (IG : 0 < / G) by now apply Qinv_lt_0_compat. assert (Ig : 0 < / g) by now apply Qinv_lt_0_compat.
    rewrite Qabs_Qmult, (Qabs_pos (/ G)) by lra.
    assert (fg0 : Qabs (f / g) <= B).
    { unfold Qdiv. rewrite Qabs_Qmult, (Qabs_pos (/ g)) by lra. apply Qle_trans with (B * g * / g); [apply Qmult_le_compat_r; lra|]. assert (B * g * / g == B) as -> by (field; auto). lra. }
    assert (T : Qabs ((F - f) + f / g * (g - G)) <= 2 * B * e).
    { eapply Qle_trans; [apply Qabs_triangle|]. rewrite Qabs_Qmult, (Qabs_Qminus g G). pose proof (Qabs_nonneg (G - g)). pose proof (Qabs_nonneg (f / g)). nra. }
    assert (J : / G <= / (g - e)).
    { apply Qle_shift_inv_l; [lra|]. assert (/ G * G == 1) as K by (field; auto). rewrite Qmult_comm. nra. }
    unfold Qdiv. rewrite (Qmult_comm (2 * B * e)). eapply Qle_trans with (/ G * (2 * B * e)).
    - rewrite (Qmult_le_l _ _ (/ G)) by auto. exact T.
    - apply Qmult_le_compat_r; [exact J|]. assert (0 <= B * e) by now apply Qmult_le_0_compat. lra.
  Qed.
  Lemma expect_only {A} (p : prog A) given f B : 0 <= B -> (forall a, Qabs (f a) <= B) -> forall L c, fits p L c -> Qabs (expect p (only given f)) <= B * chance p given.
  Proof.
    intros B0 HB. induction p as [a|ch next IH]; intros L c F; cbn [expect chance]; [unfold only; pose proof (HB a); destruct (given a); [lra|rewrite Qmult_0_r; apply Qle_refl]|].
    destruct F as (Pr & L' & c' & -> & -> & F). pose proof (law_weights_nonneg ch Pr) as NN. clear Pr. unfold nonneg in NN.
    induction (law ch) as [|[w v] l IHl]; cbn [weigh map fst] in *; [rewrite Qmult_0_r; apply Qle_refl|].
    inversion NN; subst. pose proof (IHl (fun w0 v0 I => F w0 v0 (or_intror I)) H2) as A1. pose proof (IH v _ _ (F w v (or_introl eq_refl))) as A2.
    eapply Qle_trans; [apply Qabs_triangle|]. rewrite Qabs_Qmult, (Qabs_pos w) by auto. pose proof (Qabs_nonneg (expect (next v) (only given f))). nra.
  Qed.
  Lemma mean_close {A Y} (p : prog A) L c f B given wire (q : bcall St A Y) w k :
    fits p L c -> 0 <= B -> (forall a, Qabs (f a) <= B) ->
    q_fn _ _ _ q = Some k -> averages q f given -> q_cores _ _ _ q = 1%nat -> q_dump _ _ _ q = None -> uncached St A Y q w ->
    each_once N L (map (coming Or ahead L) (starts Or p (q_n _ _ _ q) (b_st _ _ w))) ->
    qnat c / qnat N < chance p given ->
    exists x, fst (bayesnet St A Y (fun _ => run Or p) wire q w) = Ok (OMean A Y (PFlt (Fin x))) /\
      Qabs (x - expect p (only given f) / chance p given) <= 2 * B * (qnat c / qnat N) / (chance p given - qnat c / qnat N).
  Proof.
    intros F B0 HB Q1 Q2 Q3 Q4 Q5 Eo Lt. destruct (runs_are_calls2 p L c k F (q_n _ _ _ q) (b_st _ _ w)) as (es & s' & C & Le & Cn & Cf).
    pose proof (share_of_runs Or N ahead HN RL R p L c given _ F Eo) as G1.
    assert (HO : forall a, Qabs (only given f a) <= B) by (intros a; unfold only; destruct (given a); [apply HB|exact B0]).
    pose proof (average_of_runs p L c (only given f) B _ F B0 HO Eo) as F1.
    rewrite <- Cn in G1. rewrite <- Cf in F1. pose proof (qnat_pos N HN) as PN.
    assert (E1 : qnat c * B / qnat N == qnat c / qnat N * B) by (field; intros X; rewrite X in PN; now apply Qlt_irrefl in PN). rewrite E1 in F1.
    destruct (ratio_close2 _ _ _ _ _ _ F1 G1 (expect_only p given f B B0 HB L c F) Lt B0) as [G0 Cl].
    assert (PT : 0 < qnat (N ^ L)) by (apply qnat_pos, Nat.neq_0_lt_0, Nat.pow_nonzero; lia).
    assert (Pc : 0 < qnat (count given es)).
    { assert (qnat (count given es) == qnat (count given es) / qnat (N ^ L) * qnat (N ^ L)) as -> by (field; intros X; rewrite X in PT; now apply Qlt_irrefl in PT).
      apply Qmult_lt_0_compat; auto. }
    rewrite (bayesnet_uncached St A Y (fun _ => run Or p) wire q w k Q1 Q5), (single_core St A Y (fun _ => run Or p) wire q w k es s' Q3 C Le), nodump_outcome by assumption. cbn [fst].
    destruct (averages_mean q f given es Q2) as (x & -> & X). { unfold qnat in Pc. change 0 with (inject_Z 0) in Pc. rewrite <- Zlt_Qlt in Pc. lia. }
    exists x. split; [reflexivity|]. rewrite X.
    assert (E : total (map (only given f) es) / qnat (count given es) ==
      total (map (only given f) es) / qnat (N ^ L) / (qnat (count given es) / qnat (N ^ L))).
    { field. split; intros Y0; [rewrite Y0 in PT; now apply Qlt_irrefl in PT|rewrite Y0 in Pc; now apply Qlt_irrefl in Pc]. }
    rewrite E. exact Cl.
  Qed.
  Lemma model_called (p : prog Q) k : forall n s es s', calls St Q (fun _ => run Or p) k s es s' -> length es = n ->
    called (model_of Or p) n s (map (fun x => OLit (PFlt (Fin x))) es) s'.
  Proof.
    intros n s es s' C. revert n. induction C as [s|s x s1 es s2 E C IH]; intros n Hn; cbn in Hn; subst n; cbn [map]; [constructor|].
    econstructor; [|apply IH; reflexivity]. unfold model_of, bindS. rewrite E. reflexivity.
  Qed.
  Lemma model_resolved one s es : resolved one (map (fun x => OLit (Gt := G Or) (PFlt (Fin x))) es) s (map (fun x => PFlt (Fin x)) es) s.
  Proof. induction es as [|x es IH]; cbn [map]; constructor; auto. Qed.
  Lemma model_sampled (p : prog Q) L c n s : fits p L c -> (1 <= n)%nat -> each_once N L (map (coming Or ahead L) (starts Or p n s)) ->
    exists xs s', smp Or (OCall (model_of Or p)) n None None s = (Ok (simplify (map (fun x => PFlt (Fin x)) xs)), s') /\
      length xs = n /\ n = (N ^ L)%nat /\
      (forall P, Qabs (qnat (count P xs) / qnat n - chance p P) <= qnat c / qnat N) /\
      (forall f B, 0 <= B -> (forall x, Qabs (f x) <= B) -> Qabs (total (map f xs) / qnat n - expect p f) <= qnat c * B / qnat N).
  Proof.
    intros F Hn Eo. destruct (runs_are_calls2 p L c 0 F n s) as (es & s' & C & Le & Cn & Cf).
    assert (En : n = (N ^ L)%nat).
    { destruct Eo as [ND I]. assert (P : Permutation (map (coming Or ahead L) (starts Or p n s)) (seqs N L)).
      { apply NoDup_Permutation; auto using seqs_nodup. intros x. rewrite I, seqs_in. reflexivity. }
      apply Permutation_length in P. rewrite map_length, seqs_length in P. rewrite <- P. clear.
      revert s. induction n as [|n IH]; intros s; cbn; [reflexivity|]. now rewrite <- IH. }
    exists es, s'. split.
    - apply (model_function Or); [exact Hn|]. exists (map (fun x => OLit (PFlt (Fin x))) es), s', (map (fun x => PFlt (Fin x)) es).
      split; [now apply model_called with (k := 0%nat)|]. split; [apply model_resolved|]. rewrite np_array_uniform; [reflexivity|]. left.
      apply Forall_forall. intros v Hv. apply in_map_iff in Hv as (x & <- & _). eauto.
    - split; [exact Le|]. split; [exact En|]. split.
      + intros P. rewrite Cn, En. rewrite <- En at 1. now apply (share_of_runs Or N ahead HN RL R).
      + intros f B B0 HB. rewrite Cf, En. rewrite <- En at 1. now apply average_of_runs.
  Qed.
End Runs.
