(** Exponential bounds on how many of [n] results have a property (C201). *)
From Coq Require Import Qabs ZArith Lia Lqa.
From Verif Require Import Base M_Weights M_Values M_Sampler M_Ops M_SampleApi M_Bayesnet SpecWeights SpecSampler SpecOps SpecBayes SpecConversation SpecShare P_DiceShare P_Support P_Bayesnet P_Conversation P_Count P_Ops P_Program P_Program2 P_Large P_Indep P_Columns P_Columns2.
From Verif Require Import SpecProgram SpecLarge SpecIndep SpecColumns SpecChernoff.
Open Scope Q_scope.

Lemma npow_pos x n : 0 < x -> 0 < npow x n.
Proof. intros H. induction n as [|n IH]; cbn [npow]; [lra|nra]. Qed.
Lemma npow_nonneg x n : 0 <= x -> 0 <= npow x n.
Proof. intros H. induction n as [|n IH]; cbn [npow]; [lra|nra]. Qed.
Lemma npow_add x n m : npow x (n + m) == npow x n * npow x m.
Proof. induction n as [|n IH]; cbn [npow Nat.add]; [ring|]. rewrite IH. ring. Qed.
Lemma npow_mul x n m : npow x (n * m) == npow (npow x n) m.
Proof. induction m as [|m IH]; [rewrite Nat.mul_0_r; reflexivity|]. rewrite Nat.mul_succ_r, Nat.add_comm, npow_add, IH. reflexivity. Qed.
Lemma npow_prod x y n : npow (x * y) n == npow x n * npow y n.
Proof. induction n as [|n IH]; cbn [npow]; [ring|]. rewrite IH. ring. Qed.
Lemma npow_same x y n : x == y -> npow x n == npow y n.
Proof. intros E. induction n as [|n IH]; cbn [npow]; [reflexivity|]. now rewrite IH, E. Qed.
Lemma npow_le x y n : 0 <= x -> x <= y -> npow x n <= npow y n.
Proof. intros H E. induction n as [|n IH]; cbn [npow]; [lra|]. pose proof (npow_nonneg x n H). nra. Qed.
Lemma npow_grow x k m : 1 <= x -> (k <= m)%nat -> npow x k <= npow x m.
Proof. intros H L. induction L as [|m L IH]; [lra|]. cbn [npow]. pose proof (npow_pos x m ltac:(lra)). nra. Qed.
Lemma npow_shrink x k m : 0 < x <= 1 -> (m <= k)%nat -> npow x k <= npow x m.
Proof. intros H L. induction L as [|k L IH]; [lra|]. cbn [npow]. pose proof (npow_pos x k ltac:(lra)). nra. Qed.
Lemma npow_inv x n : 0 < x -> npow (/ x) n == / npow x n.
Proof. intros H. induction n as [|n IH]; cbn [npow]; [reflexivity|]. rewrite IH. pose proof (npow_pos x n H). field. split; lra. Qed.
Lemma bernoulli_up d n : 0 <= d -> 1 + qnat n * d <= npow (1 + d) n.
Proof. intros H. induction n as [|n IH]; cbn [npow]; [assert (Z : qnat 0 == 0) by reflexivity; rewrite Z; lra|]. rewrite qnat_S. pose proof (qnat_nn n). nra. Qed.
Lemma bernoulli_down d n : 0 <= d <= 1 -> 1 - qnat n * d <= npow (1 - d) n.
Proof. intros H. induction n as [|n IH]; cbn [npow]; [assert (Z : qnat 0 == 0) by reflexivity; rewrite Z; lra|]. rewrite qnat_S. pose proof (qnat_nn n). nra. Qed.

Section Law.
  Variables (A : Type) (p : prog A) (P : A -> bool) (L c : nat).
  Hypothesis F : fits p L c.
  Lemma generating t : forall n, expect (repeated n p) (fun l => npow t (count P l)) == npow (1 + chance p P * (t - 1)) n.
  Proof.
    induction n as [|n IH]; [reflexivity|]. rewrite expect_repeated. cbn [npow].
    rewrite (expect_ext p _ (fun a => npow (1 + chance p P * (t - 1)) n * (1 * 1 + (t - 1) * (if P a then 1 else 0)))).
    - rewrite expect_scale, expect_linear, (expect_const p 1 L c F), <- expect_chance. ring.
    - intros a. rewrite <- IH. rewrite (expect_ext _ _ (fun l => (if P a then t else 1) * npow t (count P l))).
      + rewrite expect_scale. destruct (P a); ring.
      + intros l. cbn [count]. destruct (P a); cbn [Nat.add npow]; ring.
  Qed.
  Lemma markov t n k (E : list A -> bool) : 0 < t -> (forall l, E l = true -> npow t k <= npow t (count P l)) ->
    chance (repeated n p) E <= npow (1 + chance p P * (t - 1)) n / npow t k.
  Proof.
    intros T H. pose proof (npow_pos t k T) as Pk. apply Qle_shift_div_l; [exact Pk|]. rewrite <- generating, expect_chance, Qmult_comm, <- expect_scale.
    apply (expect_le_sure _ (fun _ => True) _ _ (returns_all _ _ (fun _ => I)) ) with (L := (n * L)%nat) (c := (n * c)%nat); [|now apply fits_repeated].
    intros l _. destruct (E l) eqn:El; [pose proof (H l El); lra|]. pose proof (npow_pos t (count P l) T). lra.
  Qed.
  Lemma chance_many t n k : 1 <= t -> chance (repeated n p) (many k P) <= npow (1 + chance p P * (t - 1)) n / npow t k.
  Proof. intros T. apply markov; [lra|]. intros l E. apply Nat.leb_le in E. now apply npow_grow. Qed.
  Lemma chance_few t n k : 0 < t <= 1 -> chance (repeated n p) (few k P) <= npow (1 + chance p P * (t - 1)) n / npow t k.
  Proof. intros T. apply markov; [lra|]. intros l E. apply Nat.leb_le in E. now apply npow_shrink. Qed.
  Lemma chance_unit : 0 <= chance p P <= 1.
  Proof.
    rewrite expect_chance. pose proof (expect_const p 0 L c F) as A0. pose proof (expect_const p 1 L c F) as A1.
    pose proof (expect_le_sure p (fun _ => True) (fun _ => 0) (fun a => if P a then 1 else 0) (returns_all _ _ (fun _ => I)) ltac:(intros a _; cbv beta; destruct (P a); lra) L c F).
    pose proof (expect_le_sure p (fun _ => True) (fun a => if P a then 1 else 0) (fun _ => 1) (returns_all _ _ (fun _ => I)) ltac:(intros a _; cbv beta; destruct (P a); lra) L c F). lra.
  Qed.
  (** A base below 1. *)
  Lemma decay u v : (1 <= v)%nat -> chance p P * qnat v < qnat u -> exists r, 0 <= r /\ r < 1 /\ forall m, chance (repeated (v * m) p) (many (u * m) P) <= npow r m.
  Proof.
    intros Hv H. set (q := chance p P) in *. pose proof chance_unit as Q01. fold q in Q01. pose proof (qnat_pos v ltac:(lia)) as Pv.
    assert (Pu : 0 < qnat u) by nra. set (U := qnat u) in *. set (V := qnat v) in *.
    set (g := U - q * V). assert (Pg : 0 < g) by (unfold g; lra).
    (* a step small enough *)
    assert (D : exists d, 0 < d /\ d <= 1 /\ U * V * q * d < g /\ V * q * d < 1).
    { exists (g / ((1 + U) * (1 + V) * (1 + g))). set (K := (1 + U) * (1 + V) * (1 + g)). assert (PK : 0 < K) by (unfold K; assert (0 < (1 + U) * (1 + V)) by nra; nra).
      assert (UV : 0 < U * V) by nra. assert (KE : K == (1 + U + V + U * V) * (1 + g)) by (unfold K; ring).
      assert (B1 : 0 < g / K) by (apply Qlt_shift_div_l; [exact PK|lra]). split; [exact B1|].
      assert (UVg : 0 < U * V * g) by nra. assert (Ug : 0 < U * g) by nra. assert (Vg : 0 < V * g) by nra.
      split; [apply Qle_shift_div_r; [exact PK|]; rewrite KE; nra|].
      assert (C1 : U * V * (g / K) < g). { setoid_replace (U * V * (g / K)) with (U * V * g / K) by (field; lra). apply Qlt_shift_div_r; [exact PK|]. rewrite KE. assert (0 < g * g) by nra. assert (0 < U * g * g) by nra. assert (0 < V * g * g) by nra. assert (0 < U * V * g * g) by nra. lra. }
      assert (C2 : V * (g / K) < 1). { setoid_replace (V * (g / K)) with (V * g / K) by (field; lra). apply Qlt_shift_div_r; [exact PK|]. rewrite KE. lra. }
      set (d := g / K) in *. assert (0 < U * V * d) by nra. assert (0 < V * d) by nra. split.
      - setoid_replace (U * V * q * d) with (q * (U * V * d)) by ring. nra.
      - setoid_replace (V * q * d) with (q * (V * d)) by ring. nra. }
    destruct D as (d & D0 & D1 & D2 & D3).
    pose proof (npow_pos (1 + d) u ltac:(lra)) as Pd. assert (Qd : 0 <= q * d) by nra. assert (Qd1 : q * d <= 1) by nra.
    exists (npow (1 + q * d) v / npow (1 + d) u). split; [apply Qle_shift_div_l; [exact Pd|]; pose proof (npow_nonneg (1 + q * d) v ltac:(lra)); lra|]. split.
    - apply Qlt_shift_div_r; [exact Pd|]. rewrite Qmult_1_l.
      pose proof (bernoulli_up d u ltac:(lra)) as X. pose proof (bernoulli_down (q * d) v ltac:(lra)) as Y. fold U in X. fold V in Y.
      assert (Z : npow (1 - q * d) v * npow (1 + q * d) v <= 1).
      { rewrite <- npow_prod. assert (O : forall n, npow 1 n == 1) by (induction n as [|n IH]; cbn [npow]; [reflexivity|rewrite IH; ring]). pose proof (npow_le ((1 - q * d) * (1 + q * d)) 1 v ltac:(nra) ltac:(nra)) as K. rewrite (O v) in K. exact K. }
      pose proof (npow_pos (1 + q * d) v ltac:(lra)) as W. set (x := npow (1 + q * d) v) in *. set (y := npow (1 - q * d) v) in *. set (z := npow (1 + d) u) in *.
      assert (S1 : (1 - V * (q * d)) * x <= 1) by nra.
      assert (S2 : 1 < (1 - V * (q * d)) * (1 + U * d)).
      { setoid_replace ((1 - V * (q * d)) * (1 + U * d)) with (1 + d * (g - U * V * q * d)) by (unfold g; ring). assert (0 < d * (g - U * V * q * d)) by nra. lra. }
      assert (S3 : 0 < 1 - V * (q * d)) by (setoid_replace (V * (q * d)) with (V * q * d) by ring; lra).
      assert (S4 : (1 - V * (q * d)) * x < (1 - V * (q * d)) * z) by nra. nra.
    - intros m. eapply Qle_trans; [apply (chance_many (1 + d)); lra|]. fold q. rewrite (npow_same (1 + q * (1 + d - 1)) (1 + q * d) _) by ring.
      rewrite !npow_mul. unfold Qdiv. rewrite npow_prod, npow_inv by exact Pd. apply Qle_refl.
  Qed.
End Law.
Lemma count_negb {A} (P : A -> bool) l : (count P l + count (fun a => negb (P a)) l = length l)%nat.
Proof. induction l as [|a l IH]; [reflexivity|]. cbn [count length]. destruct (P a); cbn [negb]; lia. Qed.
Lemma decay_few A (p : prog A) P L c u v : fits p L c -> (1 <= v)%nat -> qnat u < chance p P * qnat v -> exists r, 0 <= r /\ r < 1 /\ forall m, chance (repeated (v * m) p) (few (u * m) P) <= npow r m.
Proof.
  intros F Hv H. pose proof (chance_unit A p P L c F) as C. pose proof (qnat_pos v ltac:(lia)) as Pv.
  assert (UV : (u < v)%nat) by (assert (qnat u < qnat v) as K by nra; unfold qnat in K; rewrite <- Zlt_Qlt in K; lia).
  assert (N : chance p (fun a => negb (P a)) == 1 - chance p P).
  { rewrite !expect_chance. rewrite (expect_ext p _ (fun a => 1 * 1 + (-(1)) * (if P a then 1 else 0))) by (intros a; destruct (P a); cbn [negb]; ring). rewrite expect_linear, (expect_const p 1 L c F). ring. }
  assert (D : qnat (v - u) == qnat v - qnat u) by (assert (E : qnat v == qnat (v - u) + qnat u) by (rewrite <- qnat_add; replace (v - u + u)%nat with v by lia; reflexivity); rewrite E; ring).
  destruct (decay A p (fun a => negb (P a)) L c F (v - u) v Hv) as (r & R0 & R1 & Rm); [rewrite N, D; nra|]. exists r. split; [exact R0|]. split; [exact R1|]. intros m.
  eapply Qle_trans; [|apply Rm]. rewrite !expect_chance. apply (expect_le_sure _ _ _ _ (returns_repeated p (v * m))) with (L := (v * m * L)%nat) (c := (v * m * c)%nat); [|now apply fits_repeated].
  intros l Hl. destruct (few (u * m) P l) eqn:E; [|destruct (many _ _ _); lra]. apply Nat.leb_le in E. pose proof (count_negb P l) as K.
  assert (X : many ((v - u) * m) (fun a => negb (P a)) l = true) by (apply Nat.leb_le; rewrite Nat.mul_sub_distr_r; lia). rewrite X. lra.
Qed.
Lemma count_numbers P : of_numbers P -> forall xs ys, Forall2 Qeq xs ys -> count P xs = count P ys.
Proof. intros H xs ys F. induction F as [|x y xs ys E F IH]; [reflexivity|]. cbn [count]. now rewrite (H x y E), IH. Qed.
Section Samples.
  Variables (Or : oracle) (N : nat) (ahead : G Or -> nat -> nat).
  Hypotheses (HN : (0 < N)%nat) (RL : right_length Or) (RA : reads_all Or N ahead).
  Lemma samples_many e n k P t ss : sound e -> (1 <= n)%nat -> of_numbers P -> 1 <= t -> each_once N (n * work e) (map (coming Or ahead (n * work e)) ss) ->
    qnat (count (samples_in Or (obj_of e) n (many k P)) ss) / qnat (N ^ (n * work e)) <= npow (1 + chance (prog_of e) P * (t - 1)) n / npow t k + qnat (n * spread e) / qnat N.
  Proof.
    intros S Hn HP T Eo. pose proof (samples_share Or N ahead HN RL RA e n (many k P) ss S Hn ltac:(intros xs ys E; unfold many; now rewrite (count_numbers P HP xs ys E)) Eo) as X.
    pose proof (chance_many _ (prog_of e) P _ _ (fits_prog e S) t n k T). apply Qabs_Qle_condition in X. lra.
  Qed.
  Lemma samples_few e n k P t ss : sound e -> (1 <= n)%nat -> of_numbers P -> 0 < t <= 1 -> each_once N (n * work e) (map (coming Or ahead (n * work e)) ss) ->
    qnat (count (samples_in Or (obj_of e) n (few k P)) ss) / qnat (N ^ (n * work e)) <= npow (1 + chance (prog_of e) P * (t - 1)) n / npow t k + qnat (n * spread e) / qnat N.
  Proof.
    intros S Hn HP T Eo. pose proof (samples_share Or N ahead HN RL RA e n (few k P) ss S Hn ltac:(intros xs ys E; unfold few; now rewrite (count_numbers P HP xs ys E)) Eo) as X.
    pose proof (chance_few _ (prog_of e) P _ _ (fits_prog e S) t n k T). apply Qabs_Qle_condition in X. lra.
  Qed.
End Samples.

Section Net.
  Variables (Or : oracle) (N : nat) (ahead : G Or -> nat -> nat).
  Hypotheses (HN : (0 < N)%nat) (RL : right_length Or) (R : reads Or N ahead).
  Notation St := (state (G Or)).
  Variables (A Y : Type) (p : prog A) (L c n : nat) (find given : A -> bool) (wire : A -> res A) (q : bcall St A Y) (w : St -> bworld St A) (k : nat).
  Hypotheses (F : fits p L c) (Q1 : q_fn _ _ _ q = Some k) (Q2 : wonders St A Y q find given) (Q3 : q_cores _ _ _ q = 1%nat) (Q4 : q_dump _ _ _ q = None).
  Hypotheses (Q5 : forall s, uncached St A Y q (w s)) (Q6 : forall s, b_st _ _ (w s) = s) (Qn : q_n _ _ _ q = n) (Hn : (1 <= n)%nat) (Any : given = anything A).
  Lemma answer_counts s : exists es s' x, SpecProgram.run Or (repeated n p) s = (Ok es, s') /\
    fst (bayesnet St A Y (fun _ => SpecProgram.run Or p) wire q (w s)) = Ok (OMean A Y (PFlt (Fin x))) /\ x == qnat (count find es) / qnat n.
  Proof.
    destruct (runs_are_calls2 Or N ahead HN RL R p L c k F n s) as (es & s' & Cs & Le & _ & _). exists es, s'.
    pose proof (run_repeated Or p k n s es s' Cs Le) as Rn. rewrite <- (Q6 s) in Cs. pose proof Le as Ln. rewrite <- Qn in Le.
    assert (K : (0 < count given es)%nat) by (rewrite Any, count_all; lia). destruct (wonders_mean Or q find given es Q2 K) as (x & X & E). exists x. split; [exact Rn|]. split.
    - rewrite (bayesnet_uncached St A Y (fun _ => SpecProgram.run Or p) wire q (w s) k Q1 (Q5 s)), (single_core St A Y (fun _ => SpecProgram.run Or p) wire q (w s) k es s' Q3 Cs Le), nodump_outcome by assumption. exact X.
    - rewrite E. unfold fraction. rewrite Any, count_all, Ln. reflexivity.
  Qed.
  Lemma share_order j m : qnat j / qnat n <= qnat m / qnat n <-> (j <= m)%nat.
  Proof.
    pose proof (qnat_pos n ltac:(lia)) as Pn. assert (J : qnat j <= qnat m <-> (j <= m)%nat) by (unfold qnat; rewrite <- Zle_Qle; lia). rewrite <- J. split; intros H.
    - assert (X : forall z, z == z / qnat n * qnat n) by (intros z; field; lra). rewrite (X (qnat j)), (X (qnat m)). apply Qmult_le_compat_r; lra.
    - unfold Qdiv. apply Qmult_le_compat_r; [exact H|]. apply Qinv_le_0_compat. lra.
  Qed.
  Lemma above_is j s : answers_above (fun _ => SpecProgram.run Or p) wire q w (qnat j / qnat n) s = ends_in Or (repeated n p) (many j find) s.
  Proof.
    destruct (answer_counts s) as (es & s' & x & Rn & B & E). unfold answers_above, ends_in. rewrite B, Rn. cbn [fst]. apply Bool.eq_true_iff_eq. rewrite Qle_bool_iff, E, share_order. unfold many. now rewrite Nat.leb_le.
  Qed.
  Lemma below_is j s : answers_below (fun _ => SpecProgram.run Or p) wire q w (qnat j / qnat n) s = ends_in Or (repeated n p) (few j find) s.
  Proof.
    destruct (answer_counts s) as (es & s' & x & Rn & B & E). unfold answers_below, ends_in. rewrite B, Rn. cbn [fst]. apply Bool.eq_true_iff_eq. rewrite Qle_bool_iff, E, share_order. unfold few. now rewrite Nat.leb_le.
  Qed.
  Lemma net_bounds j t ss : each_once N (n * L) (map (coming Or ahead (n * L)) ss) ->
    (1 <= t -> qnat (count (answers_above (fun _ => SpecProgram.run Or p) wire q w (qnat j / qnat n)) ss) / qnat (N ^ (n * L)) <= npow (1 + chance p find * (t - 1)) n / npow t j + qnat (n * c) / qnat N) /\
    (0 < t <= 1 -> qnat (count (answers_below (fun _ => SpecProgram.run Or p) wire q w (qnat j / qnat n)) ss) / qnat (N ^ (n * L)) <= npow (1 + chance p find * (t - 1)) n / npow t j + qnat (n * c) / qnat N).
  Proof.
    intros Eo. pose proof (fun P => share_of_runs Or N ahead HN RL R (repeated n p) (n * L) (n * c) P ss (fits_repeated p L c n F) Eo) as S. split; intros T.
    - rewrite (count_same2 _ _ ss (above_is j)). specialize (S (many j find)). apply Qabs_Qle_condition in S. pose proof (chance_many _ p find L c F t n j T). lra.
    - rewrite (count_same2 _ _ ss (below_is j)). specialize (S (few j find)). apply Qabs_Qle_condition in S. pose proof (chance_few _ p find L c F t n j T). lra.
  Qed.
End Net.
Lemma geometric A (p : prog A) P L c u v : fits p L c -> (1 <= v)%nat ->
  (chance p P * qnat v < qnat u -> exists r, 0 <= r /\ r < 1 /\ forall m, chance (repeated (v * m) p) (many (u * m) P) <= npow r m) /\
  (qnat u < chance p P * qnat v -> exists r, 0 <= r /\ r < 1 /\ forall m, chance (repeated (v * m) p) (few (u * m) P) <= npow r m).
Proof. intros F Hv. split; intros H; [now apply (decay A p P L c F)|now apply (decay_few A p P L c)]. Qed.
Lemma samples_bounds Or N ahead : (0 < N)%nat -> right_length Or -> reads_all Or N ahead ->
  forall e n k P t ss, sound e -> (1 <= n)%nat -> of_numbers P -> each_once N (n * work e) (map (coming Or ahead (n * work e)) ss) ->
  (1 <= t -> qnat (count (samples_in Or (obj_of e) n (many k P)) ss) / qnat (N ^ (n * work e)) <= npow (1 + chance (prog_of e) P * (t - 1)) n / npow t k + qnat (n * spread e) / qnat N) /\
  (0 < t <= 1 -> qnat (count (samples_in Or (obj_of e) n (few k P)) ss) / qnat (N ^ (n * work e)) <= npow (1 + chance (prog_of e) P * (t - 1)) n / npow t k + qnat (n * spread e) / qnat N).
Proof. intros HN RL RA e n k P t ss S Hn HP Eo. split; intros T; [now apply (samples_many Or N ahead)|now apply (samples_few Or N ahead)]. Qed.
