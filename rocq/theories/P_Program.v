(** Programs of random choices have their exact probabilities (C189). *)
From Coq Require Import Qabs ZArith Lia Lqa FinFun Permutation.
From Verif Require Import Base M_Weights M_Pick M_Values M_Sampler M_Ops SpecWeights SpecSampler SpecMixture SpecCtor
  SpecOps SpecDiscrete SpecShare SpecProgram P_Pick P_Sampler P_Mixture P_Share P_DiceShare P_Mean P_Ops P_Discrete P_Discrete2 P_Support
  P_Weights2 P_BayesRule P_ShareRun P_ShareRun2 P_Dice P_Percentiles M_SampleApi M_Bayesnet SpecBayes SpecConversation P_Bayesnet P_Conversation.
From Verif Require Import SpecProgram.
Open Scope Q_scope.

Lemma qnat_pos N : (0 < N)%nat -> 0 < qnat N.
Proof. intros H. unfold qnat. change 0 with (inject_Z 0). rewrite <- Zlt_Qlt. lia. Qed.
Lemma qnat_nn N : 0 <= qnat N.
Proof. unfold qnat. change 0 with (inject_Z 0). rewrite <- Zle_Qle. lia. Qed.
Lemma qnat_add a b : qnat (a + b) == qnat a + qnat b.
Proof. unfold qnat. rewrite Nat2Z.inj_add, inject_Z_plus. reflexivity. Qed.
Lemma qnat_mul a b : qnat (a * b) == qnat a * qnat b.
Proof. unfold qnat. rewrite Nat2Z.inj_mul, inject_Z_mult. reflexivity. Qed.

(** Which result the number [k] below [N] leads to. *)
Definition pick_of (N : nat) (c : choice) (k : nat) : nat :=
  match c with
  | CEvent p | CBernoulli p => if Qlt_bool (grid N k) p then 0 else 1
  | CCoin => if Nat.eqb (k * 2 / N) 1 then 0 else 1
  | CDie n => k * n / N
  | CDiscrete _ | CAmong _ => match small_pick (map fst (law c)) (grid N k) with Ok i => i | Err _ => 0 end
  end.
Definition single (c : choice) : bool := Nat.eqb (length (law c)) 1.
Definition value_of (N : nat) (c : choice) (k : nat) : pv := snd (nth (pick_of N c k) (law c) (0, PNone)).
Fixpoint follow {A} (N : nat) (p : prog A) (ks : list nat) : option A :=
  match p with
  | Return a => Some a
  | Choose c next =>
      if single c then follow N (next (snd (nth 0 (law c) (0, PNone)))) ks
      else match ks with [] => None | k :: ks' => follow N (next (value_of N c k)) ks' end
  end.

(** Counting sequences. *)
Fixpoint seqs (N L : nat) : list (list nat) :=
  match L with O => [[]] | S L' => flat_map (fun k => map (cons k) (seqs N L')) (seq 0 N) end.
Definition cnt {A} (f : A -> bool) (l : list A) : nat := length (filter f l).
Lemma cnt_map {A B} (g : A -> B) f l : cnt f (map g l) = cnt (fun x => f (g x)) l.
Proof. unfold cnt. induction l as [|a l IH]; cbn; auto. destruct (f (g a)); cbn; congruence. Qed.
Lemma cnt_app {A} (f : A -> bool) l m : cnt f (l ++ m) = (cnt f l + cnt f m)%nat.
Proof. unfold cnt. now rewrite filter_app, app_length. Qed.
Lemma cnt_ext {A} (f g : A -> bool) l : (forall x, In x l -> f x = g x) -> cnt f l = cnt g l.
Proof. intros H. unfold cnt. now rewrite (filter_ext_in _ _ _ H). Qed.
Lemma sum_to_flat f (l : nat -> list (list nat)) N : qnat (cnt f (flat_map l (seq 0 N))) == sum_to (fun k => qnat (cnt f (l k))) N.
Proof.
  induction N as [|N IH]; [reflexivity|]. rewrite seq_S, flat_map_app, cnt_app, qnat_add, IH. cbn [flat_map sum_to]. rewrite app_nil_r. reflexivity.
Qed.
Lemma cnt_step f N L : qnat (cnt f (seqs N (S L))) == sum_to (fun k => qnat (cnt (fun r => f (k :: r)) (seqs N L))) N.
Proof. cbn [seqs]. rewrite sum_to_flat. apply sum_to_ext. intros k _. now rewrite cnt_map. Qed.
Lemma seqs_length N L : length (seqs N L) = (N ^ L)%nat.
Proof.
  induction L as [|L IH]; [reflexivity|]. cbn [seqs Nat.pow]. rewrite <- IH. clear IH. generalize (seqs N L) as m. intros m.
  assert (forall a, length (flat_map (fun k => map (cons k) m) (seq a N)) = (N * length m)%nat) as H; [|apply H].
  induction N as [|N IH]; intros a; [reflexivity|]. cbn [seq flat_map]. rewrite app_length, map_length, IH. lia.
Qed.
Lemma seqs_in N L l : In l (seqs N L) <-> sequence N L l.
Proof.
  unfold sequence. revert l. induction L as [|L IH]; intros l.
  - cbn. split; [intros [<-|[]]; split; auto|]. intros [E _]. left. destruct l; [auto|discriminate].
  - cbn [seqs]. rewrite in_flat_map. split.
    + intros (k & K & I). apply in_map_iff in I as (r & <- & I). apply IH in I as [E F]. apply in_seq in K. cbn. split; [congruence|]. constructor; [lia|auto].
    + intros [E F]. destruct l as [|k r]; [discriminate|]. inversion F; subst. exists k. split; [apply in_seq; lia|]. apply in_map, IH. split; [cbn in E; lia|auto].
Qed.
Lemma seqs_nodup N L : NoDup (seqs N L).
Proof.
  induction L as [|L IH]; [repeat constructor; intros []|]. cbn [seqs]. pose proof (seq_NoDup N 0) as S. induction S as [|a m Na S IHm]; [constructor|].
  cbn [flat_map]. apply NoDup_app'; auto.
  - apply NoDup_map_inj; auto. intros x y E. congruence.
  - intros x I J. apply in_map_iff in I as (r & <- & _). apply in_flat_map in J as (b & B & J). apply in_map_iff in J as (r' & E & _). injection E as -> _. contradiction.
Qed.
Lemma sum_to_const c n : sum_to (fun _ => c) n == qnat n * c.
Proof. induction n as [|n IH]; [cbn; unfold qnat; cbn; ring|]. cbn [sum_to]. rewrite IH, qnat_S. ring. Qed.

(** How often each result of a choice comes. *)
Definition weight (c : choice) (i : nat) : Q := fst (nth i (law c) (0, PNone)).
Lemma grid_range N k : (k < N)%nat -> 0 <= grid N k /\ grid N k < 1.
Proof.
  intros H. unfold grid. fold (qnat k) (qnat N). pose proof (qnat_pos N ltac:(lia)). split.
  - apply Qle_shift_div_l; auto. pose proof (qnat_nn k). lra.
  - apply Qlt_shift_div_r; auto. unfold qnat. rewrite Qmult_1_l. rewrite <- Zlt_Qlt. lia.
Qed.
Lemma hits_counted p i N c : counted (fun k => (k < N)%nat /\ p k = i) c -> hits p i N = c.
Proof.
  intros C. eapply counted_unique; [|exact C]. exists (filter (fun k => Nat.eqb (p k) i) (seq 0 N)).
  split; [apply NoDup_filter, seq_NoDup|]. split; [|reflexivity]. intros k. rewrite filter_In, in_seq, Nat.eqb_eq. lia.
Qed.
Lemma hits_total p L N : (forall k, (k < N)%nat -> (p k < L)%nat) -> sum_to (fun i => qnat (hits p i N)) L == qnat N.
Proof.
  intros H. pose proof (by_component p (fun _ => 1) L N H) as B. cbn beta in B. rewrite sum_to_const in B.
  rewrite (sum_to_ext _ (fun i => qnat (hits p i N))) in B by (intros; ring). lra.
Qed.
Lemma two_results p N q : (forall k, (k < N)%nat -> p k = 0%nat \/ p k = 1%nat) -> Qabs (qnat (hits p 0 N) - q * qnat N) <= 1 ->
  Qabs (qnat (hits p 1 N) - (1 - q) * qnat N) <= 1.
Proof.
  intros H B. pose proof (hits_total p 2 N) as T. cbn [sum_to] in T. assert (X : 0 + qnat (hits p 0 N) + qnat (hits p 1 N) == qnat N).
  { apply T. intros k K. destruct (H k K) as [-> | ->]; lia. }
  assert (qnat (hits p 1 N) - (1 - q) * qnat N == - (qnat (hits p 0 N) - q * qnat N)) as -> by lra. now rewrite Qabs_opp.
Qed.
Lemma die_hits n N i : (2 <= n)%nat -> (0 < N)%nat -> (i < n)%nat -> Qabs (qnat (hits (fun k => k * n / N)%nat i N) - 1 / qnat n * qnat N) <= 1.
Proof.
  intros Hn HN Hi. set (lo := ((i * N + n - 1) / n)%nat). set (hi := (((i + 1) * N + n - 1) / n)%nat).
  assert (L1 : (i * N <= lo * n < i * N + n)%nat).
  { unfold lo. pose proof (Nat.div_mod (i * N + n - 1) n ltac:(lia)) as D. pose proof (Nat.mod_upper_bound (i * N + n - 1) n ltac:(lia)). nia. }
  assert (L2 : ((i + 1) * N <= hi * n < (i + 1) * N + n)%nat).
  { unfold hi. pose proof (Nat.div_mod ((i + 1) * N + n - 1) n ltac:(lia)) as D. pose proof (Nat.mod_upper_bound ((i + 1) * N + n - 1) n ltac:(lia)). nia. }
  assert (LH : (lo <= hi)%nat) by nia.
  rewrite (hits_counted _ i N (hi - lo)).
  - pose proof (qnat_pos n ltac:(lia)) as Pn. rewrite <- (Qmult_le_l _ _ (qnat n)) by auto.
    assert (Qabs (qnat n) == qnat n) as An by (apply Qabs_pos; lra). rewrite <- An at 1. rewrite <- Qabs_Qmult.
    assert (qnat n * (qnat (hi - lo) - 1 / qnat n * qnat N) == inject_Z (Z.of_nat n * Z.of_nat (hi - lo) - Z.of_nat N)) as ->.
    { unfold Z.sub. rewrite inject_Z_plus, inject_Z_mult, inject_Z_opp. fold (qnat n) (qnat (hi - lo)) (qnat N). field. intros E. rewrite E in Pn. now apply Qlt_irrefl in Pn. }
    rewrite Qmult_1_r. apply Qabs_Qle_condition. unfold qnat. rewrite <- inject_Z_opp, <- !Zle_Qle. nia.
  - eapply counted_iff; [|apply (counted_seq lo)]. intros k. cbn beta. split.
    + intros K. assert (i * N <= k * n < (i + 1) * N)%nat by nia. split; [nia|]. symmetry. apply (Nat.div_unique _ _ _ (k * n - i * N)%nat); lia.
    + intros [K E]. pose proof (Nat.div_mod (k * n) N ltac:(lia)) as D. rewrite E in D. pose proof (Nat.mod_upper_bound (k * n) N ltac:(lia)). nia.
Qed.
Lemma law_weights_total c : proper c -> total (map fst (law c)) == 1.
Proof.
  destruct c as [p|p| |n|l|l]; cbn [law proper]; intros P; try (cbn; ring).
  - rewrite map_map. cbn [fst]. assert (forall a m, total (map (fun _ : nat => 1 / qnat n) (seq a m)) == qnat m * (1 / qnat n)) as H.
    { intros a m. revert a. induction m as [|m IH]; intros a; [cbn; unfold qnat; cbn; ring|]. cbn [seq map total]. unfold total in *. cbn [fold_right]. rewrite IH, qnat_S. ring. }
    rewrite H. field. pose proof (qnat_pos n ltac:(lia)). intros E. rewrite E in *. now apply Qlt_irrefl in H0.
  - apply P.
  - destruct P as [P _]. rewrite map_map. cbn [fst]. set (q := 1 / qnat (length l)).
    assert (forall m : list pv, total (map (fun _ => q) m) == qnat (length m) * q) as H.
    { induction m as [|x m IH]; [cbn; unfold qnat; cbn; ring|]. cbn [map length]. unfold total in *. cbn [fold_right]. rewrite IH, qnat_S. ring. }
    rewrite H. unfold q. assert (0 < length l)%nat by (destruct l; [congruence|cbn; lia]). pose proof (qnat_pos _ H0). field. intros E. rewrite E in *. now apply Qlt_irrefl in H1.
Qed.
Lemma law_weights_nonneg c : proper c -> nonneg (map fst (law c)).
Proof.
  destruct c as [p|p| |n|l|l]; cbn [law proper]; intros P; unfold nonneg.
  - repeat constructor; cbn; lra. - repeat constructor; cbn; lra. - repeat constructor; cbn; lra.
  - rewrite map_map. apply Forall_forall. intros x I. apply in_map_iff in I as (i & <- & _). cbn. apply Qle_shift_div_l; [apply qnat_pos; lia|]. lra.
  - apply positive_nn, P.
  - rewrite map_map. apply Forall_forall. intros x I. apply in_map_iff in I as (i & <- & I). cbn. apply Qle_shift_div_l; [apply qnat_pos; destruct l; [destruct I|cbn; lia]|]. lra.
Qed.
Lemma pick_falls N c k : proper c -> (exists l, c = CDiscrete l) \/ (exists l, c = CAmong l) -> falls (map fst (law c)) (grid N k) (pick_of N c k).
Proof.
  intros P K. assert (E : map fst (law c) <> []).
  { destruct K as [(l & ->)|(l & ->)]; cbn [law proper] in *; destruct P as [P _]; destruct l; try congruence; discriminate. }
  destruct (small_pick_total (map fst (law c)) (grid N k) E) as (i & I & _).
  assert (pick_of N c k = i) as -> by (destruct K as [(l & ->)|(l & ->)]; cbn [pick_of]; now rewrite I).
  apply falls_small; [now apply law_weights_nonneg|exact I].
Qed.
Lemma pick_bound N c k : proper c -> (k < N)%nat -> (pick_of N c k < length (law c))%nat.
Proof.
  intros P K. destruct c as [p|p| |n|l|l].
  - cbn. destruct (Qlt_bool _ _); lia. - cbn. destruct (Qlt_bool _ _); lia. - cbn. destruct (Nat.eqb _ _); lia.
  - cbn [law pick_of]. cbn in P. rewrite map_length, seq_length. apply Nat.div_lt_upper_bound; nia.
  - rewrite <- (map_length fst). apply (pick_falls N (CDiscrete l) k P). left; eauto.
  - rewrite <- (map_length fst). apply (pick_falls N (CAmong l) k P). right; eauto.
Qed.
Lemma pick_hits N c i : proper c -> (0 < N)%nat -> (i < length (law c))%nat -> Qabs (qnat (hits (pick_of N c) i N) - weight c i * qnat N) <= 1.
Proof.
  intros P HN Hi.
  assert (EV : forall p, 0 <= p -> p <= 1 -> forall i, (i < 2)%nat ->
     Qabs (qnat (hits (fun k => if Qlt_bool (grid N k) p then 0 else 1)%nat i N) - fst (nth i [(p, PNone); (1 - p, PNone)] (0, PNone)) * qnat N) <= 1).
  { intros p P0 P1 j Hj. assert (B : Qabs (qnat (hits (fun k => if Qlt_bool (grid N k) p then 0 else 1)%nat 0 N) - p * qnat N) <= 1).
    { destruct (below_count N p HN P0 P1) as (c0 & C & B1 & B2). rewrite (hits_counted _ 0 N c0); [apply Qabs_Qle_condition; lra|].
      eapply counted_iff; [|exact C]. intros k. cbn beta. destruct (Qlt_bool (grid N k) p) eqn:E.
      - apply qlt_true in E. tauto.
      - apply qlt_false in E. split; [intros [? H]; exfalso; lra|intros [? H]; discriminate]. }
    destruct j as [|[|j]]; [exact B| |lia]. cbn [nth fst]. apply two_results; [|exact B]. intros k _. destruct (Qlt_bool _ _); auto. }
  destruct c as [p|p| |n|l|l].
  - cbn [proper] in P. specialize (EV p (proj1 P) (proj2 P) i Hi). destruct i as [|[|i]]; [exact EV|exact EV|cbn in Hi; lia].
  - cbn [proper] in P. specialize (EV p (proj1 P) (proj2 P) i Hi). destruct i as [|[|i]]; [exact EV|exact EV|cbn in Hi; lia].
  - assert (B : Qabs (qnat (hits (pick_of N CCoin) 0 N) - (1#2) * qnat N) <= 1).
    { pose proof (die_hits 2 N 1 ltac:(lia) HN ltac:(lia)) as D. assert (E : hits (pick_of N CCoin) 0 N = hits (fun k => k * 2 / N)%nat 1 N).
      { unfold hits. f_equal. apply filter_ext. intros k. cbn [pick_of]. destruct (Nat.eqb (k * 2 / N) 1) eqn:E; reflexivity. }
      rewrite E. exact D. }
    destruct i as [|[|i]]; [exact B| |cbn in Hi; lia]. change (weight CCoin 1) with (1 - (1#2)). apply two_results; [|exact B]. intros k _. cbn. destruct (Nat.eqb _ _); auto.
  - cbn [proper] in P. cbn [law] in Hi. rewrite map_length, seq_length in Hi. pose proof (die_hits n N i P HN Hi) as D. unfold weight. cbn [law].
    set (f := fun i : nat => (1 / qnat n, PInt (Z.of_nat i))). rewrite (nth_indep _ (0, PNone) (f 0%nat)) by (rewrite map_length, seq_length; lia). rewrite map_nth. exact D.
  - pose proof (hits_share (map fst (law (CDiscrete l))) N (pick_of N (CDiscrete l)) i (law_weights_nonneg _ P) (law_weights_total _ P) HN
      ltac:(now rewrite map_length) (fun k _ => pick_falls N _ k P (or_introl (ex_intro _ l eq_refl)))) as H.
    unfold weight. rewrite <- (map_nth fst) . exact H.
  - pose proof (hits_share (map fst (law (CAmong l))) N (pick_of N (CAmong l)) i (law_weights_nonneg _ P) (law_weights_total _ P) HN
      ltac:(now rewrite map_length) (fun k _ => pick_falls N _ k P (or_intror (ex_intro _ l eq_refl)))) as H.
    unfold weight. rewrite <- (map_nth fst). exact H.
Qed.
Lemma weigh_sum l f : weigh l f == sum_to (fun i => fst (nth i l (0, PNone)) * f (snd (nth i l (0, PNone)))) (length l).
Proof.
  assert (S : forall g n, sum_to g (S n) == g 0%nat + sum_to (fun i => g (S i)) n).
  { intros g n. induction n as [|n IH]; [cbn; ring|]. cbn [sum_to] in *. rewrite IH. ring. }
  induction l as [|[w v] l IH]; [reflexivity|]. cbn [weigh length]. rewrite S, IH. reflexivity.
Qed.
Lemma chance_range {A} (p : prog A) P : forall L c, fits p L c -> 0 <= chance p P /\ chance p P <= 1.
Proof.
  induction p as [a|c next IH]; intros L n F; cbn [chance]; [destruct (P a); lra|]. destruct F as (Pr & L' & c' & -> & -> & F).
  pose proof (law_weights_nonneg c Pr) as NN. pose proof (law_weights_total c Pr) as TT.
  rewrite <- TT. clear TT. unfold nonneg, total in *. induction (law c) as [|[w v] l IHl]; cbn [weigh map fold_right fst] in *; [lra|].
  inversion NN; subst. destruct (IHl (fun w0 v0 I => F w0 v0 (or_intror I)) H2) as [A1 B1]. destruct (IH v _ _ (F w v (or_introl eq_refl))) as [C D]. split; nra.
Qed.
Definition okP {A} (P : A -> bool) (o : option A) : bool := match o with Some a => P a | None => false end.

(** The count of sequences that lead to [P]. *)
Lemma sequences_count {A} N (p : prog A) P : (0 < N)%nat -> forall L c, fits p L c -> forall M, (L <= M)%nat ->
  Qabs (qnat (cnt (fun ks => okP P (follow N p ks)) (seqs N M)) / qnat (N ^ M) - chance p P) <= qnat c / qnat N.
Proof.
  intros HN. pose proof (qnat_pos N HN) as PN. induction p as [a|ch next IH]; intros L c F M LM.
  - cbn [follow okP chance]. assert (0 <= qnat c / qnat N) by (apply Qle_shift_div_l; auto; pose proof (qnat_nn c); lra).
    assert (PM : 0 < qnat (N ^ M)) by (apply qnat_pos, Nat.neq_0_lt_0, Nat.pow_nonzero; lia).
    unfold cnt. destruct (P a).
    + assert (filter (fun _ : list nat => true) (seqs N M) = seqs N M) as -> by (induction (seqs N M) as [|x l IHl]; cbn; congruence).
      rewrite seqs_length. assert (qnat (N ^ M) / qnat (N ^ M) - 1 == 0) as -> by (field; intros E; rewrite E in PM; now apply Qlt_irrefl in PM). exact H.
    + assert (filter (fun _ : list nat => false) (seqs N M) = []) as -> by (induction (seqs N M) as [|x l IHl]; cbn; congruence).
      assert (qnat (length (@nil (list nat))) / qnat (N ^ M) - 0 == 0) as -> by (change (qnat (length (@nil (list nat)))) with 0; unfold Qdiv; ring). exact H.
  - destruct F as (Pr & L' & c' & -> & -> & F). cbn [chance follow].
    assert (EC : qnat c' / qnat N <= qnat (length (law ch) + c') / qnat N).
    { unfold Qdiv. apply Qmult_le_compat_r; [|apply Qinv_le_0_compat; lra]. rewrite qnat_add. pose proof (qnat_nn (length (law ch))). lra. }
    destruct (single ch) eqn:Sg.
    + apply Nat.eqb_eq in Sg. pose proof (law_weights_total ch Pr) as T. destruct (law ch) as [|[w v] [|]] eqn:El; try discriminate Sg.
      cbn [nth snd weigh]. cbn in T. eapply Qle_trans; [|exact EC]. assert (w == 1) as W by lra.
      assert (w * chance (next v) P + 0 == chance (next v) P) as -> by (rewrite W; ring).
      apply (IH v L' c'); [|lia]. apply (F w v). now left.
    + destruct M as [|M]; [lia|]. set (x := fun i => chance (next (snd (nth i (law ch) (0, PNone)))) P).
      set (y := fun i => qnat (cnt (fun ks => okP P (follow N (next (snd (nth i (law ch) (0, PNone)))) ks)) (seqs N M)) / qnat (N ^ M)).
      assert (PM : 0 < qnat (N ^ M)) by (apply qnat_pos, Nat.neq_0_lt_0, Nat.pow_nonzero; lia).
      assert (XY : forall i, (i < length (law ch))%nat -> Qabs (y i - x i) <= qnat c' / qnat N /\ 0 <= x i /\ x i <= 1).
      { intros i Hi. pose proof (nth_In (law ch) (0, PNone) Hi) as I. destruct (nth i (law ch) (0, PNone)) as [w v] eqn:Ei.
        assert (y i = qnat (cnt (fun ks => okP P (follow N (next v) ks)) (seqs N M)) / qnat (N ^ M)) as -> by (unfold y; now rewrite Ei).
        assert (x i = chance (next v) P) as -> by (unfold x; now rewrite Ei).
        split; [apply (IH v L' c' (F w v I)); lia|]. apply (chance_range (next v) P L' c'), (F w v I). }
      rewrite cnt_step.
      assert (E1 : sum_to (fun k => qnat (cnt (fun r => okP P (follow N (next (value_of N ch k)) r)) (seqs N M))) N ==
                   qnat (N ^ M) * sum_to (fun i => y i * qnat (hits (pick_of N ch) i N)) (length (law ch))).
      { rewrite <- (by_component (pick_of N ch) y (length (law ch)) N) by (intros k Hk; now apply pick_bound).
        rewrite <- sum_to_scale. apply sum_to_ext. intros k _. unfold y, value_of. field. intros E; rewrite E in PM; now apply Qlt_irrefl in PM. }
      rewrite E1. cbn [Nat.pow]. rewrite qnat_mul, weigh_sum. fold x.
      change (sum_to (fun i => fst (nth i (law ch) (0, PNone)) * chance (next (snd (nth i (law ch) (0, PNone)))) P) (length (law ch)))
        with (sum_to (fun i => weight ch i * x i) (length (law ch))).
      set (m := length (law ch)) in *. set (h := fun i => qnat (hits (pick_of N ch) i N)).
      assert (E2 : qnat (N ^ M) * sum_to (fun i => y i * h i) m / (qnat N * qnat (N ^ M)) - sum_to (fun i => weight ch i * x i) m
              == / qnat N * sum_to (fun i => (y i - x i) * h i + x i * (h i - weight ch i * qnat N)) m).
      { assert (S2 : sum_to (fun i => (y i - x i) * h i + x i * (h i - weight ch i * qnat N)) m == sum_to (fun i => y i * h i) m - qnat N * sum_to (fun i => weight ch i * x i) m).
        { rewrite <- sum_to_scale. assert (forall a, - a == -(1) * a) as O by (intros; ring). unfold Qminus. rewrite O, <- sum_to_scale, <- sum_to_add.
          apply sum_to_ext. intros i _. ring. }
        rewrite S2. field. split; intros E; [rewrite E in PN; now apply Qlt_irrefl in PN|rewrite E in PM; now apply Qlt_irrefl in PM]. }
      unfold h in E2 at 1. rewrite E2. rewrite Qabs_Qmult. assert (0 < / qnat N) by now apply Qinv_lt_0_compat.
      rewrite (Qabs_pos (/ qnat N)) by lra. unfold Qdiv. rewrite (Qmult_comm (/ qnat N)). apply Qmult_le_compat_r; [|lra].
      eapply Qle_trans; [apply sum_to_abs|]. eapply Qle_trans with (sum_to (fun i => qnat c' / qnat N * h i + 1) m).
      * apply sum_to_le. intros i Hi. destruct (XY i Hi) as (A1 & A2 & A3). pose proof (pick_hits N ch i Pr HN Hi) as A4. fold (h i) in A4.
        assert (0 <= h i) by apply qnat_nn. eapply Qle_trans; [apply Qabs_triangle|]. rewrite !Qabs_Qmult, (Qabs_pos (h i)), (Qabs_pos (x i)) by auto.
        assert (Qabs (y i - x i) * h i <= qnat c' / qnat N * h i) by (apply Qmult_le_compat_r; auto).
        assert (0 <= Qabs (h i - weight ch i * qnat N)) by apply Qabs_nonneg. nra.
      * rewrite sum_to_add, sum_to_scale, sum_to_const. unfold h. rewrite (hits_total (pick_of N ch) m N) by (intros k Hk; now apply pick_bound).
        rewrite qnat_add. fold m. assert (qnat c' / qnat N * qnat N == qnat c') as -> by (field; intros E; rewrite E in PN; now apply Qlt_irrefl in PN). lra.
Qed.

(** Running a program follows the numbers to come. *)
Section Runs.
  Variable Or : oracle.
  Notation St := (state (G Or)).
  Variable N : nat.
  Variable ahead : G Or -> nat -> nat.
  Hypothesis HN : (0 < N)%nat.
  Hypothesis RL : right_length Or.
  Hypothesis R : reads Or N ahead.
  Lemma rd_u g : exists u g', drawf Or (RUniform 0 1) 1 g = (Ok [u], g') /\ u == grid N (ahead g 0%nat) /\ forall i, ahead g' i = ahead g (S i).
  Proof. apply R. Qed.
  Lemma rd_i lo hi g : (lo < hi)%Z -> exists g', drawi Or (RInt lo hi) 1 g =
       (Ok [lo + Z.of_nat (ahead g 0%nat) * (hi - lo) / Z.of_nat N]%Z, g') /\ forall i, ahead g' i = ahead g (S i).
  Proof. apply R. Qed.
  Lemma rd_b g i : (ahead g i < N)%nat.
  Proof. apply R. Qed.
  Lemma lt_compat u v p : u == v -> Qlt_bool u p = Qlt_bool v p.
  Proof. intros E. destruct (Qlt_bool u p) eqn:A, (Qlt_bool v p) eqn:B; auto; try (apply qlt_true in A; apply qlt_false in B; lra); apply qlt_false in A; apply qlt_true in B; lra. Qed.
  Lemma make_discrete k ws its l s : cat_list k = Ok (ws, its) -> its = map (fun e => IPlain (snd e)) l -> nonneg ws -> length ws = length l ->
    if Nat.eqb (length l) 1 then one Or (LCatList k) s = (Ok (snd (nth 0 l (0, PNone))), s)
    else l <> [] -> exists s', one Or (LCatList k) s = (Ok (snd (nth (match small_pick ws (grid N (ahead (rng s) 0%nat)) with Ok i => i | Err _ => 0%nat end) l (0, PNone))), s') /\
      forall i, ahead (rng s') i = ahead (rng s) (S i).
  Proof.
    intros C E NN LL. destruct (Nat.eqb (length l) 1) eqn:L1.
    - apply Nat.eqb_eq in L1. destruct l as [|[w v] [|]]; try discriminate. cbn in E. subst its. unfold one, bindS.
      rewrite (discrete_single Or (LCatList k) ws (IPlain v) 1 s); [reflexivity| |lia]. left. eauto.
    - apply Nat.eqb_neq in L1. intros Hl. assert (2 <= length l)%nat by (destruct l as [|? [|]]; cbn in *; try lia; congruence).
      destruct (rd_u (rng s)) as (u & g' & D & U & A).
      assert (Hw : ws <> []) by (intros ->; cbn in LL; lia).
      destruct (small_pick_total ws (grid N (ahead (rng s) 0%nat)) Hw) as (i & I & B). rewrite I.
      apply (falls_small _ _ _ NN) in I.
      assert (S : smp Or (ODist (DLeaf (LCatList k) None None)) 1 None None s = (Ok (Scalar (snd (nth i l (0, PNone)))), mkState g' (corr s))).
      { apply (discrete_values Or RL (LCatList k) ws its 1 s); [left; eauto|lia|subst its; rewrite map_length; lia|].
        exists [u], [snd (nth i l (0, PNone))]. split; [|split].
        - unfold SpecDiscrete.uniform_draws. cbn. econstructor; [exact D|constructor].
        - constructor; [|constructor]. exists i, (IPlain (snd (nth i l (0, PNone)))). split; [eapply falls_compat; [symmetry; exact U|exact I]|]. split; [lia|].
          split; [|reflexivity]. subst its. rewrite nth_error_map, (nth_error_nth' l (0, PNone)) by lia. reflexivity.
        - now rewrite one_array. }
      exists (mkState g' (corr s)). split; [|exact A]. unfold one, bindS. rewrite S. reflexivity.
  Qed.
  Lemma make_follow c s : proper c ->
    if single c then make Or c s = (Ok (snd (nth 0 (law c) (0, PNone))), s)
    else exists s', make Or c s = (Ok (value_of N c (ahead (rng s) 0%nat)), s') /\ forall i, ahead (rng s') i = ahead (rng s) (S i).
  Proof.
    intros P. destruct c as [p|p| |n|l|l].
    - cbn. destruct (rd_u (rng s)) as (u & g' & D & U & A). exists (mkState g' (corr s)). split; [|exact A]. unfold make, bindS.
      rewrite (event_literal Or p s u (mkState g' (corr s))) by (unfold rngf; now rewrite D). rewrite (lt_compat u _ p U). unfold value_of. cbn [pick_of law].
      destruct (Qlt_bool _ _); reflexivity.
    - cbn. destruct (rd_u (rng s)) as (u & g' & D & U & A). exists (mkState g' (corr s)). split; [|exact A]. unfold one, bindS.
      rewrite smp_odist, smp_leaf, wrap_none by lia. cbn [leaf_sample]. unfold bernoulli_sample, bindS, rngf. rewrite D. cbn [ret map]. unfold ret.
      rewrite (lt_compat u _ p U). unfold value_of. cbn [pick_of law]. destruct (Qlt_bool _ _); reflexivity.
    - cbn. destruct (rd_i 0 2 (rng s) ltac:(lia)) as (g' & D & A). exists (mkState g' (corr s)). split; [|exact A]. unfold one, bindS.
      rewrite smp_odist, smp_leaf, wrap_none by lia. cbn [leaf_sample]. unfold coin_sample, one_int, bindS, rngi. rewrite D. unfold ret. cbn [finish_list].
      unfold value_of. cbn [pick_of law]. unfold face. assert ((0 + Z.of_nat (ahead (rng s) 0%nat) * (2 - 0) / Z.of_nat N =? 1)%Z = Nat.eqb (ahead (rng s) 0 * 2 / N) 1) as ->.
      { change (2 - 0)%Z with (Z.of_nat 2). rewrite <- Nat2Z.inj_mul, <- Nat2Z.inj_div. generalize (ahead (rng s) 0 * 2 / N)%nat. intros m.
        destruct (Nat.eqb m 1) eqn:E; [apply Nat.eqb_eq in E; subst; reflexivity|]. apply Nat.eqb_neq in E. apply Z.eqb_neq. lia. }
      destruct (Nat.eqb _ _); reflexivity.
    - cbn [proper] in P. assert (single (CDie n) = false) as ->. { unfold single. cbn [law]. rewrite map_length, seq_length. apply Nat.eqb_neq. lia. }
      destruct (rd_i 1 (Z.of_nat n + 1) (rng s) ltac:(lia)) as (g' & D & A). exists (mkState g' (corr s)). split; [|exact A]. unfold make, one, bindS.
      rewrite (proj2 (plain_die Or (Z.of_nat n) s _ (mkState g' (corr s)))) by (eexists _, _; split; [exact D|split; reflexivity]). unfold ret. do 2 f_equal.
      unfold value_of. cbn [pick_of law]. set (f := fun i : nat => (1 / qnat n, PInt (Z.of_nat i))).
      pose proof (rd_b (rng s) 0) as B. set (k := ahead (rng s) 0%nat) in *.
      assert (K : (k * n / N < n)%nat) by (apply Nat.div_lt_upper_bound; nia).
      rewrite (nth_indep _ (0, PNone) (f 0%nat)) by (rewrite map_length, seq_length; exact K). rewrite map_nth, seq_nth by exact K. cbn [f snd]. f_equal.
      replace (Z.of_nat n + 1 - 1)%Z with (Z.of_nat n) by lia. rewrite <- Nat2Z.inj_mul, <- Nat2Z.inj_div. lia.
    - cbn [proper] in P. destruct P as (Hl & Pp & T). pose proof (make_discrete _ _ _ l s (pairs_processed l Hl (positive_nn _ Pp) ltac:(lra) ltac:(lra))) as H.
      unfold positive_entries in H. rewrite (pairs_kept l Pp) in H. specialize (H eq_refl (positive_nn _ Pp) ltac:(now rewrite map_length)).
      unfold single, value_of. cbn [law make pick_of]. destruct (Nat.eqb (length l) 1); auto.
    - cbn [proper] in P. destruct P as (Hl & Hn). set (l' := law (CAmong l)).
      assert (LL : length l' = length l) by (unfold l'; cbn [law]; apply map_length).
      assert (C : cat_list (map IPlain l) = Ok (map fst l', map (fun e => IPlain (snd e)) l')).
      { unfold cat_list, pdwv. assert (compresses (forallb (fun i => negb (item_is_list i))) item_is_list (map IPlain l) = false) as ->.
        { unfold compresses. destruct (map IPlain l) eqn:E; auto. rewrite <- E, map_length. assert (Nat.leb 100 (length l) = false) as -> by (apply Nat.leb_gt; lia). reflexivity. }
        destruct l as [|x l]; [congruence|]. rewrite (equal_default _ _ (VList (map IPlain (x :: l))) (map IPlain (x :: l)) (IPlain x) false); try reflexivity; [|constructor].
        rewrite map_length. cbn [length Nat.eqb]. f_equal. unfold l'. cbn [law]. rewrite !map_map. f_equal.
        assert (Rp : forall (q : Q) (m : list pv), repeat q (length m) = map (fun _ => q) m) by (intros q m; induction m; cbn; congruence).
        f_equal. exact (Rp _ (x :: l)). }
      pose proof (make_discrete _ _ _ l' s C eq_refl (law_weights_nonneg (CAmong l) (conj Hl Hn)) ltac:(now rewrite map_length)) as H.
      unfold single, value_of. cbn [make pick_of]. fold l'. destruct (Nat.eqb (length l') 1); auto. apply H. unfold l'. cbn [law]. destruct l; [congruence|discriminate].
  Qed.

  Lemma run_follow {A} (p : prog A) : forall L c s ks, fits p L c -> (L <= length ks)%nat -> (forall i, (i < length ks)%nat -> nth i ks 0%nat = ahead (rng s) i) ->
    exists a s', run Or p s = (Ok a, s') /\ follow N p ks = Some a.
  Proof.
    induction p as [a|ch next IH]; intros L c s ks F E K; [exists a, s; split; reflexivity|].
    destruct F as (Pr & L' & c' & -> & -> & F). pose proof (make_follow ch s Pr) as M. cbn [run follow]. unfold bindS. destruct (single ch) eqn:Sg.
    - rewrite M. unfold single in Sg. apply Nat.eqb_eq in Sg. destruct (law ch) as [|[w v] [|]] eqn:El; try discriminate Sg. cbn [nth snd].
      apply (IH v L' c' s ks (F w v (or_introl eq_refl))); [lia|exact K].
    - destruct M as (s' & -> & A1). destruct ks as [|k ks]; [cbn in E; lia|].
      pose proof (K 0%nat ltac:(cbn; lia)) as K0. cbn in K0. subst k. unfold value_of.
      pose proof (nth_In (law ch) (0, PNone) (pick_bound N ch (ahead (rng s) 0) Pr (rd_b _ _))) as I. destruct (nth _ (law ch) _) as [w v].
      apply (IH v L' c' s' ks (F w v I)); [cbn in E; lia|]. intros i Hi. rewrite A1, <- (K (S i)) by (cbn; lia). reflexivity.
  Qed.
  Lemma run_coming {A} (p : prog A) L c s : fits p L c -> exists a s', run Or p s = (Ok a, s') /\ follow N p (coming Or ahead L s) = Some a.
  Proof.
    intros F. eapply run_follow; [exact F|unfold coming; rewrite map_length, seq_length; lia|]. intros i Hi. unfold coming in *. rewrite map_length, seq_length in Hi.
    rewrite (nth_indep _ 0%nat (ahead (rng s) 0%nat)) by (rewrite map_length, seq_length; lia). rewrite map_nth, seq_nth by lia. reflexivity.
  Qed.
  (** Over all sequences. *)
  Lemma each_once_count L ls f : each_once N L ls -> cnt f ls = cnt f (seqs N L).
  Proof.
    intros [ND I]. unfold cnt. apply filter_len_perm, NoDup_Permutation; auto using seqs_nodup.
    intros x. rewrite I, seqs_in. reflexivity.
  Qed.
  Lemma count_cnt {B} (f : B -> bool) l : count f l = cnt f l.
  Proof. unfold cnt. induction l as [|x l IH]; cbn; auto. rewrite IH. destruct (f x); reflexivity. Qed.
  Lemma share_of_runs {A} (p : prog A) L c P ss : fits p L c -> each_once N L (map (coming Or ahead L) ss) ->
    Qabs (qnat (count (ends_in Or p P) ss) / qnat (N ^ L) - chance p P) <= qnat c / qnat N.
  Proof.
    intros F Eo. pose proof (sequences_count N p P HN L c F L (le_n _)) as S. rewrite <- (each_once_count L _ _ Eo), cnt_map in S.
    rewrite count_cnt. erewrite (cnt_ext (ends_in Or p P)); [exact S|]. intros s _. unfold ends_in.
    destruct (run_coming p L c s F) as (a & s' & -> & ->). reflexivity.
  Qed.
  Lemma runs_are_calls {A} (p : prog A) L c f : fits p L c -> forall n s, exists es s', calls St A (fun _ => run Or p) f s es s' /\ length es = n /\
    forall P, count P es = count (ends_in Or p P) (starts Or p n s).
  Proof.
    intros F. induction n as [|n IH]; intros s; [exists [], s; repeat split; constructor|].
    destruct (run_coming p L c s F) as (a & s1 & E & _). destruct (IH s1) as (es & s' & C & Le & Q).
    exists (a :: es), s'. split; [econstructor; eauto|]. split; [cbn; congruence|]. intros P. cbn [starts count]. rewrite E. cbn [snd]. rewrite Q.
    unfold ends_in at 2. now rewrite E.
  Qed.
  Lemma ratio_close F G f g e : Qabs (F - f) <= e -> Qabs (G - g) <= e -> 0 <= f -> f <= g -> e < g -> 0 < G /\ Qabs (F / G - f / g) <= 2 * e / (g - e).
  Proof.
    intros A B f0 fg eg. assert (0 <= e) by (eapply Qle_trans; [apply Qabs_nonneg|exact A]). assert (g0 : 0 < g) by lra.
    assert (GE : g - e <= G) by (apply Qabs_Qle_condition in B; lra). assert (G0 : 0 < G) by lra. split; [exact G0|].
    assert (NG : ~ G == 0) by (intros X; rewrite X in G0; now apply Qlt_irrefl in G0). assert (Ng : ~ g == 0) by (intros X; rewrite X in g0; now apply Qlt_irrefl in g0).
    assert (F / G - f / g == / G * ((F - f) + (f / g) * (g - G))) as -> by (field; auto).
    assert (IG : 0 < / G) by now apply Qinv_lt_0_compat.
    rewrite Qabs_Qmult, (Qabs_pos (/ G)) by lra.
    assert (fg0 : 0 <= f / g /\ f / g <= 1) by (split; [apply Qle_shift_div_l|apply Qle_shift_div_r]; lra).
    assert (T : Qabs ((F - f) + f / g * (g - G)) <= 2 * e).
    { eapply Qle_trans; [apply Qabs_triangle|]. rewrite Qabs_Qmult, (Qabs_pos (f / g)) by apply fg0. rewrite (Qabs_Qminus g G).
      pose proof (Qabs_nonneg (G - g)). nra. }
    assert (J : / G <= / (g - e)).
    { apply Qle_shift_inv_l; [lra|]. assert (/ G * G == 1) as K by (field; auto). rewrite Qmult_comm. nra. }
    unfold Qdiv. rewrite (Qmult_comm (2 * e)). eapply Qle_trans with (/ G * (2 * e)).
    - rewrite (Qmult_le_l _ _ (/ G)) by auto. exact T.
    - apply Qmult_le_compat_r; [exact J|lra].
  Qed.
  Lemma chance_and {A} (p : prog A) find given : forall L c, fits p L c -> 0 <= chance p (fun a => given a && find a) <= chance p given.
  Proof.
    induction p as [a|ch next IH]; intros L c F; cbn [chance]; [destruct (given a), (find a); cbn; lra|]. destruct F as (Pr & L' & c' & -> & -> & F).
    pose proof (law_weights_nonneg ch Pr) as NN. clear Pr. unfold nonneg in NN. induction (law ch) as [|[w v] l IHl]; cbn [weigh map fst] in *; [lra|].
    inversion NN; subst. pose proof (IHl (fun w0 v0 I => F w0 v0 (or_intror I)) H2) as A1. pose proof (IH v _ _ (F w v (or_introl eq_refl))) as A2. split; nra.
  Qed.
  Lemma wonders_mean {A Y} (q : bcall St A Y) find given es : wonders St A Y q find given -> (0 < count given es)%nat ->
    exists x, M_Bayesnet.analyse St A Y q es = Ok (OMean A Y (PFlt (Fin x))) /\ x == fraction find given es.
  Proof.
    intros [W|(-> & C & F & R0 & W)] K; [apply (proj2 (analyse_asks St A Y q find given es W)), K|].
    pose (q' := mkBC St A Y (q_fn _ _ _ q) (q_n _ _ _ q) (q_find _ _ _ q) (Some (fun _ => Ok true)) (q_reduce _ _ _ q) (q_raw _ _ _ q)
        (q_memcache _ _ _ q) (q_mload _ _ _ q) (q_msave _ _ _ q) (q_reload _ _ _ q) (q_dump _ _ _ q) (q_load _ _ _ q)
        (q_primary _ _ _ q) (q_cores _ _ _ q) (q_starts _ _ _ q) (q_sched _ _ _ q)).
    assert (W' : asks St A Y q' find (anything A)) by (repeat split; auto).
    destruct (proj2 (analyse_asks St A Y q' find (anything A) es W') K) as (x & X & E). exists x. split; [|exact E]. rewrite <- X.
    unfold M_Bayesnet.analyse, q'. cbn [q_cond q_find q_raw q_reduce]. now rewrite C, keep_all.
  Qed.
  Lemma answer_close {A Y} (p : prog A) L c find given wire (q : bcall St A Y) w f :
    fits p L c -> q_fn _ _ _ q = Some f -> wonders St A Y q find given -> q_cores _ _ _ q = 1%nat -> q_dump _ _ _ q = None -> uncached St A Y q w ->
    each_once N L (map (coming Or ahead L) (starts Or p (q_n _ _ _ q) (b_st _ _ w))) ->
    qnat c / qnat N < chance p given ->
    exists x, fst (bayesnet St A Y (fun _ => run Or p) wire q w) = Ok (OMean A Y (PFlt (Fin x))) /\
      Qabs (x - chance p (fun a => given a && find a) / chance p given) <= 2 * (qnat c / qnat N) / (chance p given - qnat c / qnat N).
  Proof.
    intros F Q1 Q2 Q3 Q4 Q5 Eo Lt. destruct (runs_are_calls p L c f F (q_n _ _ _ q) (b_st _ _ w)) as (es & s' & C & Le & Cn).
    pose proof (share_of_runs p L c given _ F Eo) as G1. pose proof (share_of_runs p L c (fun a => given a && find a) _ F Eo) as F1.
    rewrite <- Cn in G1, F1.
    destruct (ratio_close _ _ _ _ _ F1 G1 (proj1 (chance_and p find given L c F)) (proj2 (chance_and p find given L c F)) Lt) as [G0 Cl].
    assert (PT : 0 < qnat (N ^ L)) by (apply qnat_pos, Nat.neq_0_lt_0, Nat.pow_nonzero; lia).
    assert (Pc : 0 < qnat (count given es)).
    { assert (qnat (count given es) == qnat (count given es) / qnat (N ^ L) * qnat (N ^ L)) as -> by (field; intros X; rewrite X in PT; now apply Qlt_irrefl in PT).
      apply Qmult_lt_0_compat; auto. }
    rewrite (bayesnet_uncached St A Y (fun _ => run Or p) wire q w f Q1 Q5), (single_core St A Y (fun _ => run Or p) wire q w f es s' Q3 C Le), nodump_outcome by assumption. cbn [fst].
    destruct (wonders_mean q find given es Q2) as (x & -> & X). { unfold qnat in Pc. change 0 with (inject_Z 0) in Pc. rewrite <- Zlt_Qlt in Pc. lia. }
    exists x. split; [reflexivity|]. rewrite X. unfold fraction. fold (qnat (count (fun x0 => given x0 && find x0) es)) (qnat (count given es)).
    assert (E : qnat (count (fun x0 => given x0 && find x0) es) / qnat (count given es) ==
      qnat (count (fun x0 => given x0 && find x0) es) / qnat (N ^ L) / (qnat (count given es) / qnat (N ^ L))).
    { field. split; intros Y0; [rewrite Y0 in PT; now apply Qlt_irrefl in PT|rewrite Y0 in Pc; now apply Qlt_irrefl in Pc]. }
    rewrite E. exact Cl.
  Qed.
  Lemma chance_all {A} (p : prog A) : forall L c, fits p L c -> chance p (fun _ => true) == 1.
  Proof.
    induction p as [a|ch next IH]; intros L c F; cbn [chance]; [reflexivity|]. destruct F as (Pr & L' & c' & -> & -> & F).
    pose proof (law_weights_total ch Pr) as T. rewrite <- T. clear T Pr. unfold total. induction (law ch) as [|[w v] l IHl]; cbn [weigh map fold_right fst]; [reflexivity|].
    rewrite (IHl (fun w0 v0 I => F w0 v0 (or_intror I))), (IH v _ _ (F w v (or_introl eq_refl))). ring.
  Qed.
  Lemma chance_plus {A} (p : prog A) P Q : forall L c, fits p L c ->
    chance p (fun a => P a || Q a) + chance p (fun a => P a && Q a) == chance p P + chance p Q.
  Proof.
    induction p as [a|ch next IH]; intros L c F; cbn [chance]; [destruct (P a), (Q a); cbn; ring|]. destruct F as (Pr & L' & c' & -> & -> & F). clear Pr.
    induction (law ch) as [|[w v] l IHl]; cbn [weigh]; [reflexivity|].
    pose proof (IHl (fun w0 v0 I => F w0 v0 (or_intror I))) as A1. pose proof (IH v _ _ (F w v (or_introl eq_refl))) as A2.
    assert (A3 : w * (chance (next v) (fun a => P a || Q a) + chance (next v) (fun a => P a && Q a)) == w * (chance (next v) P + chance (next v) Q)) by (rewrite A2; reflexivity).
    lra.
  Qed.
  Lemma laws {A} (p : prog A) L c P Q : fits p L c -> 0 <= chance p P <= 1 /\ chance p (fun _ => true) == 1 /\
    chance p (fun a => P a || Q a) + chance p (fun a => P a && Q a) == chance p P + chance p Q.
  Proof. intros F. split; [apply (chance_range p P L c F)|]. split; [apply (chance_all p L c F)|apply (chance_plus p P Q L c F)]. Qed.
  Lemma pick_positive ch k : proper ch -> (k < N)%nat -> 0 < weight ch (pick_of N ch k).
  Proof.
    intros P K. destruct (grid_range N k K) as [G0 G1]. destruct ch as [p|p| |n|l|l].
    - cbn [proper] in P. unfold weight. cbn [law pick_of]. destruct (Qlt_bool _ _) eqn:E; [apply qlt_true in E|apply qlt_false in E]; cbn; lra.
    - cbn [proper] in P. unfold weight. cbn [law pick_of]. destruct (Qlt_bool _ _) eqn:E; [apply qlt_true in E|apply qlt_false in E]; cbn; lra.
    - unfold weight. cbn [law pick_of]. destruct (Nat.eqb _ _); reflexivity.
    - cbn [proper] in P. pose proof (pick_bound N (CDie n) k P K) as B. unfold weight. pose proof (nth_In (law (CDie n)) (0, PNone) B) as I.
      apply (in_map_iff (fun i => (1 / qnat n, PInt (Z.of_nat i))) (seq 1 n)) in I as (i & <- & _). cbn [fst]. apply Qlt_shift_div_l; [apply qnat_pos; lia|lra].
    - pose proof (pick_bound N (CDiscrete l) k P K) as B. cbn [proper] in P. destruct P as (_ & P & _). unfold weight. pose proof (nth_In (law (CDiscrete l)) (0, PNone) B) as I.
      unfold positive in P. rewrite Forall_forall in P. apply P, in_map, I.
    - pose proof (pick_bound N (CAmong l) k P K) as B. cbn [proper] in P. unfold weight. pose proof (nth_In (law (CAmong l)) (0, PNone) B) as I.
      apply (in_map_iff (fun v => (1 / qnat (length l), v)) l) in I as (i & <- & I). cbn [fst]. apply Qlt_shift_div_l; [apply qnat_pos; destruct l; [destruct I|cbn; lia]|lra].
  Qed.
  Lemma run_total {A} (p : prog A) L c s : fits p L c -> exists a s', run Or p s = (Ok a, s') /\ possible p a.
  Proof.
    revert L c s. induction p as [a|ch next IH]; intros L c s F; [exists a, s; split; reflexivity|].
    destruct F as (Pr & L' & c' & -> & -> & F). pose proof (make_follow ch s Pr) as M. cbn [run possible]. unfold bindS. destruct (single ch) eqn:Sg.
    - rewrite M. unfold single in Sg. apply Nat.eqb_eq in Sg. pose proof (law_weights_total ch Pr) as T. destruct (law ch) as [|[w v] [|]] eqn:El; try discriminate Sg. cbn [nth snd].
      destruct (IH v L' c' s (F w v (or_introl eq_refl))) as (a & s' & E & P). exists a, s'. split; [exact E|]. exists w, v. split; [now left|]. split; [cbn in T; lra|exact P].
    - destruct M as (s1 & -> & A1). pose proof (nth_In (law ch) (0, PNone) (pick_bound N ch (ahead (rng s) 0) Pr (rd_b _ _))) as I.
      pose proof (pick_positive ch (ahead (rng s) 0) Pr (rd_b _ _)) as W. unfold value_of. unfold weight in W. destruct (nth _ (law ch) _) as [w v]. cbn [fst snd] in *.
      destruct (IH v L' c' s1 (F w v I)) as (a & s' & E & P). exists a, s'. split; [exact E|]. exists w, v. auto.
  Qed.
End Runs.
