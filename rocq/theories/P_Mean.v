(** The mean of a mixture of numbers (C152). *)
From Coq Require Import Qabs Lqa Lia.
From Verif Require Import Base SpecWeights SpecMixture SpecShare P_Share P_DiceShare.
Open Scope Q_scope.

Lemma sum_to_ext f g n : (forall i, (i < n)%nat -> f i == g i) -> sum_to f n == sum_to g n.
Proof. induction n as [|n IH]; intros H; cbn [sum_to]; [reflexivity|]. rewrite IH by (intros; apply H; lia). rewrite (H n) by lia. reflexivity. Qed.
Lemma sum_to_add f g n : sum_to (fun i => f i + g i) n == sum_to f n + sum_to g n.
Proof. induction n as [|n IH]; cbn [sum_to]; [ring|]. rewrite IH. ring. Qed.
Lemma sum_to_zero n : sum_to (fun _ => 0) n == 0.
Proof. induction n as [|n IH]; cbn [sum_to]; [reflexivity|]. rewrite IH. ring. Qed.
Lemma sum_to_one f n j : (j < n)%nat -> sum_to (fun i => if Nat.eqb j i then f i else 0) n == f j.
Proof.
  induction n as [|n IH]; intros H; [lia|]. cbn [sum_to]. destruct (Nat.eqb_spec j n) as [->|N].
  - rewrite (sum_to_ext _ (fun _ => 0)); [rewrite sum_to_zero; ring|]. intros i L. destruct (Nat.eqb_spec n i); [lia|reflexivity].
  - rewrite IH by lia. ring.
Qed.
Lemma sum_to_abs f n : Qabs (sum_to f n) <= sum_to (fun i => Qabs (f i)) n.
Proof. induction n as [|n IH]; cbn [sum_to]; [apply Qle_refl|]. pose proof (Qabs_triangle (sum_to f n) (f n)). lra. Qed.
Lemma sum_to_le f g n : (forall i, (i < n)%nat -> f i <= g i) -> sum_to f n <= sum_to g n.
Proof. induction n as [|n IH]; intros H; cbn [sum_to]; [apply Qle_refl|]. pose proof (H n ltac:(lia)). assert (sum_to f n <= sum_to g n) by (apply IH; intros; apply H; lia). lra. Qed.
Lemma sum_to_scale c f n : sum_to (fun i => c * f i) n == c * sum_to f n.
Proof. induction n as [|n IH]; cbn [sum_to]; [ring|]. rewrite IH. ring. Qed.

Definition hits (p : nat -> nat) (i N : nat) : nat := length (filter (fun k => Nat.eqb (p k) i) (seq 0 N)).
Lemma hits_S p i N : hits p i (S N) = (hits p i N + (if Nat.eqb (p N) i then 1 else 0))%nat.
Proof. unfold hits. rewrite seq_S, filter_app, app_length. simpl. destruct (Nat.eqb (p N) i); reflexivity. Qed.
Lemma by_component p (v : nat -> Q) L N : (forall k, (k < N)%nat -> (p k < L)%nat) ->
  sum_to (fun k => v (p k)) N == sum_to (fun i => v i * qnat (hits p i N)) L.
Proof.
  induction N as [|N IH]; intros H.
  - cbn [sum_to]. rewrite (sum_to_ext _ (fun _ => 0)); [now rewrite sum_to_zero|]. intros i _. change (qnat (hits p i 0)) with 0. ring.
  - cbn [sum_to]. rewrite IH by (intros; apply H; lia). rewrite <- (sum_to_one v L (p N)) by (apply H; lia). rewrite <- sum_to_add.
    apply sum_to_ext. intros i _. rewrite hits_S. destruct (Nat.eqb (p N) i).
    + rewrite Nat.add_1_r, qnat_S. ring.
    + rewrite Nat.add_0_r. ring.
Qed.
Lemma hits_share ws N p i : nonneg ws -> total ws == 1 -> (0 < N)%nat -> (i < length ws)%nat ->
  (forall k, (k < N)%nat -> falls ws (grid N k) (p k)) ->
  Qabs (qnat (hits p i N) - nth i ws 0 * qnat N) <= 1.
Proof.
  intros W0 W1 NP Hi H. destruct (share ws N W0 W1 NP i Hi) as (c & C & B).
  assert (hits p i N = c) as ->; [|exact B]. eapply counted_unique; [|exact C].
  exists (filter (fun k => Nat.eqb (p k) i) (seq 0 N)). split; [apply NoDup_filter, seq_NoDup|]. split; [|reflexivity].
  intros k. rewrite filter_In, in_seq, Nat.eqb_eq. unfold selects. split.
  - intros [L <-]. split; [lia|]. apply H. lia.
  - intros [L F]. split; [lia|]. eapply falls_unique; eauto.
Qed.
Lemma mean_of_constants ws vs N p : nonneg ws -> total ws == 1 -> (0 < N)%nat -> length vs = length ws ->
  (forall k, (k < N)%nat -> falls ws (grid N k) (p k)) ->
  Qabs (sum_to (fun k => nth (p k) vs 0) N - weighted ws vs * qnat N) <= sum_to (fun i => Qabs (nth i vs 0)) (length vs).
Proof.
  intros W0 W1 NP L H.
  rewrite (by_component p (fun i => nth i vs 0) (length ws) N) by (intros k Hk; apply (H k Hk)).
  unfold weighted. rewrite Qmult_comm, <- sum_to_scale. unfold Qminus.
  assert (- sum_to (fun i => qnat N * (nth i ws 0 * nth i vs 0)) (length ws) == sum_to (fun i => (-(1)) * (qnat N * (nth i ws 0 * nth i vs 0))) (length ws)) as ->
    by (etransitivity; [|symmetry; apply sum_to_scale]; ring).
  rewrite <- sum_to_add, L. eapply Qle_trans; [apply sum_to_abs|]. apply sum_to_le. intros i Hi.
  pose proof (hits_share ws N p i W0 W1 NP Hi H) as B.
  assert (nth i vs 0 * qnat (hits p i N) + - (1) * (qnat N * (nth i ws 0 * nth i vs 0)) == nth i vs 0 * (qnat (hits p i N) - nth i ws 0 * qnat N)) as -> by ring.
  rewrite Qabs_Qmult. rewrite <- (Qmult_1_r (Qabs (nth i vs 0))) at 2. rewrite !(Qmult_comm (Qabs (nth i vs 0))). apply Qmult_le_compat_r; auto. apply Qabs_nonneg.
Qed.

From Verif Require Import M_Weights M_Pick M_Values M_Sampler SpecSampler P_Weights P_Pick P_Mixture P_Ops.
Section Sampled.
  Variable Or : oracle.
  Hypothesis RL : right_length Or.
  Definition numbers (vs : list Q) : list (obj (G Or)) := map (fun v => OLit (PFlt (Fin v))) vs.
  Lemma sampled_mean ws vs N (s : nat -> state (G Or)) : ready ws vs -> total ws == 1 -> (2 <= length vs)%nat -> (0 < N)%nat ->
    (forall k, (k < N)%nat -> exists g, drawf Or (RUniform 0 1) 1 (rng (s k)) = (Ok [grid N k], g)) ->
    exists xs : nat -> Q,
      (forall k, (k < N)%nat ->
        fst (smp Or (ODist (DMixture ws (map (fun v => OLit (PFlt (Fin v))) vs) None None)) 1 None None (s k)) = Ok (Scalar (PFlt (Fin (xs k))))) /\
      Qabs (sum_to xs N - weighted ws vs * qnat N) <= sum_to (fun i => Qabs (nth i vs 0)) (length vs).
  Proof.
    intros R W1 L2 NP D. pose proof R as (L & W0 & T1 & T2). pose proof (positive_nn ws W0) as NN.
    assert (ready ws (numbers vs)) as R' by (unfold ready, numbers; rewrite map_length; exact R).
    set (p := fun k => match small_pick ws (grid N k) with Ok i => i | Err _ => 0%nat end).
    assert (ws <> []) as NE by (intros ->; simpl in L; lia).
    assert (forall k, falls ws (grid N k) (p k)) as F.
    { intros k. unfold p. destruct (small_pick_total ws (grid N k) NE) as (i & E & _). rewrite E. now apply falls_small. }
    exists (fun k => nth (p k) vs 0). split.
    - intros k Hk. destruct (D k Hk) as (g & Dk).
      assert (nth_error (numbers vs) (p k) = Some (OLit (PFlt (Fin (nth (p k) vs 0))))) as Ne.
      { unfold numbers. rewrite nth_error_map. rewrite (nth_error_nth' vs 0); [reflexivity|]. rewrite <- L. apply (F k). }
      fold (numbers vs). rewrite (proj2 (one_sample Or RL ws (numbers vs) (s k) (grid N k) g (p k) _ (PFlt (Fin (nth (p k) vs 0))) (mkState g (corr (s k))) R' ltac:(unfold numbers; rewrite map_length; auto) Dk (F k) Ne)); [reflexivity|].
      rewrite sample_lit by auto. reflexivity.
    - apply mean_of_constants; auto.
  Qed.
End Sampled.
