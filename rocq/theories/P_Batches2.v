(** Samples drawn in batches: a generator that reads a tape, and counterexamples (C198). *)
From Coq Require Import Qabs Lia Lqa.
From Verif Require Import Base M_Weights M_Values M_Sampler M_SampleApi M_Bayesnet SpecWeights SpecSampler SpecMixture SpecBayes SpecShare SpecBatches P_Batches Props_Indep Props_PctNear.
From Verif Require Import SpecProgram SpecLarge SpecIndep SpecColumns.
Open Scope Q_scope.

Lemma tape_steady N : steady (tape_oracle N).
Proof.
  assert (SH : forall n g i, tape_ahead N (skipn n g) i = tape_ahead N g (n + i)%nat).
  { intros n g i. unfold tape_ahead. f_equal. revert g. induction n as [|n IH]; intros g; [reflexivity|]. destruct g; [destruct i; cbn; [reflexivity|]; now destruct (n + S i)%nat|apply IH]. }
  assert (SK : forall n m (g : list nat), skipn m (skipn n g) = skipn (n + m) g).
  { intros n m g. revert g. induction n as [|n IH]; intros g; [reflexivity|]. destruct g; [destruct m; reflexivity|apply IH]. }
  assert (MA : forall A (f : nat -> A) n m g (h : list nat -> nat -> A), (forall i, f i = h g i) -> (forall i, h (skipn n g) i = h g (n + i)%nat) ->
             map f (seq 0 (n + m)) = map (h g) (seq 0 n) ++ map (h (skipn n g)) (seq 0 m)).
  { intros A f n m g h E Hh. rewrite seq_app, map_app. f_equal; [apply map_ext; exact E|]. cbn [Nat.add]. rewrite (map_ext _ (fun i => h g (n + i)%nat) Hh).
    assert (X : seq n m = map (fun i => (n + i)%nat) (seq 0 m)).
    { clear. replace n with (n + 0)%nat at 1 by lia. generalize 0%nat. induction m as [|m IH]; intros k; [reflexivity|]. cbn [seq map]. f_equal. rewrite <- IH. f_equal. lia. }
    rewrite X, map_map. apply map_ext. intros i. apply E. }
  split.
  - intros r n m g xs g1 ys g2 A B. cbn in A, B |- *. inversion A; inversion B; subst. rewrite SK. do 2 f_equal.
    apply (MA _ _ n m g (fun g i => grid N (tape_ahead N g i))); [reflexivity|]. intros i. now rewrite SH.
  - intros r n m g xs g1 ys g2 A B. destruct r; try discriminate. cbn in A, B |- *. inversion A; inversion B; subst. rewrite SK. do 2 f_equal.
    apply (MA _ _ n m g (fun g i => (lo + Z.of_nat (tape_ahead N g i) * (hi - lo) / Z.of_nat N)%Z)); [reflexivity|]. intros i. now rewrite SH.
Qed.
Lemma tape_length N : right_length (tape_oracle N).
Proof. split; intros r n g l g' H; cbn in H; [|destruct r; try discriminate]; inversion H; now rewrite map_length, seq_length. Qed.

Definition die_or_zero : dexp := XMix [(1#2, die4); (1#2, XNum 0)].
Lemma sums_differ :
  exists Or e n m s, right_length Or /\ steady Or /\ sound e /\ ~ continues Or (obj_of e) n m s.
Proof.
  exists (tape_oracle 4), (XOp BSum die4 die4), 1%nat, 1%nat, (tape_state 4 [0; 0; 3; 3]%nat).
  split; [apply tape_length|]. split; [apply tape_steady|]. split.
  { assert (S : sound die4) by (split; [cbn; lia|]; split; [discriminate|]; intros w v I; vm_compute in I; repeat (destruct I as [I|I]; [inversion I; reflexivity|]); destruct I). split; exact S. }
  intros H. unfold continues in H.
  destruct (smp (tape_oracle 4) (obj_of (XOp BSum die4 die4)) 1 None None (tape_state 4 [0; 0; 3; 3]%nat)) as [[v|e] s1] eqn:A; [|vm_compute in A; discriminate].
  destruct (smp (tape_oracle 4) (obj_of (XOp BSum die4 die4)) 1 None None s1) as [[w|e] s2] eqn:B; [|vm_compute in A; inversion A; subst; vm_compute in B; discriminate].
  destruct (H _ _ _ _ eq_refl B) as (u & U & E). vm_compute in A. inversion A; subst. vm_compute in B. inversion B; subst. vm_compute in U. inversion U; subst. vm_compute in E. discriminate.
Qed.
Lemma beyond_differ :
  exists Or e n m s, right_length Or /\ steady Or /\ sound e /\ (n <= 100)%nat /\ (m <= 100)%nat /\ ~ continues Or (obj_of e) n m s.
Proof.
  exists (tape_oracle 4), die_or_zero, 100%nat, 1%nat, (tape_state 4 (seq 0 300)).
  split; [apply tape_length|]. split; [apply tape_steady|]. split.
  { assert (S : sound die4) by (split; [cbn; lia|]; split; [discriminate|]; intros w v I; vm_compute in I; repeat (destruct I as [I|I]; [inversion I; reflexivity|]); destruct I).
    split; [cbn; lia|]. split; [repeat constructor|]. split; [reflexivity|]. split; [exact S|]. split; [exact I|exact I]. }
  split; [lia|]. split; [lia|]. intros H. unfold continues in H.
  destruct (smp (tape_oracle 4) (obj_of die_or_zero) 100 None None (tape_state 4 (seq 0 300))) as [[v|e] s1] eqn:A; [|vm_compute in A; discriminate].
  destruct (smp (tape_oracle 4) (obj_of die_or_zero) 1 None None s1) as [[w|e] s2] eqn:B; [|vm_compute in A; inversion A; subst; vm_compute in B; discriminate].
  destruct (H _ _ _ _ eq_refl B) as (u & U & E). vm_compute in A. inversion A; subst. vm_compute in B. inversion B; subst. vm_compute in U. inversion U; subst. vm_compute in E. discriminate.
Qed.
