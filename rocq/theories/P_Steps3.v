(** What crashed or concurrent multicore calls do to others. *)
From Coq Require Import Lia Arith.
From Verif Require Import Base M_Steps SpecSteps P_Steps.
Open Scope nat_scope.

Lemma kept_reads {V} (r : run V) d vs v l o : 1 <= r_cores r -> r_kind r = Msg -> reads (r_cores r) d vs ->
  r_batch r (pred (r_cores r)) = Ok v -> ends r l d o -> o = Returned vs.
Proof.
  intros C K R B H. apply ends_result in H; auto. eapply result_fun; [exact H|].
  unfold result. rewrite B. left. exists vs. split; auto. unfold reads in *.
  eapply forall2_imp; [|exact R]. cbv beta. intros k x _ E. unfold left_behind. now rewrite K, E.
Qed.

Section Stuck.
  Context {V : Type}.
  Variables (runs : nat -> run V) (a k : nat).
  Hypothesis M : forall i, r_area (runs i) = a -> r_kind (runs i) = Msg.

  Definition harmless (r : run V) (p : progress V) : Prop :=
    p_task p k <> TOpen /\ p_task p k <> TWrite /\
    match p_parent p with
    | PWait => True
    | PRead j _ => k < r_cores r -> j <= k
    | PRemove j _ => j < r_cores r /\ j <> k /\ (k < r_cores r -> j < k)
    | PEnd (Returned _) => r_cores r <= k
    | PEnd _ => True
    end.
  Definition stays (x : gstate V) : Prop :=
    fst x a k = FPart /\ forall i, r_area (runs i) = a -> harmless (runs i) (snd x i).

  Lemma harmless_step r m d p d' p' : r_kind r = Msg -> d k = FPart -> harmless r p -> step r m d p = Some (d', p') ->
    d' k = FPart /\ harmless r p'.
  Proof.
    intros K D (H1 & H2 & H3) E. destruct m as [j|]; simpl in E.
    - unfold task_step in E. destruct (Nat.ltb_spec j (r_cores r)) as [L|L]; [|discriminate].
      assert (X : forall t, t <> TOpen -> t <> TWrite -> harmless r (set_task p j t)).
      { intros t N1 N2. unfold harmless, set_task. simpl. destruct (Nat.eqb_spec k j); auto. }
      assert (Y : forall t, k <> j -> harmless r (set_task p j t)).
      { intros t N. unfold harmless, set_task. simpl. destruct (Nat.eqb_spec k j); [congruence|auto]. }
      rewrite K in E. destruct (p_task p j) eqn:T; try discriminate.
      + destruct (r_batch r j) as [v|e]; inversion E; subst; split; auto.
        * apply X; discriminate.
        * destruct (own r j); [|apply X; discriminate]. destruct (X TFail) as (A & B & _); try discriminate.
          unfold harmless. simpl in *. auto.
      + inversion E; subst. split; auto. destruct (Nat.eq_dec k j) as [->|N]; [|auto].
        rewrite D. apply X; discriminate.
      + inversion E; subst. assert (N : k <> j) by congruence. split; auto.
        unfold set_slot. destruct (Nat.eqb_spec k j); [congruence|auto].
      + destruct (r_batch r j) as [v|e]; [|discriminate]. inversion E; subst. assert (N : k <> j) by congruence.
        split; auto. unfold set_slot. destruct (Nat.eqb_spec k j); [congruence|auto].
    - unfold parent_step in E. destruct (p_parent p) as [|j acc|j acc|o] eqn:P; [| | |discriminate].
      + destruct (p_task p (pred (r_cores r))); try discriminate. destruct (ready r p); [|discriminate].
        inversion E; subst. split; auto. unfold harmless. simpl. split; [auto|]. split; [auto|]. intros; lia.
      + destruct (Nat.ltb_spec j (r_cores r)) as [L|L].
        * destruct (d j) eqn:Dj; inversion E; subst; (split; [auto|]); unfold harmless; simpl; (split; [auto|]); (split; [auto|]); auto.
          assert (j <> k) by congruence. split; [|split]; auto. intros Hk. specialize (H3 Hk). lia.
        * inversion E; subst. split; auto. unfold harmless; simpl. split; [auto|]. split; [auto|].
          destruct (Nat.le_gt_cases (r_cores r) k) as [|G]; auto. specialize (H3 G). lia.
      + destruct H3 as (A & B & C). destruct (absent (d j)); inversion E; subst; (split; auto).
        * unfold harmless; simpl; auto.
        * unfold set_slot. destruct (Nat.eqb_spec k j); [congruence|auto].
        * unfold harmless; simpl. split; [auto|]. split; [auto|]. intros Hk. specialize (C Hk). lia.
  Qed.

  Lemma stays_step x im : stays x -> stays (gstep1 runs x im).
  Proof.
    intros (D & H). destruct im as [i m]. unfold gstep1.
    destruct (step (runs i) m (fst x (r_area (runs i))) (snd x i)) as [[d p]|] eqn:E; [|split; auto].
    unfold stays. simpl. destruct (Nat.eqb_spec a (r_area (runs i))) as [A|A].
    - rewrite <- A in E. destruct (harmless_step (runs i) m _ _ _ _ (M i (eq_sym A)) D (H i (eq_sym A)) E) as [D' H'].
      split; auto. intros j Aj. destruct (Nat.eqb_spec j i) as [->|N]; auto.
    - split; auto. intros j Aj. destruct (Nat.eqb_spec j i) as [->|N]; [congruence|auto].
  Qed.
  Lemma stays_execute l : forall x, stays x -> stays (gexecute runs l x).
  Proof. induction l as [|im l IH]; intros x H; simpl; auto. apply IH, stays_step, H. Qed.

  Lemma stuck d l : d a k = FPart ->
    fst (gexecute runs l (d, fun _ => begin)) a k = FPart /\
    forall i vs, r_area (runs i) = a -> k < r_cores (runs i) ->
      p_parent (snd (gexecute runs l (d, fun _ => begin)) i) <> PEnd (Returned vs).
  Proof.
    intros D. assert (X : stays (d, fun _ => begin)).
    { split; auto. intros i _. unfold harmless. simpl. split; [|split]; auto; discriminate. }
    apply (stays_execute l) in X. destruct X as [A B]. split; auto.
    intros i vs Ai L E. destruct (B i Ai) as (_ & _ & C). rewrite E in C. lia.
  Qed.
End Stuck.
