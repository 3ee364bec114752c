From Coq Require Import Lia Arith.
From Verif Require Import Base M_Steps SpecSteps.
Open Scope nat_scope.

Lemma reads_snoc {V} n (d : slots V) vs v : reads n d vs -> d n = FWhole v -> reads (S n) d (vs ++ [v]).
Proof.
  intros H K. unfold reads. rewrite seq_S. apply Forall2_app; auto.
Qed.
Lemma reads_all {V} n (d : slots V) : forall vs, reads n d vs -> forall j, j < n -> exists v, d j = FWhole v.
Proof.
  intros vs H j Hj. assert (I : In j (seq 0 n)) by (apply in_seq; lia).
  unfold reads in H. clear Hj. induction H as [|a b l l' A B IH]; [destruct I|]. destruct I as [<-|I]; eauto.
Qed.


Section P.
  Context {V : Type}.
  Variable r : run V.
  Hypothesis Hc : 1 <= r_cores r.
  Variable d0 : slots V.
  Notation fin := (fun k => left_behind r k (d0 k)).

  (** What is known of task [k] and its file while the files are still being made. *)
  Definition task_inv (k : nat) (t : task) (f : file V) : Prop :=
    match t with
    | TStart => f = d0 k
    | TCheck => r_kind r = Msg /\ exists v, r_batch r k = Ok v /\ (f = d0 k \/ (d0 k = FAbsent /\ f = FWhole v))
    | TOpen => f = d0 k /\ (exists v, r_batch r k = Ok v) /\ (r_kind r = Msg -> d0 k = FAbsent)
    | TWrite => (exists v, r_batch r k = Ok v) /\ (r_kind r = Msg -> d0 k = FAbsent)
    | TDone => (exists v, r_batch r k = Ok v) /\ f = left_behind r k (d0 k)
    | TFail => (exists e, r_batch r k = Err e) /\ f = left_behind r k (d0 k)
    end.
  Definition all_ended (p : progress V) : Prop := forall k, k < r_cores r -> ended (p_task p k) = true.
  Definition own_ok : Prop := exists v, r_batch r (pred (r_cores r)) = Ok v.

  Definition inv (x : slots V * progress V) : Prop :=
    let (d, p) := x in
    (forall k, r_cores r <= k -> d k = d0 k) /\
    match p_parent p with
    | PWait => forall k, k < r_cores r -> task_inv k (p_task p k) (d k) /\ (S k = r_cores r -> p_task p k <> TFail)
    | PRead j acc =>
        all_ended p /\ own_ok /\ j <= r_cores r /\ reads j fin acc /\
        (forall k, k < j -> d k = FAbsent) /\ (forall k, j <= k < r_cores r -> d k = fin k)
    | PRemove j acc =>
        all_ended p /\ own_ok /\ j < r_cores r /\ reads (S j) fin acc /\
        (forall k, k < j -> d k = FAbsent) /\ (forall k, j <= k < r_cores r -> d k = fin k)
    | PEnd o =>
        match o with
        | Raised e => r_batch r (pred (r_cores r)) = Err e /\
            (forall k, k < r_cores r -> task_inv k (p_task p k) (d k))
        | Returned vs => all_ended p /\ own_ok /\ reads (r_cores r) fin vs /\ forall k, k < r_cores r -> d k = FAbsent
        | Missing => all_ended p /\ own_ok /\ exists j, first_bad (r_cores r) fin j /\ fin j = FAbsent /\
            (forall k, k < j -> d k = FAbsent) /\ (forall k, j <= k < r_cores r -> d k = fin k)
        | Unreadable => all_ended p /\ own_ok /\ exists j, first_bad (r_cores r) fin j /\ fin j = FPart /\
            (forall k, k < j -> d k = FAbsent) /\ (forall k, j <= k < r_cores r -> d k = fin k)
        end
    end.

  Lemma inv_begin : inv (d0, begin).
  Proof. split; [auto|]. simpl. intros k Hk. split; [reflexivity|discriminate]. Qed.

  Lemma fin_fail k e : r_batch r k = Err e -> fin k = d0 k.
  Proof. intros H. unfold left_behind. rewrite H. destruct (r_kind r), (d0 k); auto. Qed.
  Lemma fin_npy k v : r_kind r = Npy -> r_batch r k = Ok v -> fin k = FWhole v.
  Proof. intros H K. unfold left_behind. now rewrite H, K. Qed.
  Lemma fin_new k v : d0 k = FAbsent -> r_batch r k = Ok v -> fin k = FWhole v.
  Proof. intros H K. unfold left_behind. rewrite H, K. destruct (r_kind r); auto. Qed.
  Lemma fin_old k : r_kind r = Msg -> d0 k <> FAbsent -> fin k = d0 k.
  Proof. intros H K. unfold left_behind. rewrite H. destruct (d0 k); auto. congruence. Qed.

  (** One step of a task while the files are being made. *)
  Lemma task_moves k d p d' p' : k < r_cores r ->
    task_inv k (p_task p k) (d k) -> task_step r k d p = Some (d', p') ->
    task_inv k (p_task p' k) (d' k) /\ (forall j, j <> k -> d' j = d j /\ p_task p' j = p_task p j) .
  Proof.
    intros Hk H. unfold task_step. rewrite (proj2 (Nat.ltb_lt _ _) Hk).
    destruct (p_task p k) eqn:E; simpl in H.
    - destruct (r_batch r k) as [v|e] eqn:B; intros S; inversion S; subst; clear S.
      + simpl. rewrite Nat.eqb_refl. split.
        * destruct (r_kind r) eqn:K; simpl.
          { split; [exact H|]. split; [eauto|intros X; congruence]. }
          { split; [exact K|]. eauto. }
        * intros j J. apply Nat.eqb_neq in J. rewrite J. auto.
      + assert (A : task_inv k TFail (d' k)).
        { simpl. split; eauto. rewrite H. symmetry. apply (fin_fail k e B). }
        destruct (own r k); simpl; rewrite Nat.eqb_refl; (split; [exact A|]);
          intros j J; apply Nat.eqb_neq in J; rewrite J; auto.
    - intros S; inversion S; subst; clear S. simpl. rewrite Nat.eqb_refl. destruct H as (K & v & B & D). split.
      + destruct (absent (d' k)) eqn:A; simpl.
        * destruct (d' k) eqn:F; try discriminate. destruct D as [D|[D D']]; [|discriminate].
          split; auto. split; eauto.
        * split; eauto. destruct D as [D|[D D']].
          { rewrite D in *. symmetry. apply fin_old; auto. intros X. rewrite X in A. discriminate. }
          { rewrite D'. symmetry. now apply fin_new. }
      + intros j J. apply Nat.eqb_neq in J. rewrite J. auto.
    - intros S; inversion S; subst; clear S. unfold set_slot. simpl. rewrite Nat.eqb_refl. destruct H as (A & B & C). split.
      + simpl. auto.
      + intros j J. apply Nat.eqb_neq in J. rewrite J. auto.
    - destruct H as ((v & B) & C). rewrite B. intros S; inversion S; subst; clear S. unfold set_slot. simpl. rewrite Nat.eqb_refl. split.
      + destruct (r_kind r) eqn:K; simpl.
        * split; [eauto|]. symmetry. now apply fin_npy.
        * split; [exact K|]. exists v. split; [exact B|]. right. auto.
      + intros j J. apply Nat.eqb_neq in J. rewrite J. auto.
    - discriminate.
    - discriminate.
  Qed.

  Lemma task_parent k d p d' p' : task_step r k d p = Some (d', p') ->
    p_parent p' = p_parent p \/
    (exists e, S k = r_cores r /\ r_batch r k = Err e /\ p_parent p' = PEnd (Raised e) /\ p_task p k = TStart).
  Proof.
    unfold task_step. destruct (k <? r_cores r); [|discriminate].
    destruct (p_task p k) eqn:E; try discriminate; intros S.
    - destruct (r_batch r k) as [v|e] eqn:B; inversion S; subst; auto.
      destruct (own r k) eqn:O; auto. right. exists e. apply Nat.eqb_eq in O. simpl. auto.
    - inversion S; auto.
    - inversion S; auto.
    - destruct (r_batch r k); inversion S; auto.
  Qed.
  Lemma ended_still k d p : ended (p_task p k) = true -> task_step r k d p = None.
  Proof. unfold task_step. destruct (k <? r_cores r); auto. destruct (p_task p k); simpl; auto; discriminate. Qed.
  Lemma task_small k d p x : task_step r k d p = Some x -> k < r_cores r.
  Proof. unfold task_step. destruct (k <? r_cores r) eqn:E; [|discriminate]. intros _. now apply Nat.ltb_lt. Qed.

  Lemma inv_task k d p x : inv (d, p) -> task_step r k d p = Some x -> inv x.
  Proof.
    intros [Hout Hp] S. destruct x as [d' p']. pose proof (task_small _ _ _ _ S) as Hk.
    pose proof (task_parent _ _ _ _ _ S) as Par.
    assert (Stop : all_ended p -> False).
    { intros A. rewrite (ended_still k d p (A k Hk)) in S. discriminate. }
    assert (G : task_inv k (p_task p k) (d k) -> (forall j, j < r_cores r -> task_inv j (p_task p j) (d j)) ->
       (forall j, j < r_cores r -> task_inv j (p_task p' j) (d' j)) /\ (forall j, r_cores r <= j -> d' j = d0 j)).
    { intros A B. destruct (task_moves k d p d' p' Hk A S) as [X Y]. split.
      - intros j Hj. destruct (Nat.eq_dec j k) as [->|N]; auto. destruct (Y j N) as [-> ->]. auto.
      - intros j Hj. destruct (Y j ltac:(lia)) as [-> _]. auto. }
    destruct (p_parent p) as [|j acc|j acc|o] eqn:P.
    - assert (B : forall j, j < r_cores r -> task_inv j (p_task p j) (d j)) by (intros j Hj; apply (Hp j Hj)).
      destruct (G (B k Hk) B) as [G1 G2]. split; auto.
      destruct Par as [Ep|(e & Ke & Be & -> & _)].
      + rewrite Ep. intros j Hj. split; auto. intros J T.
        specialize (G1 j Hj). rewrite T in G1. destruct G1 as [(e & Be) _].
        (* the own task failed without ending the call *)
        unfold task_step in S. rewrite (proj2 (Nat.ltb_lt _ _) Hk) in S.
        destruct (Nat.eq_dec j k) as [->|N].
        * destruct (p_task p k) eqn:E; try discriminate.
          { rewrite Be in S. unfold own in S. rewrite (proj2 (Nat.eqb_eq _ _) J) in S. inversion S; subst. simpl in *. congruence. }
          { inversion S; subst. simpl in T. rewrite Nat.eqb_refl in T. destruct (absent (d' k)); discriminate. }
          { inversion S; subst. simpl in T. rewrite Nat.eqb_refl in T. discriminate. }
          { rewrite Be in S. discriminate. }
        * destruct (Hp j Hj) as [_ Q]. apply (Q J). rewrite <- T.
          pose proof (B k Hk) as Bk.
          assert (X : forall i, i <> k -> p_task p' i = p_task p i).
          { clear - S. intros i N. apply Nat.eqb_neq in N.
            destruct (p_task p k); try discriminate.
            - destruct (r_batch r k); inversion S; subst; simpl; [now rewrite N|]. destruct (own r k); simpl; now rewrite N.
            - inversion S; subst; simpl; now rewrite N.
            - inversion S; subst; simpl; now rewrite N.
            - destruct (r_batch r k); inversion S; subst; simpl; now rewrite N. }
          symmetry. auto.
      + assert (pred (r_cores r) = k) as -> by lia. split; auto.
    - destruct Hp as (A & _). destruct (Stop A).
    - destruct Hp as (A & _). destruct (Stop A).
    - destruct o as [vs|e| |]; try (destruct Hp as (A & _); destruct (Stop A)).
      destruct Hp as [Be B]. destruct (G (B k Hk) B) as [G1 G2]. split; auto.
      destruct Par as [->|(e' & Ke & Be' & -> & _)]; [split; auto|].
      assert (pred (r_cores r) = k) as Q by lia. rewrite Q in *. split; [congruence|]. auto.
  Qed.

  Lemma inv_parent d p x : inv (d, p) -> parent_step r d p = Some x -> inv x.
  Proof.
    intros [Hout Hp] S. unfold parent_step in S. destruct (p_parent p) as [|j acc|j acc|o] eqn:P; [| | |discriminate].
    - destruct (p_task p (pred (r_cores r))) eqn:T; try discriminate. destruct (ready r p) eqn:R; [|discriminate].
      inversion S; subst; clear S. split; auto. simpl.
      assert (A : all_ended p).
      { intros k Hk. unfold ready in R. rewrite forallb_forall in R.
        destruct (Nat.eq_dec k (pred (r_cores r))) as [->|N]; [now rewrite T|]. apply R. apply in_seq. lia. }
      destruct (Hp (pred (r_cores r)) ltac:(lia)) as [O _]. rewrite T in O. destruct O as [O _].
      split; [exact A|]. split; [exact O|]. split; [lia|]. split; [constructor|]. split; [lia|].
      intros k Hk. destruct (Hp k ltac:(lia)) as [I _]. specialize (A k ltac:(lia)).
      destruct (p_task p k); try discriminate; apply I.
    - destruct Hp as (A & O & L & R & D1 & D2). destruct (j <? r_cores r) eqn:J.
      + apply Nat.ltb_lt in J. destruct (d j) eqn:F; inversion S; subst; clear S; (split; [exact Hout|]); simpl.
        * split; [exact A|]. split; [exact O|]. exists j. assert (E := D2 j ltac:(lia)). rewrite F in E.
          split; [|split; [auto|split; auto]]. split; [exact J|]. split; [intros i Hi; exact (reads_all j (fun k => left_behind r k (d0 k)) acc R i Hi)|].
          intros v Hv. rewrite <- E in Hv. discriminate.
        * split; [exact A|]. split; [exact O|]. exists j. assert (E := D2 j ltac:(lia)). rewrite F in E.
          split; [|split; [auto|split; auto]]. split; [exact J|]. split; [intros i Hi; exact (reads_all j (fun k => left_behind r k (d0 k)) acc R i Hi)|].
          intros w Hv. rewrite <- E in Hv. discriminate.
        * split; [exact A|]. split; [exact O|]. split; [exact J|]. split; [|split; auto].
          apply reads_snoc; auto. rewrite <- (D2 j ltac:(lia)). exact F.
      + apply Nat.ltb_ge in J. inversion S; subst; clear S. split; [exact Hout|]. simpl.
        assert (j = r_cores r) as -> by lia. auto.
    - destruct Hp as (A & O & L & R & D1 & D2).
      assert (W : exists v, d j = FWhole v).
      { rewrite (D2 j ltac:(lia)). exact (reads_all (Datatypes.S j) (fun k => left_behind r k (d0 k)) acc R j (Nat.lt_succ_diag_r j)). }
      destruct W as (v & W). rewrite W in S. simpl in S. inversion S; subst; clear S. split.
      + intros k Hk. unfold set_slot. rewrite (proj2 (Nat.eqb_neq k j)) by lia. auto.
      + simpl. split; [exact A|]. split; [exact O|]. split; [lia|]. split; [exact R|]. unfold set_slot. split.
        * intros k Hk. destruct (Nat.eqb_spec k j); auto. apply D1. lia.
        * intros k Hk. rewrite (proj2 (Nat.eqb_neq k j)) by lia. apply D2. lia.
  Qed.

  Lemma inv_step m d p x : inv (d, p) -> step r m d p = Some x -> inv x.
  Proof. destruct m; simpl; [apply inv_task|apply inv_parent]. Qed.
  Lemma inv_execute l : forall x, inv x -> inv (execute r l x).
  Proof.
    induction l as [|m l IH]; intros [d p] H; simpl; auto. apply IH. unfold step1. simpl.
    destruct (step r m d p) eqn:E; auto. eapply inv_step; eauto.
  Qed.

  Lemma inv_result d p o : inv (d, p) -> p_parent p = PEnd o -> result r d0 o.
  Proof.
    intros [_ H] E. rewrite E in H. unfold result.
    destruct o as [vs|e| |].
    - destruct H as (_ & (v & ->) & R & _). left. eauto.
    - destruct H as [-> _]. reflexivity.
    - destruct H as (_ & (v & ->) & j & F & A & _). right. left. eauto.
    - destruct H as (_ & (v & ->) & j & F & A & _). right. right. eauto.
  Qed.
  Lemma ends_result l o : ends r l d0 o -> result r d0 o.
  Proof.
    unfold ends. intros H. pose proof (inv_execute l _ inv_begin) as I.
    destruct (execute r l (d0, begin)) as [d p]. exact (inv_result d p o I H).
  Qed.
  Lemma ends_clean l vs : ends r l d0 (Returned vs) ->
    forall k, fst (execute r l (d0, begin)) k = if k <? r_cores r then FAbsent else d0 k.
  Proof.
    unfold ends. intros H k. pose proof (inv_execute l _ inv_begin) as I.
    destruct (execute r l (d0, begin)) as [d p]. simpl in *. rewrite H in I. destruct I as (O & _ & _ & _ & C).
    destruct (Nat.ltb_spec k (r_cores r)); auto.
  Qed.

  (** At rest the call has ended. *)
  Lemma rest_ended x : inv x -> at_rest r x -> exists o, p_parent (snd x) = PEnd o.
  Proof.
    destruct x as [d p]. intros [_ H] A. simpl. destruct (p_parent p) as [|j acc|j acc|o] eqn:P; [| | |eauto].
    - exfalso. assert (T : forall k, k < r_cores r -> ended (p_task p k) = true).
      { intros k Hk. specialize (A (Task k)). simpl in A. unfold task_step in A. rewrite (proj2 (Nat.ltb_lt _ _) Hk) in A.
        destruct (H k Hk) as [I _]. destruct (p_task p k); auto; try discriminate.
        - destruct (r_batch r k); discriminate.
        - destruct I as ((v & B) & _). rewrite B in A. discriminate. }
      specialize (A Parent). simpl in A. unfold parent_step in A. rewrite P in A.
      pose proof (T (pred (r_cores r)) ltac:(lia)) as O. destruct (H (pred (r_cores r)) ltac:(lia)) as [_ F].
      destruct (p_task p (pred (r_cores r))); try discriminate; [|apply F; auto; lia].
      assert (R : ready r p = true).
      { unfold ready. apply forallb_forall. intros k Hk. apply in_seq in Hk. apply T. lia. }
      rewrite R in A. discriminate.
    - exfalso. specialize (A Parent). simpl in A. unfold parent_step in A. rewrite P in A.
      destruct (j <? r_cores r); [destruct (d j)|]; discriminate.
    - exfalso. specialize (A Parent). simpl in A. unfold parent_step in A. rewrite P in A. destruct (absent (d j)); discriminate.
  Qed.

  (* ---------------------------------------------------------------- *)
  (** Every schedule makes boundedly many steps. *)
  Definition task_left (t : task) (f : file V) : nat :=
    match t with
    | TStart => 5
    | TCheck => match f with FAbsent => 4 | _ => 1 end
    | TOpen => 3
    | TWrite => 2
    | TDone | TFail => 0
    end.
  Definition parent_left (q : parent V) : nat :=
    match q with
    | PWait => 2 * r_cores r + 2
    | PRead k _ => 2 * (r_cores r - k) + 1
    | PRemove k _ => 2 * (r_cores r - k)
    | PEnd _ => 0
    end.
  Fixpoint sum_to (n : nat) (f : nat -> nat) : nat := match n with O => 0 | S n' => sum_to n' f + f n' end.
  Definition steps_left (x : slots V * progress V) : nat :=
    sum_to (r_cores r) (fun k => task_left (p_task (snd x) k) (fst x k)) + parent_left (p_parent (snd x)).

  Lemma sum_ext n f g : (forall k, k < n -> f k = g k) -> sum_to n f = sum_to n g.
  Proof. induction n; simpl; intros H; auto. rewrite IHn, (H n); auto. Qed.
  Lemma sum_less n f g k : k < n -> g k < f k -> (forall j, j < n -> j <> k -> g j = f j) -> sum_to n g < sum_to n f.
  Proof.
    induction n; simpl; intros K L E; [lia|]. destruct (Nat.eq_dec k n) as [->|N].
    - rewrite (sum_ext n g f); [lia|]. intros j Hj. apply E; lia.
    - rewrite (E n) by lia. assert (sum_to n g < sum_to n f); [|lia]. apply IHn; auto. lia.
  Qed.
  Lemma task_less k d p d' p' : inv (d, p) -> task_step r k d p = Some (d', p') ->
    task_left (p_task p' k) (d' k) < task_left (p_task p k) (d k) /\
    (forall j, j <> k -> p_task p' j = p_task p j /\ d' j = d j).
  Proof.
    intros [_ I] S. pose proof (task_small _ _ _ _ S) as Hk. unfold task_step in S. rewrite (proj2 (Nat.ltb_lt _ _) Hk) in S.
    destruct (p_task p k) eqn:T; try discriminate.
    - destruct (r_batch r k); inversion S; subst; clear S.
      + simpl. rewrite Nat.eqb_refl. split; [destruct (r_kind r); simpl; [lia|destruct (d' k); lia]|].
        intros j N. apply Nat.eqb_neq in N. now rewrite N.
      + destruct (own r k); simpl; rewrite Nat.eqb_refl; (split; [simpl; lia|]);
          intros j N; apply Nat.eqb_neq in N; now rewrite N.
    - inversion S; subst; clear S. simpl. rewrite Nat.eqb_refl. split.
      + destruct (d' k); simpl; lia.
      + intros j N. apply Nat.eqb_neq in N. now rewrite N.
    - inversion S; subst; clear S. unfold set_slot. simpl. rewrite Nat.eqb_refl. split; [simpl; lia|].
      intros j N. apply Nat.eqb_neq in N. now rewrite N.
    - destruct (r_batch r k); inversion S; subst; clear S. unfold set_slot. simpl. rewrite Nat.eqb_refl. split.
      + destruct (r_kind r); simpl; lia.
      + intros j N. apply Nat.eqb_neq in N. now rewrite N.
  Qed.
  Lemma step_less m x y : inv x -> step r m (fst x) (snd x) = Some y -> steps_left y < steps_left x.
  Proof.
    destruct x as [d p], y as [d' p']. simpl. intros I S. unfold steps_left. simpl. destruct m as [k|]; simpl in S.
    - destruct (task_less k d p d' p' I S) as [L E]. pose proof (task_small _ _ _ _ S) as Hk.
      assert (parent_left (p_parent p') <= parent_left (p_parent p)).
      { destruct (task_parent _ _ _ _ _ S) as [->|(e & _ & _ & -> & _)]; simpl; lia. }
      assert (sum_to (r_cores r) (fun k => task_left (p_task p' k) (d' k)) <
              sum_to (r_cores r) (fun k => task_left (p_task p k) (d k))); [|lia].
      apply (sum_less _ _ _ k); auto. intros j _ N. destruct (E j N) as [-> ->]. reflexivity.
    - assert (A : p_task p' = p_task p /\ parent_left (p_parent p') < parent_left (p_parent p)).
      { unfold parent_step in S. destruct I as [_ I]. destruct (p_parent p) as [|j acc|j acc|o] eqn:P; [| | |discriminate].
        - destruct (p_task p (pred (r_cores r))); try discriminate. destruct (ready r p); inversion S; subst. simpl. split; auto. lia.
        - destruct I as (_ & _ & L & _). destruct (j <? r_cores r) eqn:J.
          + apply Nat.ltb_lt in J. destruct (d j); inversion S; subst; simpl; split; auto; lia.
          + inversion S; subst. simpl. split; auto. lia.
        - destruct I as (_ & _ & L & _). destruct (absent (d j)); inversion S; subst; simpl; split; auto; lia. }
      destruct A as [A B].
      assert (sum_to (r_cores r) (fun k => task_left (p_task p' k) (d' k)) <=
              sum_to (r_cores r) (fun k => task_left (p_task p k) (d k))); [|lia].
      assert (C : forall k, k < r_cores r -> task_left (p_task p' k) (d' k) = task_left (p_task p k) (d k)).
      { intros k Hk. rewrite A. unfold parent_step in S. destruct I as [_ I].
        destruct (p_parent p) as [|j acc|j acc|o] eqn:P; [| | |discriminate].
        - destruct (p_task p (pred (r_cores r))); try discriminate. destruct (ready r p); inversion S; subst. reflexivity.
        - destruct (j <? r_cores r); [destruct (d j)|]; inversion S; subst; reflexivity.
        - destruct I as (AE & _). specialize (AE k Hk). destruct (p_task p k); try discriminate; reflexivity. }
      rewrite (sum_ext _ _ _ C). lia.
  Qed.
  Lemma moves_bound l : forall x, inv x -> moves r l x <= steps_left x.
  Proof.
    induction l as [|m l IH]; intros x I; simpl; [lia|].
    destruct (step r m (fst x) (snd x)) as [y|] eqn:E; auto.
    pose proof (step_less m x y I E). assert (J : inv y) by (destruct x; eapply inv_step; eauto). specialize (IH y J). lia.
  Qed.
  Lemma sum_const n f c : (forall k, k < n -> f k = c) -> sum_to n f = n * c.
  Proof. induction n; simpl; intros H; auto. rewrite IHn, (H n); auto. lia. Qed.
  Lemma moves_total l : moves r l (d0, begin) <= 7 * r_cores r + 2.
  Proof.
    etransitivity; [apply moves_bound, inv_begin|]. unfold steps_left. simpl fst. simpl snd.
    rewrite (sum_const _ _ 5) by (intros; reflexivity). simpl. lia.
  Qed.

  (** Some schedule brings every run to rest. *)
  Lemma can_rest : forall n x, inv x -> steps_left x <= n -> exists l, at_rest r (execute r l x).
  Proof.
    induction n as [n IH] using lt_wf_ind. intros x I L.
    assert (D : at_rest r x \/ exists m y, step r m (fst x) (snd x) = Some y).
    { assert (T : (exists k y, k < r_cores r /\ task_step r k (fst x) (snd x) = Some y) \/
                  forall k, k < r_cores r -> task_step r k (fst x) (snd x) = None).
      { generalize (r_cores r). intros c. induction c as [|c [(k & y & Hk & E)|N]].
        - right. intros k Hk. lia.
        - left. exists k, y. split; [lia|auto].
        - destruct (task_step r c (fst x) (snd x)) as [y|] eqn:E.
          + left. exists c, y. split; [lia|auto].
          + right. intros k Hk. destruct (Nat.eq_dec k c) as [->|]; auto. apply N. lia. }
      destruct T as [(k & y & _ & E)|T]; [right; exists (Task k), y; exact E|].
      destruct (parent_step r (fst x) (snd x)) as [y|] eqn:E; [right; exists Parent, y; exact E|].
      left. intros [k|]; [|exact E]. simpl. destruct (Nat.lt_ge_cases k (r_cores r)) as [K|K]; auto.
      unfold task_step. apply Nat.ltb_ge in K. now rewrite K. }
    destruct D as [D|(m & y & E)]; [exists []; exact D|].
    assert (J : inv y) by (destruct x; eapply inv_step; eauto).
    pose proof (step_less m x y I E) as Ly.
    destruct (IH (steps_left y) ltac:(lia) y J (le_n _)) as (l & R).
    exists (m :: l). simpl. unfold step1 at 1. rewrite E. exact R.
  Qed.
  Lemma rest_total l : exists l', at_rest r (execute r (l ++ l') (d0, begin)).
  Proof.
    destruct (can_rest _ (execute r l (d0, begin)) (inv_execute l _ inv_begin) (le_n _)) as (l' & R).
    exists l'. unfold execute in *. now rewrite fold_left_app.
  Qed.
  Lemma rest_result l : at_rest r (execute r l (d0, begin)) -> exists o, ends r l d0 o /\ result r d0 o.
  Proof.
    intros A. destruct (rest_ended _ (inv_execute l _ inv_begin) A) as (o & E). exists o. split; [exact E|].
    eapply ends_result. exact E.
  Qed.
End P.

(** The result is one. *)
Lemma reads_fun {V} n (d : slots V) a : forall b, reads n d a -> reads n d b -> a = b.
Proof.
  unfold reads. generalize (seq 0 n). intros l. revert a. induction l as [|k l IH]; intros a b A B; inversion A; inversion B; subst; auto.
  f_equal; [congruence|]. now apply IH.
Qed.
Lemma reads_not_bad {V} n (d : slots V) vs k : reads n d vs -> first_bad n d k -> False.
Proof. intros R (K & _ & N). destruct (reads_all n d vs R k K) as (v & E). exact (N v E). Qed.
Lemma bad_fun {V} n (d : slots V) j k : first_bad n d j -> first_bad n d k -> j = k.
Proof.
  intros (A & B & C) (A' & B' & C'). destruct (Nat.lt_trichotomy j k) as [L|[L|L]]; auto.
  - destruct (B' j L) as (v & E). destruct (C v E).
  - destruct (B k L) as (v & E). destruct (C' v E).
Qed.
Lemma result_fun {V} (r : run V) d o o' : result r d o -> result r d o' -> o = o'.
Proof.
  unfold result. destruct (r_batch r (pred (r_cores r))) as [v0|e0]; [|congruence].
  intros [(a & A & ->)|[(j & A & A' & ->)|(j & A & A' & ->)]] [(b & B & ->)|[(k & B & B' & ->)|(k & B & B' & ->)]]; auto;
    try (destruct (reads_not_bad _ _ _ _ A B)); try (destruct (reads_not_bad _ _ _ _ B A)).
  - f_equal. eapply reads_fun; eauto.
  - assert (j = k) by (eapply bad_fun; eauto). subst. cbv beta in *. congruence.
  - assert (j = k) by (eapply bad_fun; eauto). subst. cbv beta in *. congruence.
Qed.

Lemma forall2_imp {X Y} (P Q : X -> Y -> Prop) l l' : (forall a b, In a l -> P a b -> Q a b) -> Forall2 P l l' -> Forall2 Q l l'.
Proof. intros H F. induction F; constructor; [apply H; simpl; auto|]. apply IHF. intros; apply H; simpl; auto. Qed.
Lemma compute_reads {V} (r : run V) d vs : all_compute r vs -> r_kind r = Npy \/ no_leftovers r d ->
  reads (r_cores r) (fun k => left_behind r k (d k)) vs.
Proof.
  intros A K. unfold reads, all_compute in *. eapply forall2_imp; [|exact A]. cbv beta. intros k v Hk B.
  apply in_seq in Hk. unfold left_behind. rewrite B. destruct K as [->|K]; auto. rewrite K by lia. destruct (r_kind r); auto.
Qed.
Lemma compute_own {V} (r : run V) vs : 1 <= r_cores r -> all_compute r vs -> exists v, r_batch r (pred (r_cores r)) = Ok v.
Proof.
  unfold all_compute. intros C A. assert (I : In (pred (r_cores r)) (seq 0 (r_cores r))) by (apply in_seq; lia).
  induction A as [|k v l l' H A IH]; [destruct I|]. destruct I as [<-|I]; eauto.
Qed.
Lemma compute_result {V} (r : run V) d vs o : 1 <= r_cores r -> all_compute r vs -> r_kind r = Npy \/ no_leftovers r d ->
  result r d o -> o = Returned vs.
Proof.
  intros C A K R. eapply result_fun; [exact R|]. unfold result. destruct (compute_own r vs C A) as (v & ->).
  left. exists vs. split; auto. now apply compute_reads.
Qed.

(* ------------------------------------------------------------------ *)
(** Several calls. *)
Definition steps_of (i : nat) (l : list (nat * mover)) : list mover :=
  map snd (filter (fun im => Nat.eqb (fst im) i) l).
Lemma solo {V} (runs : nat -> run V) i : (forall j, j <> i -> r_area (runs j) <> r_area (runs i)) ->
  forall l x, (fst (gexecute runs l x) (r_area (runs i)), snd (gexecute runs l x) i) =
    execute (runs i) (steps_of i l) (fst x (r_area (runs i)), snd x i).
Proof.
  intros H. unfold steps_of. induction l as [|[j m] l IH]; intros x; [reflexivity|].
  change (gexecute runs ((j, m) :: l) x) with (gexecute runs l (gstep1 runs x (j, m))). rewrite IH. clear IH.
  unfold gstep1. cbn [filter fst map]. destruct (Nat.eqb_spec j i) as [->|N].
  - cbn [map snd]. unfold execute. cbn [fold_left]. f_equal. unfold step1. cbn [fst snd].
    destruct (step (runs i) m (fst x (r_area (runs i))) (snd x i)) as [[d p]|]; auto.
    cbn [fst snd]. now rewrite !Nat.eqb_refl.
  - destruct (step (runs j) m (fst x (r_area (runs j))) (snd x j)) as [[d p]|]; auto.
    cbn [fst snd]. rewrite (proj2 (Nat.eqb_neq i j)) by auto.
    rewrite (proj2 (Nat.eqb_neq (r_area (runs i)) (r_area (runs j)))); auto. intros E. apply (H j N). auto.
Qed.
Lemma moves_snoc (V : Type) (r : run V) l m : forall x, moves r (l ++ [m]) x =
  match step r m (fst (execute r l x)) (snd (execute r l x)) with Some _ => S (moves r l x) | None => moves r l x end.
Proof.
  induction l as [|a l IH]; intros x; cbn [app moves execute fold_left].
  - destruct (step r m (fst x) (snd x)); reflexivity.
  - assert (F : step1 r x a = match step r a (fst x) (snd x) with Some y => y | None => x end) by reflexivity.
    rewrite F. destruct (step r a (fst x) (snd x)) as [y|]; [specialize (IH y) | specialize (IH x)]; unfold execute in IH; rewrite IH;
      match goal with |- context [match ?z with Some _ => _ | None => _ end] => destruct z end; reflexivity.
Qed.
