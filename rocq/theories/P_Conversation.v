(** Lemmas for [Props_Conversation]. *)
From Coq Require Import Lqa.
From Verif Require Import Base M_Values M_SampleApi M_Bayesnet SpecBayes SpecConversation P_Bayesnet.
Open Scope Q_scope.

Lemma keep_all {E} (l : list E) : keep E (fun _ => Ok true) l = Ok l.
Proof. induction l as [|x l IH]; [reflexivity|]. cbn [keep bind]. now rewrite IH. Qed.
Lemma count_all {E} (l : list E) : count (anything E) l = length l.
Proof. induction l as [|x l IH]; [reflexivity|]. cbn. now rewrite IH. Qed.

Section Conv.
  Variables S E Y : Type.
  Variable body : nat -> S -> res E * S.
  Variable wire : E -> res E.
  Notation bayesnet := (bayesnet S E Y body wire).
  Notation analyse := (analyse S E Y).
  Notation b_mem := (b_mem S E).
  Definition fits (es : list E) (x : (E -> bool) * (E -> bool) * Q) : Prop :=
    (0 < count (snd (fst x)) es)%nat /\ snd x == fraction (fst (fst x)) (snd (fst x)) es.

  Lemma wonders_answer c find given es q : wonders S E Y c find given -> analyse c es = Ok (OMean E Y (PFlt (Fin q))) ->
    fits es (find, given, q).
  Proof.
    intros W A. assert (X : exists c', asks S E Y c' find given /\ analyse c' es = Ok (OMean E Y (PFlt (Fin q)))).
    { destruct W as [W|(-> & C & F & R & W)]; [exists c; auto|].
      exists (mkBC S E Y (q_fn _ _ _ c) (q_n _ _ _ c) (q_find _ _ _ c) (Some (fun _ => Ok true)) (q_reduce _ _ _ c) (q_raw _ _ _ c)
        (q_memcache _ _ _ c) (q_mload _ _ _ c) (q_msave _ _ _ c) (q_reload _ _ _ c) (q_dump _ _ _ c) (q_load _ _ _ c)
        (q_primary _ _ _ c) (q_cores _ _ _ c) (q_starts _ _ _ c) (q_sched _ _ _ c)).
      split; [repeat split; auto|]. rewrite <- A. unfold M_Bayesnet.analyse. cbn [q_cond q_find q_raw q_reduce]. now rewrite C, keep_all. }
    destruct X as (c' & AS & A'). destruct (analyse_asks S E Y c' find given es AS) as [Z P]. unfold fits. cbn [fst snd].
    destruct (count given es) as [|k] eqn:K; [rewrite Z in A' by auto; discriminate|]. split; [lia|].
    destruct P as (q' & B & F); [lia|]. rewrite B in A'. injection A' as ->. exact F.
  Qed.
  Lemma answer_leaves_entry c w f o : default_caching S E Y c -> q_fn _ _ _ c = Some f -> fst (bayesnet c w) = Ok o ->
    exists es m, (q_n _ _ _ c <= m)%nat /\ b_mem (snd (bayesnet c w)) (Some f) = Some (es, m) /\ analyse c es = Ok o.
  Proof.
    intros D F. destruct (b_mem w (Some f)) as [[es m]|] eqn:M.
    - rewrite <- F in M. destruct (cache_hit S E Y body wire c w es m D M) as [H K]. destruct (le_lt_dec (q_n _ _ _ c) m) as [L|L].
      + rewrite (H L). cbn. intros A. exists es, m. rewrite <- F. auto.
      + rewrite (K L). discriminate.
    - pose proof (default_loads _ _ _ c D) as (L & SV & R & DU & LO). unfold M_Bayesnet.bayesnet, events_of, b_source, b_file.
      rewrite R, LO, L, F, M. destruct (generate S E Y body wire c f w) as [[es|e] w1]; [|discriminate]. unfold save_file. rewrite DU. cbn [fst snd].
      intros A. exists es, (q_n _ _ _ c). split; [lia|]. split; auto. unfold save_mem. cbn [M_Bayesnet.b_mem]. rewrite SV, F. cbn.
      unfold upd_key. cbn. now rewrite Nat.eqb_refl.
  Qed.
  Lemma entry_fits f w l : conversation S E Y body wire f w l -> forall es m, b_mem w (Some f) = Some (es, m) -> Forall (fits es) l.
  Proof.
    induction 1 as [w|w c find given q l D F W A C IH|w h l L C IH]; intros es m M; [constructor| |].
    - rewrite <- F in M. destruct (cache_hit S E Y body wire c w es m D M) as [H K]. destruct (le_lt_dec (q_n _ _ _ c) m) as [N|N].
      + rewrite (H N) in *. cbn in *. constructor; [now apply (wonders_answer c)|]. eapply IH. rewrite F in M. exact M.
      + rewrite (K N) in A. discriminate.
    - eapply IH, entry_kept; eauto.
  Qed.
  Lemma one_sample f w l : conversation S E Y body wire f w l ->
    exists es, forall find given q, In (find, given, q) l -> (0 < count given es)%nat /\ q == fraction find given es.
  Proof.
    induction 1 as [w|w c find given q l D F W A C IH|w h l L C IH]; [exists []; intros ? ? ? []| |exact IH].
    destruct (answer_leaves_entry c w f _ D F A) as (es & m & N & M & B). exists es.
    pose proof (entry_fits f _ l C es m M) as H. rewrite Forall_forall in H. intros find' given' q' [X|X].
    - injection X as <- <- <-. exact (wonders_answer c find given es q W B).
    - exact (H _ X).
  Qed.
End Conv.

(* ------------------------------------------------------------ counting *)
Definition qn (n : nat) : Q := inject_Z (Z.of_nat n).
Lemma qn_add a b : qn (a + b) == qn a + qn b.
Proof. unfold qn. rewrite Nat2Z.inj_add, inject_Z_plus. reflexivity. Qed.
Lemma qn_pos a : (0 < a)%nat -> 0 < qn a.
Proof. intros H. unfold qn. change 0 with (inject_Z 0). rewrite <- Zlt_Qlt. lia. Qed.
Lemma qn_le a b : (a <= b)%nat -> qn a <= qn b.
Proof. intros H. unfold qn. rewrite <- Zle_Qle. lia. Qed.
Lemma count_same {A} (p q : A -> bool) l : (forall x, p x = q x) -> count p l = count q l.
Proof. intros H. induction l as [|x l IH]; cbn; [reflexivity|]. now rewrite IH, H. Qed.
Lemma count_imp {A} (p q : A -> bool) l : (forall x, p x = true -> q x = true) -> (count p l <= count q l)%nat.
Proof. intros H. induction l as [|x l IH]; cbn; [lia|]. specialize (H x). destruct (p x), (q x); lia. Qed.
Lemma count_sum {A} (a b c d : A -> bool) l :
  (forall x, ((if a x then 1 else 0) + (if b x then 1 else 0) = (if c x then 1 else 0) + (if d x then 1 else 0))%nat) ->
  (count a l + count b l = count c l + count d l)%nat.
Proof. intros H. induction l as [|x l IH]; cbn; [reflexivity|]. specialize (H x). lia. Qed.

Section Laws.
  Variable E : Type.
  Variable es : list E.
  Let n (p : E -> bool) : Q := qn (count p es).
  Implicit Types a b c : E -> bool.
  Definition chance (find given : E -> bool) (q : Q) : Prop := (0 < count given es)%nat /\ q == fraction find given es.
  Lemma chance_times a g q : chance a g q -> 0 < n g /\ q * n g == n (both g a).
  Proof.
    intros [P Q]. split; [now apply qn_pos|]. pose proof (qn_pos _ P) as N. rewrite Q. unfold fraction, n, both.
    fold (qn (count g es)). fold (qn (count (fun x => g x && a x) es)). field. lra.
  Qed.
  Lemma n_same (p q : E -> bool) : (forall x, p x = q x) -> n p == n q.
  Proof. intros H. unfold n. now rewrite (count_same p q es H). Qed.
  Lemma n_sum (p q r t : E -> bool) :
    (forall x, ((if p x then 1 else 0) + (if q x then 1 else 0) = (if r x then 1 else 0) + (if t x then 1 else 0))%nat) ->
    n p + n q == n r + n t.
  Proof. intros H. unfold n. rewrite <- !qn_add. now rewrite (count_sum p q r t es H). Qed.
  Lemma n_none : n (fun _ : E => false) == 0.
  Proof. unfold n. replace (count (fun _ => false) es) with 0%nat; [reflexivity|]. induction es as [|x l IH]; cbn; auto. Qed.
  Lemma cancel (x y z : Q) : 0 < z -> x * z == y * z -> x == y.
  Proof. intros H X. apply (Qmult_inj_r x y z); auto. lra. Qed.

  Lemma law_range a g q : chance a g q -> 0 <= q /\ q <= 1.
  Proof. intros [P Q]. rewrite Q. now apply fraction_range. Qed.
  Lemma law_not a g q q' : chance a g q -> chance (not_ a) g q' -> q' == 1 - q.
  Proof.
    intros X Y. apply chance_times in X as [P X]. apply chance_times in Y as [_ Y]. apply (cancel _ _ (n g) P).
    assert (n (both g a) + n (both g (not_ a)) == n g + n (fun _ => false)) as T.
    { apply n_sum. intros x. unfold both, not_. destruct (g x), (a x); reflexivity. }
    rewrite n_none in T. lra.
  Qed.
  Lemma law_sum a b g p q r t : chance a g p -> chance b g q -> chance (either a b) g r -> chance (both a b) g t -> r + t == p + q.
  Proof.
    intros X Y Z W. apply chance_times in X as [P X]. apply chance_times in Y as [_ Y]. apply chance_times in Z as [_ Z].
    apply chance_times in W as [_ W]. apply (cancel _ _ (n g) P).
    assert (n (both g (either a b)) + n (both g (both a b)) == n (both g a) + n (both g b)) as T.
    { apply n_sum. intros x. unfold both, either. destruct (g x), (a x), (b x); reflexivity. }
    lra.
  Qed.
  Lemma law_rise a b g p q : (forall e, a e = true -> b e = true) -> chance a g p -> chance b g q -> p <= q.
  Proof.
    intros H X Y. apply chance_times in X as [P X]. apply chance_times in Y as [_ Y].
    assert (n (both g a) <= n (both g b)) as T.
    { apply qn_le, count_imp. intros x. unfold both. rewrite !andb_true_iff. intros [U V]. auto. }
    apply (Qmult_le_r _ _ (n g) P). lra.
  Qed.
  Lemma law_chain a b g p q r : chance (both a b) g r -> chance b g p -> chance a (both b g) q -> r == p * q.
  Proof.
    intros X Y Z. apply chance_times in X as [P X]. apply chance_times in Y as [_ Y]. apply chance_times in Z as [_ Z].
    apply (cancel _ _ (n g) P).
    assert (n (both g (both a b)) == n (both (both b g) a)) as T.
    { apply n_same. intros x. unfold both. destruct (g x), (a x), (b x); reflexivity. }
    assert (n (both g b) == n (both b g)) as U by (apply n_same; intros x; unfold both; apply andb_comm).
    assert (p * q * n g == q * (p * n g)) as V by ring. rewrite V, X, Y, T, U, Z. reflexivity.
  Qed.
  Lemma law_total a b g p q q' r : chance a g r -> chance b g p -> chance a (both b g) q -> chance a (both (not_ b) g) q' ->
    r == p * q + (1 - p) * q'.
  Proof.
    intros X Y Z W. apply chance_times in X as [P X]. apply chance_times in Y as [_ Y]. apply chance_times in Z as [_ Z].
    apply chance_times in W as [_ W]. apply (cancel _ _ (n g) P).
    assert (n (both (both b g) a) + n (both (both (not_ b) g) a) == n (both g a) + n (fun _ => false)) as T.
    { apply n_sum. intros x. unfold both, not_. destruct (g x), (a x), (b x); reflexivity. }
    assert (n (both b g) + n (both (not_ b) g) == n g + n (fun _ => false)) as U.
    { apply n_sum. intros x. unfold both, not_. destruct (g x), (b x); reflexivity. }
    assert (n (both g b) == n (both b g)) as V by (apply n_same; intros x; unfold both; apply andb_comm).
    rewrite n_none in T, U. assert ((p * q + (1 - p) * q') * n g == q * (p * n g) + q' * (n g - p * n g)) as F by ring.
    rewrite F, X, Y, V. assert (n g - n (both b g) == n (both (not_ b) g)) as G by lra. rewrite G, Z, W. lra.
  Qed.
  Lemma law_bayes h e p lh lnh q : chance h (anything E) p -> chance e h lh -> chance e (not_ h) lnh -> chance h e q ->
    exists q', simple_bayes lh lnh p = Ok q' /\ q' == q.
  Proof.
    intros X Y Z W. apply chance_times in X as [P X]. apply chance_times in Y as [_ Y]. apply chance_times in Z as [_ Z].
    apply chance_times in W as [PE W].
    assert (n (both (anything E) h) == n h) as A by (apply n_same; reflexivity).
    assert (n h + n (not_ h) == n (anything E) + n (fun _ => false)) as B.
    { apply n_sum. intros x. unfold not_, anything. destruct (h x); reflexivity. }
    assert (n (both h e) + n (both (not_ h) e) == n e + n (fun _ => false)) as C.
    { apply n_sum. intros x. unfold both, not_. destruct (h x), (e x); reflexivity. }
    assert (n (both e h) == n (both h e)) as D by (apply n_same; intros x; unfold both; apply andb_comm).
    rewrite n_none in B, C. set (N := n (anything E)) in *.
    assert (J : lh * p * N == n (both h e)). { assert (lh * p * N == lh * (p * N)) as K by ring. rewrite K, X, A. exact Y. }
    assert (K : lnh * (1 - p) * N == n (both (not_ h) e)).
    { assert (lnh * (1 - p) * N == lnh * (N - p * N)) as K by ring. rewrite K, X, A, <- Z. assert (N - n h == n (not_ h)) as L by lra. now rewrite L. }
    assert (T : (lh * p + lnh * (1 - p)) * N == n e) by lra.
    assert (NZ : ~ lh * p + lnh * (1 - p) == 0). { intros F. rewrite F in T. lra. }
    unfold simple_bayes. destruct (Qeq_bool (lh * p + lnh * (1 - p)) 0) eqn:Q; [apply Qeq_bool_iff in Q; contradiction|].
    eexists. split; [reflexivity|]. set (d := lh * p + lnh * (1 - p)) in *. 
    apply (cancel _ _ (n e) PE). rewrite W, D, <- T, <- J. field. exact NZ.
  Qed.
End Laws.

(* ------------------------------------------------------------ conversations *)
Section Talks.
  Variables S E Y : Type.
  Variable body : nat -> S -> res E * S.
  Variable wire : E -> res E.
  Variables (f : nat) (w : bworld S E) (l : list ((E -> bool) * (E -> bool) * Q)).
  Hypothesis C : conversation S E Y body wire f w l.
  Notation said := (fun a g q => In (a, g, q) l).
  Lemma said_chance : exists es, forall a g q, said a g q -> chance E es a g q.
  Proof. exact (one_sample S E Y body wire f w l C). Qed.
  Lemma talk_range a g q : said a g q -> 0 <= q /\ q <= 1.
  Proof. destruct said_chance as [es H]. intros X. eapply law_range; eauto. Qed.
  Lemma talk_again a g q q' : said a g q -> said a g q' -> q == q'.
  Proof. destruct said_chance as [es H]. intros X Y'. apply H in X as [_ X]. apply H in Y' as [_ Y']. now rewrite X, Y'. Qed.
  Lemma talk_not a g q q' : said a g q -> said (not_ a) g q' -> q' == 1 - q.
  Proof. destruct said_chance as [es H]. intros X Y'. eapply law_not; eauto. Qed.
  Lemma talk_rise a b g p q : (forall e, a e = true -> b e = true) -> said a g p -> said b g q -> p <= q.
  Proof. destruct said_chance as [es H]. intros I X Y'. eapply law_rise; eauto. Qed.
  Lemma talk_sum a b g p q r t : said a g p -> said b g q -> said (either a b) g r -> said (both a b) g t -> r + t == p + q.
  Proof. destruct said_chance as [es H]. intros. eapply law_sum; eauto. Qed.
  Lemma talk_chain a b g p q r : said (both a b) g r -> said b g p -> said a (both b g) q -> r == p * q.
  Proof. destruct said_chance as [es H]. intros. eapply law_chain; eauto. Qed.
  Lemma talk_total a b g p q q' r : said a g r -> said b g p -> said a (both b g) q -> said a (both (not_ b) g) q' ->
    r == p * q + (1 - p) * q'.
  Proof. destruct said_chance as [es H]. intros. eapply law_total; eauto. Qed.
  Lemma talk_bayes h e p lh lnh q : said h (anything E) p -> said e h lh -> said e (not_ h) lnh -> said h e q ->
    exists q', simple_bayes lh lnh p = Ok q' /\ q' == q.
  Proof. destruct said_chance as [es H]. intros. eapply law_bayes; eauto. Qed.
End Talks.
