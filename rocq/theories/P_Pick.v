(** Lemmas about component selection and the work split. *)
From Verif Require Import Base M_Weights SpecWeights P_Weights M_Pick.
From Coq Require Import Lqa.
Open Scope Q_scope.

(** Left end of the [i]-th consecutive interval. *)
Definition left_end (ws : list Q) (i : nat) : Q := total (firstn i ws).

Lemma cumsum_from_length acc ws : length (cumsum_from acc ws) = length ws.
Proof. revert acc; induction ws; intros; cbn; auto. Qed.

Lemma cumsum_length ws : length (cumsum ws) = length ws.
Proof. apply cumsum_from_length. Qed.

Lemma left_end_cons w ws i : left_end (w :: ws) (S i) = w + left_end ws i.
Proof. reflexivity. Qed.

Lemma cumsum_from_nth ws : forall acc i, (i < length ws)%nat ->
  nth i (cumsum_from acc ws) 0 == acc + left_end ws (S i).
Proof.
  induction ws as [|w ws IH]; intros acc i Hi; [cbn in Hi; lia|].
  destruct i as [|i]; cbn [cumsum_from nth]; rewrite left_end_cons.
  - unfold left_end. cbn [firstn total]. ring.
  - rewrite IH by (cbn in Hi; lia). ring.
Qed.

Lemma cumsum_nth ws i : (i < length ws)%nat -> nth i (cumsum ws) 0 == left_end ws (S i).
Proof. intros H. unfold cumsum. rewrite cumsum_from_nth by assumption. ring. Qed.

Lemma left_end_S ws : forall i, (i < length ws)%nat ->
  left_end ws (S i) == left_end ws i + nth i ws 0.
Proof.
  induction ws as [|w ws IH]; intros i Hi; [cbn in Hi; lia|].
  destruct i as [|i]; rewrite ?left_end_cons; cbn [nth].
  - unfold left_end. cbn [firstn total]. ring.
  - rewrite IH by (cbn in Hi; lia). ring.
Qed.

Lemma left_end_all ws : left_end ws (length ws) = total ws.
Proof. unfold left_end. rewrite firstn_all. reflexivity. Qed.

Lemma left_end_mono ws : nonneg ws -> forall j i, (i <= j)%nat -> left_end ws i <= left_end ws j.
Proof.
  intros Hn. induction j as [|j IH]; intros i Hi.
  - replace i with 0%nat by lia. lra.
  - destruct (Nat.eq_dec i (S j)) as [->|]; [lra|].
    assert (left_end ws i <= left_end ws j) by (apply IH; lia).
    destruct (Nat.lt_ge_cases j (length ws)) as [Hj|Hj].
    + rewrite left_end_S by assumption.
      assert (0 <= nth j ws 0); [|lra].
      unfold nonneg in Hn. rewrite Forall_forall in Hn. apply Hn, nth_In; assumption.
    + unfold left_end in *. rewrite (firstn_all2 ws (n := S j)) by lia.
      rewrite (firstn_all2 ws (n := j)) in H by lia. exact H.
Qed.

(** The scan returns the first index whose cumulative value reaches [r]. *)
Lemma scan_spec cum r : forall i0 last,
  (exists k, (k < length cum)%nat /\ scan cum r i0 last = Ok (i0 + k)%nat /\
     r <= nth k cum 0 /\ forall j, (j < k)%nat -> nth j cum 0 < r) \/
  ((forall j, (j < length cum)%nat -> nth j cum 0 < r) /\
   scan cum r i0 last = match length cum with O => last | S m => Ok (i0 + m)%nat end).
Proof.
  induction cum as [|c cum IH]; intros i0 last.
  - right. split; [intros j Hj; cbn in Hj; lia|reflexivity].
  - cbn [scan]. destruct (Qle_bool r c) eqn:E.
    + left. exists 0%nat. apply Qle_bool_iff in E. cbn. repeat split; auto; try lia.
    + apply Qle_bool_false in E.
      destruct (IH (S i0) (Ok i0)) as [(k & H1 & H2 & H3 & H4)|(H1 & H2)].
      * left. exists (S k). cbn [length nth]. repeat split; auto; try lia.
        -- rewrite H2. f_equal. lia.
        -- intros [|j] Hj; cbn [nth]; [assumption|]. apply H4. lia.
      * right. split.
        -- intros [|j] Hj; cbn [nth]; [assumption|]. apply H1. cbn in Hj. lia.
        -- rewrite H2. cbn [length]. destruct (length cum); f_equal; lia.
Qed.

Lemma small_pick_ok ws r i :
  nonneg ws ->
  (small_pick ws r = Ok i <->
   (i < length ws)%nat /\
   (i = 0%nat \/ left_end ws i < r) /\
   (S i = length ws \/ r <= left_end ws (S i))).
Proof.
  intros Hn. unfold small_pick.
  assert (forall j, (j < length ws)%nat -> nth j (cumsum ws) 0 == left_end ws (S j)) as Hc
    by (intros; apply cumsum_nth; assumption).
  destruct (scan_spec (cumsum ws) r 0 (Err NameError)) as [(k & H1 & H2 & H3 & H4)|(H1 & H2)];
    rewrite cumsum_length in *.
  - rewrite H2. cbn [Nat.add]. rewrite Hc in H3 by assumption.
    assert (k = 0%nat \/ left_end ws k < r) as Hleft.
    { destruct k as [|k]; [left; reflexivity|right]. rewrite <- (Hc k) by lia. apply H4. lia. }
    split.
    + intros E. injection E as <-. auto.
    + intros (Hi & Hl & Hr). f_equal.
      destruct (Nat.lt_trichotomy k i) as [Hki|[Hki|Hki]]; [|exact Hki|].
      * exfalso. destruct Hl as [->|Hl]; [lia|].
        pose proof (left_end_mono ws Hn i (S k) ltac:(lia)). lra.
      * exfalso. destruct Hr as [Hr|Hr]; [lia|].
        destruct Hleft as [->|Hleft]; [lia|].
        pose proof (left_end_mono ws Hn k (S i) ltac:(lia)). lra.
  - rewrite H2. destruct (length ws) as [|m] eqn:El.
    + split; [discriminate|intros (Hi & _); lia].
    + cbn [Nat.add]. split.
      * intros E. injection E as <-. split; [lia|]. split; [|left; reflexivity].
        destruct m as [|m]; [left; reflexivity|right]. rewrite <- (Hc m) by lia. apply H1. lia.
      * intros (Hi & _ & Hr). f_equal. destruct Hr as [Hr|Hr]; [lia|].
        exfalso. rewrite <- (Hc i) in Hr by lia. specialize (H1 i ltac:(lia)). lra.
Qed.

(** Binary search on a monotone list. *)
Lemma bisect_loop_spec a x :
  (forall i j, (i <= j)%nat -> (j < length a)%nat -> nth i a 0 <= nth j a 0) ->
  forall fuel lo hi, (hi - lo <= fuel)%nat -> (lo <= hi)%nat -> (hi <= length a)%nat ->
  (forall j, (j < lo)%nat -> nth j a 0 < x) ->
  (forall j, (hi <= j)%nat -> (j < length a)%nat -> x <= nth j a 0) ->
  exists i, bisect_loop fuel a x lo hi = Some i /\ (i <= length a)%nat /\
    (forall j, (j < i)%nat -> nth j a 0 < x) /\
    (forall j, (i <= j)%nat -> (j < length a)%nat -> x <= nth j a 0).
Proof.
  intros Hm. induction fuel as [|f IH]; intros lo hi Hf Hlh Hhi Hlo Hh; cbn [bisect_loop].
  - replace (Nat.ltb lo hi) with false by (symmetry; apply Nat.ltb_ge; lia).
    assert (lo = hi) as -> by lia. exists hi. auto.
  - destruct (Nat.ltb_spec lo hi) as [Hlt|Hge].
    + set (mid := Nat.div2 (lo + hi)).
      assert (lo <= mid /\ mid < hi)%nat as [Hm1 Hm2].
      { unfold mid. rewrite Nat.div2_div. split.
        - apply Nat.div_le_lower_bound; lia.
        - apply Nat.div_lt_upper_bound; lia. }
      destruct (Qlt_bool (nth mid a 0) x) eqn:E.
      * apply Qlt_bool_iff in E. apply IH; try lia; auto.
        intros j Hj. destruct (Nat.eq_dec j mid) as [->|]; [assumption|].
        pose proof (Hm j mid ltac:(lia) ltac:(lia)). lra.
      * apply Qlt_bool_false in E. apply IH; try lia; auto.
        intros j Hj1 Hj2. pose proof (Hm mid j Hj1 Hj2). lra.
    + assert (lo = hi) as -> by lia. exists hi. auto.
Qed.

Lemma bisect_cumsum ws r : nonneg ws ->
  exists i, bisect_left (cumsum ws) r = Some i /\ (i <= length ws)%nat /\
    (forall j, (j < i)%nat -> nth j (cumsum ws) 0 < r) /\
    (forall j, (i <= j)%nat -> (j < length ws)%nat -> r <= nth j (cumsum ws) 0).
Proof.
  intros Hn. unfold bisect_left.
  destruct (bisect_loop_spec (cumsum ws) r) with (fuel := length (cumsum ws)) (lo := 0%nat) (hi := length (cumsum ws))
    as (i & H1 & H2 & H3 & H4); try lia.
  - intros i j Hij Hj. rewrite cumsum_length in Hj. rewrite !cumsum_nth by lia.
    apply left_end_mono; auto. lia.
  - rewrite cumsum_length in *. exists i. auto.
Qed.

Lemma large_pick_ok ws r : nonneg ws -> ws <> [] -> forall i,
  (large_pick ws r = Ok i <-> small_pick ws r = Ok i /\ r <= total ws).
Proof.
  intros Hn Hne i. rewrite small_pick_ok by assumption. unfold large_pick.
  destruct (bisect_cumsum ws r Hn) as (k & -> & Hk & Hlo & Hhi).
  assert (0 < length ws)%nat as Hlen by (destruct ws; [congruence|cbn; lia]).
  assert (r <= total ws <-> (k < length ws)%nat) as Htot.
  { rewrite <- left_end_all. replace (length ws) with (S (pred (length ws))) at 1 by lia.
    rewrite <- cumsum_nth by lia. split; intros H.
    - destruct (Nat.lt_ge_cases k (length ws)); [assumption|].
      specialize (Hlo (pred (length ws)) ltac:(lia)). lra.
    - apply Hhi; lia. }
  destruct (Nat.ltb_spec k (length ws)) as [Hkl|Hkl].
  - split.
    + intros E. injection E as <-. split; [|apply Htot; assumption].
      split; [assumption|]. split.
      * destruct k as [|k]; [left; reflexivity|right]. rewrite <- cumsum_nth by lia. apply Hlo. lia.
      * right. rewrite <- cumsum_nth by lia. apply Hhi; lia.
    + intros ((Hi & Hl & Hr) & Ht). f_equal.
      destruct (Nat.lt_trichotomy k i) as [H|[H|H]]; [|exact H|].
      * exfalso. destruct Hl as [->|Hl]; [lia|].
        pose proof (Hhi (pred i) ltac:(lia) ltac:(lia)) as H'.
        rewrite cumsum_nth in H' by lia. replace (S (pred i)) with i in H' by lia. lra.
      * exfalso. destruct Hr as [Hr|Hr]; [lia|].
        specialize (Hlo i H). rewrite cumsum_nth in Hlo by lia. lra.
  - split; [discriminate|]. intros (_ & Ht). apply Htot in Ht. lia.
Qed.

Lemma large_pick_err ws r : nonneg ws -> ws <> [] ->
  (large_pick ws r = Err IndexError <-> total ws < r).
Proof.
  intros Hn Hne. split.
  - intros H. apply Qnot_le_lt. intros C.
    assert (exists i, small_pick ws r = Ok i) as [i Hi].
    { unfold small_pick. destruct (scan_spec (cumsum ws) r 0 (Err NameError)) as [(k & H1 & H2 & _)|(H1 & H2)].
      - eexists; exact H2.
      - rewrite cumsum_length in H2. destruct ws; [congruence|]. cbn [length] in H2. eexists; exact H2. }
    assert (large_pick ws r = Ok i) by (apply large_pick_ok; auto). congruence.
  - intros H. unfold large_pick. destruct (bisect_cumsum ws r Hn) as (k & -> & Hk & Hlo & Hhi).
    destruct (Nat.ltb_spec k (length ws)) as [Hkl|Hkl]; [exfalso|reflexivity].
    specialize (Hhi (pred (length ws)) ltac:(lia) ltac:(lia)).
    rewrite cumsum_nth in Hhi by lia. replace (S (pred (length ws))) with (length ws) in Hhi by lia.
    rewrite left_end_all in Hhi. lra.
Qed.

Lemma small_pick_total ws r : ws <> [] -> exists i, small_pick ws r = Ok i /\ (i < length ws)%nat.
Proof.
  intros Hne. unfold small_pick. destruct (scan_spec (cumsum ws) r 0 (Err NameError)) as [(k & H1 & H2 & _)|(H1 & H2)];
    rewrite cumsum_length in *.
  - exists k. auto.
  - destruct ws; [congruence|]. cbn [length] in H2. eexists; split; [exact H2|]. cbn; lia.
Qed.

(* ---------- core cuts ---------- *)
Lemma fold_left_Zadd l a : fold_left Z.add l a = (a + fold_right Z.add 0 l)%Z.
Proof. revert a; induction l as [|x l IH]; intros a; cbn [fold_left fold_right]; [lia|]. rewrite IH. lia. Qed.

Lemma sum_repeat q k : fold_right Z.add 0%Z (repeat q k) = (Z.of_nat k * q)%Z.
Proof. induction k; cbn [repeat fold_right]; lia. Qed.

Lemma repeat_snoc {A} (q : A) k : repeat q (S k) = repeat q k ++ [q].
Proof. induction k; [reflexivity|]. cbn [repeat app] in *. rewrite <- IHk. reflexivity. Qed.

Lemma core_cuts_eq n k : (0 < k)%nat ->
  core_cuts n k = Ok (repeat (n / Z.of_nat k)%Z (pred k) ++
                      [(n - Z.of_nat (pred k) * (n / Z.of_nat k))%Z]).
Proof.
  intros Hk. unfold core_cuts. destruct k as [|k]; [lia|]. cbn [pred].
  set (q := (n / Z.of_nat (S k))%Z). rewrite fold_left_Zadd, sum_repeat.
  rewrite repeat_snoc, rev_app_distr. cbn [rev app]. rewrite rev_involutive.
  f_equal. f_equal. f_equal. nia.
Qed.

Lemma core_cuts_props n k cuts : (0 <= n)%Z -> (0 < k)%nat -> core_cuts n k = Ok cuts ->
  length cuts = k /\ fold_right Z.add 0%Z cuts = n /\
  Forall (fun c => (0 <= c)%Z) cuts /\
  (forall i, (S i < k)%nat -> nth_error cuts i = Some (n / Z.of_nat k)%Z) /\
  (exists c, nth_error cuts (pred k) = Some c /\ (n / Z.of_nat k <= c < n / Z.of_nat k + Z.of_nat k)%Z).
Proof.
  intros Hn Hk. rewrite core_cuts_eq by assumption. intros H. injection H as <-.
  assert (Z.of_nat k <> 0)%Z as Hkz by lia.
  pose proof (Z.mod_pos_bound n (Z.of_nat k) ltac:(lia)) as Hmod.
  pose proof (Z.div_mod n (Z.of_nat k) Hkz) as Hdm.
  assert (0 <= n / Z.of_nat k)%Z as Hq by (apply Z.div_pos; lia).
  set (q := (n / Z.of_nat k)%Z) in *.
  assert (n - Z.of_nat (pred k) * q = q + n mod Z.of_nat k)%Z as Hlast by nia.
  repeat split.
  - rewrite app_length, repeat_length. cbn. lia.
  - rewrite fold_right_app. cbn [fold_right]. rewrite Hlast.
    assert (forall b m, fold_right Z.add b (repeat q m) = (b + Z.of_nat m * q)%Z) as Hs.
    { intros b m. induction m; cbn [repeat fold_right]; lia. }
    rewrite Hs. nia.
  - apply Forall_app. split.
    + apply Forall_forall. intros x Hx. apply repeat_spec in Hx. lia.
    + constructor; [lia|constructor].
  - intros i Hi. rewrite nth_error_app1 by (rewrite repeat_length; lia).
    assert (nth_error (repeat q (pred k)) i <> None) as Hs.
    { apply nth_error_Some. rewrite repeat_length. lia. }
    destruct (nth_error (repeat q (pred k)) i) as [y|] eqn:E; [|congruence].
    apply nth_error_In, repeat_spec in E. congruence.
  - exists (n - Z.of_nat (pred k) * q)%Z. split.
    + rewrite nth_error_app2 by (rewrite repeat_length; lia).
      rewrite repeat_length, Nat.sub_diag. reflexivity.
    + lia.
Qed.


Lemma core_cuts_ok n k : (0 < k)%nat -> exists cuts, core_cuts n k = Ok cuts.
Proof. intros H. rewrite core_cuts_eq by assumption. eexists; reflexivity. Qed.

Lemma interval_length ws i : (i < length ws)%nat ->
  total (firstn (S i) ws) - total (firstn i ws) == nth i ws 0.
Proof. intros H. pose proof (left_end_S ws i H) as K. unfold left_end in K. rewrite K. ring. Qed.

Lemma picks_agree ws r : nonneg ws -> ws <> [] -> r <= total ws -> large_pick ws r = small_pick ws r.
Proof.
  intros Hn Hne Hr. destruct (small_pick_total ws r Hne) as (i & Hi & _). rewrite Hi.
  apply large_pick_ok; auto.
Qed.

Lemma large_pick_safe ws r : nonneg ws -> ws <> [] -> 1 <= total ws -> r < 1 ->
  exists i, large_pick ws r = Ok i /\ (i < length ws)%nat.
Proof.
  intros Hn Hne Ht Hr. destruct (small_pick_total ws r Hne) as (i & Hi & Hl).
  exists i. split; [|assumption]. apply large_pick_ok; auto. split; auto. lra.
Qed.
