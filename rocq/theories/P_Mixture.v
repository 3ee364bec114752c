(** Sampling a mixture (C09, C11, C12). *)
From Verif Require Import Base M_Weights SpecWeights P_Weights P_Weights2 M_Pick P_Pick M_Values M_Sampler M_Ops
  SpecSampler SpecSampler2 SpecOps SpecMixture P_Sampler P_Count P_Clip P_Ops P_Sampler2 P_Support P_Pure.
From Coq Require Import Lqa.
Open Scope Q_scope.

Lemma positive_nonneg ws : positive ws -> nonneg ws.
Proof. intros H. eapply Forall_impl; [|exact H]. intros; simpl in *; lra. Qed.

Lemma falls_small ws u i : nonneg ws -> (small_pick ws u = Ok i <-> falls ws u i).
Proof. intros Hn. apply small_pick_ok; assumption. Qed.
Lemma falls_large ws u i : nonneg ws -> ws <> [] -> (large_pick ws u = Ok i <-> falls ws u i /\ u <= total ws).
Proof. intros Hn Hne. rewrite (large_pick_ok ws u Hn Hne i), falls_small by assumption. reflexivity. Qed.

Lemma simplify_finish Or l : finish_list Or (simplify l) = simplify (np_array (fmt Or) l).
Proof.
  destruct l as [|x [|y l]].
  - reflexivity.
  - cbn [simplify finish_list]. pose proof (np_array_repeat (fmt Or) x 1) as R. cbn [repeat] in R. rewrite R. reflexivity.
  - cbn [simplify finish_list].
    pose proof (np_array_length (fmt Or) (x :: y :: l)) as L.
    destruct (np_array (fmt Or) (x :: y :: l)) as [|a [|b m]]; simpl in L; try discriminate. reflexivity.
Qed.

Section Mixture.
  Variable Or : oracle.
  Hypothesis RL : right_length Or.
  Notation St := (state (G Or)).
  Notation samplers ds := (map (fun o (k : nat) => smp Or o k None None) ds).

  Lemma rngf_draw r n s l s' : rngf Or r n s = (Ok l, s') <->
    exists g, drawf Or r n (rng s) = (Ok l, g) /\ s' = mkState g (corr s).
  Proof.
    unfold rngf. destruct (drawf Or r n (rng s)) as [x g]. split.
    - intros H; inversion H; subst; eauto.
    - intros (g' & H & ->). inversion H; subst; auto.
  Qed.

  Lemma small_step ws ds s x s' : nonneg ws ->
    ((let! us := rngf Or (RUniform 0 1) 1 in
      let! u := lift (nth_res us 0) in
      let! i := lift (small_pick ws u) in
      let! c := lift (nth_res (samplers ds) i) in
      let! v := c 1%nat in
      as_scalar Or v) s = (Ok x, s') <->
     exists u g i o, drawf Or (RUniform 0 1) 1 (rng s) = (Ok [u], g) /\ falls ws u i /\
       nth_error ds i = Some o /\ smp Or o 1 None None (mkState g (corr s)) = (Ok (Scalar x), s')).
  Proof.
    intros Hn. split.
    - intros H.
      apply bindS_ok in H as (us & s1 & Hu & H). apply rngf_draw in Hu as (g & D & ->).
      pose proof (proj1 RL _ _ _ _ _ D) as L. destruct us as [|u [|? ?]]; try discriminate.
      apply bindS_ok in H as (u' & s1 & Hu & H). apply lift_ok in Hu as [Hu <-]. inversion Hu; subst u'.
      apply bindS_ok in H as (i & s1 & Hi & H). apply lift_ok in Hi as [Hi <-].
      apply bindS_ok in H as (c & s1 & Hc & H). apply lift_ok in Hc as [Hc <-].
      apply bindS_ok in H as (v & s1 & Hv & H).
      unfold nth_res in Hc. rewrite nth_error_map in Hc.
      destruct (nth_error ds i) as [o|] eqn:E; [|discriminate]. simpl in Hc. inversion Hc; subst c.
      destruct v as [y|l]; [|now apply raise_ok in H]. apply ret_ok in H as [-> ->].
      exists u, g, i, o. repeat split; auto; apply falls_small in Hi; auto; destruct Hi as (? & ? & ?); auto.
    - intros (u & g & i & o & D & F & E & S). apply falls_small in F; auto.
      assert (R : rngf Or (RUniform 0 1) 1 s = (Ok [u], mkState g (corr s))) by (apply rngf_draw; eauto).
      unfold bindS, lift. rewrite R. change (nth_res [u] 0) with (Ok u). cbv beta iota. rewrite F. unfold nth_res. rewrite nth_error_map, E.
      simpl option_map. cbv beta iota. rewrite S. reflexivity.
  Qed.

  Lemma small_run ws ds n : nonneg ws -> forall s xs s',
    replicateS n (let! us := rngf Or (RUniform 0 1) 1 in
      let! u := lift (nth_res us 0) in
      let! i := lift (small_pick ws u) in
      let! c := lift (nth_res (samplers ds) i) in
      let! v := c 1%nat in
      as_scalar Or v) s = (Ok xs, s') <-> one_by_one Or ws ds n s xs s'.
  Proof.
    intros Hn. induction n; intros s xs s'; split; intros H.
    - simpl in H. apply ret_ok in H as [<- <-]. constructor.
    - inversion H; subst. reflexivity.
    - cbn [replicateS] in H. apply bindS_ok in H as (x & s1 & Hx & H). apply bindS_ok in H as (l & s2 & Hl & H).
      apply ret_ok in H as [<- <-]. apply small_step in Hx as (u & g & i & o & D & F & E & S); auto.
      econstructor; eauto. now apply IHn.
    - inversion H; subst. cbn [replicateS].
      match goal with K : one_by_one _ _ _ n _ _ _ |- _ => apply IHn in K; rename K into K' end.
      unfold bindS at 1.
      match goal with |- context[match ?e with _ => _ end] => replace e with (Ok x, s1) end.
      + unfold bindS at 1. rewrite K'. reflexivity.
      + symmetry. apply small_step; auto. eauto 8.
  Qed.

  Lemma columns_run n ds : forall s cols s',
    mapS (fun c : sampler Or => let! v := c n in ret (enlist v)) (samplers ds) s = (Ok cols, s') <->
    all_columns Or n ds s cols s'.
  Proof.
    induction ds as [|o ds]; intros s cols s'; split; intros H.
    - simpl in H. apply ret_ok in H as [<- <-]. constructor.
    - inversion H; subst. reflexivity.
    - cbn [map mapS] in H. apply bindS_ok in H as (x & s1 & Hx & H). apply bindS_ok in Hx as (v & s3 & Hv & Hx).
      apply ret_ok in Hx as [<- <-].
      apply bindS_ok in H as (l & s2 & Hl & H). apply ret_ok in H as [<- <-].
      apply (ac_cons Or n o ds s v s3 l s2); auto. now apply IHds.
    - inversion H; subst. cbn [map mapS]. unfold bindS at 1. unfold bindS at 1.
      match goal with K : smp Or o n None None s = _ |- _ => rewrite K end. cbn [ret].
      match goal with K : all_columns _ _ _ _ _ _ |- _ => apply IHds in K; unfold bindS at 1; rewrite K end. reflexivity.
  Qed.

  Lemma zip_select {A} (f : Q -> nat -> res A) us : forall k xs,
    zipM f us (seq k (length us)) = Ok xs <->
    length xs = length us /\ forall j u, nth_error us j = Some u -> exists x, f u (k + j)%nat = Ok x /\ nth_error xs j = Some x.
  Proof.
    induction us as [|u us]; intros k xs; simpl.
    - split; intros H.
      + inversion H. split; auto. intros [|j] ? C; discriminate.
      + destruct H as [H _]. destruct xs; [reflexivity|discriminate].
    - split; intros H.
      + apply bind_ok in H as (x & Hx & H). apply bind_ok in H as (l & Hl & H). inversion H; subst.
        apply IHus in Hl as [L K]. split; [simpl; congruence|]. intros [|j] w Hw; simpl in *.
        * inversion Hw; subst. rewrite Nat.add_0_r. eauto.
        * destruct (K _ _ Hw) as (y & Hy & N). exists y. split; auto. now rewrite <- plus_n_Sm.
      + destruct H as [L K]. destruct xs as [|x xs]; [discriminate|].
        destruct (K 0%nat u eq_refl) as (y & Hy & N). simpl in N. inversion N; subst. rewrite Nat.add_0_r in Hy.
        rewrite Hy. simpl. assert (zipM f us (seq (S k) (length us)) = Ok xs) as ->.
        { apply IHus. split; [simpl in L; congruence|]. intros j w Hw. destruct (K (S j) w Hw) as (z & Hz & Nz).
          exists z. split; auto. now rewrite <- plus_n_Sm in Hz. }
        reflexivity.
  Qed.

  Lemma select_run ws us cols xs : nonneg ws -> ws <> [] ->
    (zipM (fun u i => do k <- large_pick ws u; do col <- nth_res cols k; nth_res col i) us (seq 0 (length us)) = Ok xs
     <-> selected ws us cols xs).
  Proof.
    intros Hn Hne. rewrite zip_select. unfold selected. split; intros [L K]; split; auto; intros j u Hu.
    - destruct (K j u Hu) as (x & Hx & N). apply bind_ok in Hx as (i & Hi & Hx). apply bind_ok in Hx as (col & Hc & Hx).
      apply falls_large in Hi as [F T]; auto. unfold nth_res in *. simpl in Hx.
      destruct (nth_error cols i) eqn:E; [|discriminate]. inversion Hc; subst.
      destruct (nth_error col j) eqn:E2; [|discriminate]. inversion Hx; subst.
      exists i, col. repeat split; auto; try apply F; congruence.
    - destruct (K j u Hu) as (i & col & F & T & C & N & S).
      destruct (nth_error xs j) as [x|] eqn:E; [|congruence]. exists x. split; auto.
      assert (large_pick ws u = Ok i) as -> by (apply falls_large; auto).
      simpl. unfold nth_res. rewrite C. simpl. rewrite N. reflexivity.
  Qed.

  Lemma mixture_reprocess ws ds : ready ws ds ->
    fst (@pwv (sampler Or) (fun _ => None) (fun _ => false) (WList (map Num ws)) WNone (@VList (sampler Or) (samplers ds)) false) = Ok (ws, samplers ds).
  Proof.
    intros (L & P & R1 & R2). rewrite (reprocess _ _ ws (samplers ds)); auto.
    - now rewrite map_length. - split; auto.
  Qed.

  Lemma mixture_single w o n s : (1 <= n)%nat -> ready [w] [o] ->
    smp Or (ODist (DMixture [w] [o] None None)) n None None s =
    match smp Or o n None None s with
    | (Ok v, s') => (Ok (finish_list Or v), s') | (Err e, s') => (Err e, s')
    end.
  Proof.
    intros Hn U. rewrite smp_odist, smp_mix, wrap_none by assumption. unfold mixture_sample.
    pose proof (mixture_reprocess [w] [o] U) as E. cbn [map] in E. cbn [map]. rewrite E. reflexivity.
  Qed.

  Lemma mixture_small ws ds n s v s' : (1 <= n <= 100)%nat -> ready ws ds -> (2 <= length ds)%nat ->
    (smp Or (ODist (DMixture ws ds None None)) n None None s = (Ok v, s') <->
     exists xs, one_by_one Or ws ds n s xs s' /\ v = simplify (np_array (fmt Or) xs)).
  Proof.
    intros [Hn Hn'] U Hd. rewrite smp_odist, smp_mix, wrap_none by assumption. unfold mixture_sample.
    rewrite (mixture_reprocess ws ds U). destruct U as (L & P & _).
    destruct ds as [|d1 [|d2 ds]]; try (simpl in Hd; lia). cbn [map].
    assert (Nat.ltb 100 n = false) as -> by (apply Nat.ltb_ge; lia).
    set (DS := d1 :: d2 :: ds) in *.
    change ((fun k1 : nat => smp Or d1 k1 None None) :: (fun k2 : nat => smp Or d2 k2 None None) :: samplers ds) with (samplers DS).
    unfold small_n. split.
    - destruct (bindS _ _ s) as [[u|e] s1] eqn:E; [|discriminate]. intros H; inversion H; subst; clear H.
      apply bindS_ok in E as (xs & s2 & Hx & E). apply ret_ok in E as [<- <-].
      apply small_run in Hx; [|now apply positive_nonneg]. exists xs. split; auto. apply simplify_finish.
    - intros (xs & Hx & ->). apply small_run in Hx; [|now apply positive_nonneg].
      rewrite (bindS_run _ _ _ _ _ Hx). cbn [ret]. now rewrite simplify_finish.
  Qed.

  Lemma mixture_large ws ds n s v s' : (100 < n)%nat -> ready ws ds -> (2 <= length ds)%nat ->
    (smp Or (ODist (DMixture ws ds None None)) n None None s = (Ok v, s') <->
     exists cols s1 us g xs, all_columns Or n ds s cols s1 /\
       drawf Or (RUniform 0 1) n (rng s1) = (Ok us, g) /\ s' = mkState g (corr s1) /\
       selected ws us cols xs /\ v = simplify (np_array (fmt Or) xs)).
  Proof.
    intros Hn U Hd. rewrite smp_odist, smp_mix, wrap_none by lia. unfold mixture_sample.
    rewrite (mixture_reprocess ws ds U). destruct U as (L & P & _).
    destruct ds as [|d1 [|d2 ds]]; try (simpl in Hd; lia). cbn [map].
    assert (Nat.ltb 100 n = true) as -> by (apply Nat.ltb_lt; lia).
    set (DS := d1 :: d2 :: ds) in *.
    change ((fun k1 : nat => smp Or d1 k1 None None) :: (fun k2 : nat => smp Or d2 k2 None None) :: samplers ds) with (samplers DS).
    unfold large_n.
    assert (Hne : ws <> []) by (intros ->; discriminate).
    split.
    - destruct (bindS _ _ s) as [[u|e] s1] eqn:E; [|discriminate]. intros H; inversion H; subst; clear H.
      apply bindS_ok in E as (cols & s2 & Hc & E). apply columns_run in Hc.
      apply bindS_ok in E as (us & s3 & Hu & E). apply rngf_draw in Hu as (g & D & ->).
      apply bindS_ok in E as (xs & s4 & Hx & E). apply lift_ok in Hx as [Hx <-]. apply ret_ok in E as [<- <-].
      apply select_run in Hx; auto; [|now apply positive_nonneg].
      exists cols, s2, us, g, xs. repeat split; auto; try apply Hx. apply simplify_finish.
    - intros (cols & s1 & us & g & xs & Hc & D & -> & Hx & ->).
      apply columns_run in Hc. apply select_run in Hx; auto; [|now apply positive_nonneg].
      rewrite (bindS_run _ _ _ _ _ Hc).
      assert (R : rngf Or (RUniform 0 1) n s1 = (Ok us, mkState g (corr s1))) by (apply rngf_draw; eauto).
      rewrite (bindS_run _ _ _ _ _ R). unfold bindS, lift. rewrite Hx. cbn [ret]. now rewrite simplify_finish.
  Qed.

  (* ---------------------------------------------------------------- *)
  (** * C12 *)
  Lemma zi_built p d : 0 < p -> p < 1 -> zero_inflated (PZNum p) d =
    Ok (DMixture [p; 1 - (0 + p)] [OLit (PInt 0); d] None None) /\ ready [p; 1 - (0 + p)] [OLit (PInt 0) : obj (G Or); d].
  Proof.
    intros H0 H1. split.
    - unfold zero_inflated.
      assert (Qle_bool 0 p = true) as -> by (apply Qle_bool_iff; lra).
      assert (Qle_bool p 1 = true) as -> by (apply Qle_bool_iff; lra). cbn [andb negb].
      assert (Qeq_bool p 1 = false) as -> by (apply not_true_is_false; intros C; apply Qeq_bool_iff in C; lra).
      assert (Qeq_bool p 0 = false) as -> by (apply not_true_is_false; intros C; apply Qeq_bool_iff in C; lra).
      unfold mixture, pwv. cbn -[Qplus Qlt_bool Qminus].
      assert (Qlt_bool (0 + p) 1 = true) as -> by (apply qlt_true; lra). cbn -[Qplus Qlt_bool Qminus].
      assert (Qlt_bool p 0 = false) as -> by (apply qlt_false; lra). cbn -[Qplus Qlt_bool Qminus].
      assert (Qlt_bool (1 - (0 + p)) 0 = false) as -> by (apply qlt_false; lra). cbn -[Qplus Qlt_bool Qminus].
      assert (Qlt_bool 0 (1 - (0 + p)) = true) as -> by (apply qlt_true; lra). cbn -[Qplus Qlt_bool Qminus].
      assert (Qlt_bool 0 p = true) as -> by (apply qlt_true; lra). cbn -[Qplus Qlt_bool Qminus].
      reflexivity.
    - split; [reflexivity|]. split; [repeat constructor; lra|]. simpl. split; lra.
  Qed.
  Lemma falls_zi p u i : 0 < p -> p < 1 -> falls [p; 1 - (0 + p)] u i -> (i = 0%nat /\ u <= p) \/ (i = 1%nat /\ p < u).
  Proof.
    intros H0 H1 (L & A & B). destruct i as [|[|i]]; simpl in *; try lia.
    - left. split; auto. destruct B; [discriminate|lra].
    - right. split; auto. destruct A; [discriminate|lra].
  Qed.
  Lemma falls_zi' p u : 0 < p -> p < 1 ->
    falls [p; 1 - (0 + p)] u (if Qle_bool u p then 0%nat else 1%nat).
  Proof.
    intros H0 H1. destruct (Qle_bool u p) eqn:E; unfold falls; simpl.
    - apply Qle_bool_iff in E. repeat split; auto. right; lra.
    - assert (p < u). { apply Qnot_le_lt. intros C. apply Qle_bool_iff in C. congruence. }
      repeat split; auto. right; lra.
  Qed.
  Lemma zi_obo p d n : 0 < p -> p < 1 -> forall s xs s',
    one_by_one Or [p; 1 - (0 + p)] [OLit (PInt 0); d] n s xs s' <-> zero_or_sample Or p d n s xs s'.
  Proof.
    intros H0 H1. induction n; intros s xs s'; split; intros H.
    - inversion H; subst; constructor.
    - inversion H; subst; constructor.
    - inversion H; subst.
      match goal with K : falls _ _ _ |- _ => apply falls_zi in K; auto; destruct K as [[-> F]|[-> F]] end.
      + match goal with K : nth_error _ _ = Some _ |- _ => simpl in K; inversion K; subst end.
        match goal with K : smp Or (OLit _) _ _ _ _ = _ |- _ => rewrite sample_lit in K by lia; simpl in K; inversion K; subst end.
        eapply zs_zero; eauto. now apply IHn.
      + match goal with K : nth_error _ _ = Some _ |- _ => simpl in K; inversion K; subst end.
        eapply zs_sample; eauto. now apply IHn.
    - inversion H; subst.
      + eapply obo_step with (i := 0%nat); eauto.
        * pose proof (falls_zi' p u H0 H1) as F. assert (Qle_bool u p = true) as E by now apply Qle_bool_iff.
          now rewrite E in F.
        * reflexivity.
        * rewrite sample_lit by lia. reflexivity.
        * now apply IHn.
      + eapply obo_step with (i := 1%nat); eauto.
        * pose proof (falls_zi' p u H0 H1) as F. destruct (Qle_bool u p) eqn:E; auto.
          apply Qle_bool_iff in E. lra.
        * reflexivity.
        * now apply IHn.
  Qed.

  Lemma zi_small p d D n s v s' : 0 < p -> p < 1 -> (1 <= n <= 100)%nat ->
    zero_inflated (PZNum p) d = Ok D ->
    (smp Or (ODist D) n None None s = (Ok v, s') <->
     exists xs, zero_or_sample Or p d n s xs s' /\ v = simplify (np_array (fmt Or) xs)).
  Proof.
    intros H0 H1 Hn E. destruct (zi_built p d H0 H1) as [B U]. rewrite B in E. apply ok_inj in E. subst D.
    rewrite mixture_small; auto.
    split; intros (xs & Hx & ->); exists xs; split; auto; now apply (zi_obo p d n H0 H1).
  Qed.

  Lemma zi_large p d D n s v s' : 0 < p -> p < 1 -> (100 < n)%nat ->
    zero_inflated (PZNum p) d = Ok D -> in_support Or ->
    (smp Or (ODist D) n None None s = (Ok v, s') <->
     exists a s1 us g xs, smp Or d n None None s = (Ok a, s1) /\
       drawf Or (RUniform 0 1) n (rng s1) = (Ok us, g) /\ s' = mkState g (corr s1) /\
       length xs = n /\
       (forall j u, nth_error us j = Some u -> exists x, nth_error xs j = Some x /\
          (u <= p /\ x = PInt 0 \/ p < u /\ nth_error (elems a) j = Some x)) /\
       v = simplify (np_array (fmt Or) xs)).
  Proof.
    intros H0 H1 Hn E IS. destruct (zi_built p d H0 H1) as [B U]. rewrite B in E. apply ok_inj in E. subst D.
    rewrite mixture_large; auto.
    assert (Z : forall j, (j < n)%nat -> nth_error (elems (copies (PInt 0) n)) j = Some (PInt 0)).
    { intros j Hj. rewrite copies_elems. clear -Hj. revert j Hj. induction n; intros [|j] Hj; simpl; auto; try lia.
      apply IHn. lia. }
    assert (Ln : forall us s1 g j u, drawf Or (RUniform 0 1) n (rng (s1 : St)) = (Ok us, g) -> nth_error us j = Some u ->
             (j < n)%nat /\ u < 1).
    { intros us s1 g j u D Hj. split.
      - apply (proj1 RL) in D. rewrite <- D. apply nth_error_Some. congruence.
      - apply (proj1 IS) in D. rewrite Forall_forall in D. apply nth_error_In in Hj. apply D in Hj. simpl in Hj. lra. }
    split.
    - intros (cols & s1 & us & g & xs & Hc & D & -> & [Lx Sel] & ->).
      inversion Hc; subst. match goal with K : smp Or (OLit _) _ _ _ _ = _ |- _ => rewrite sample_lit in K by lia; inversion K; subst end.
      match goal with K : all_columns _ _ [d] _ _ _ |- _ => inversion K; subst end.
      match goal with K : all_columns _ _ [] _ _ _ |- _ => inversion K; subst end.
      match goal with K : smp Or d n None None _ = (Ok ?w, _) |- _ => exists w, s1, us, g, xs end. repeat split; auto.
      { rewrite Lx. eapply (proj1 RL); eauto. }
      intros j u Hu. destruct (Sel j u Hu) as (i & col & F & T & C & N & S). destruct (Ln _ _ _ _ _ D Hu) as [Hj _].
      destruct (nth_error xs j) as [x|] eqn:Ex; [|congruence]. exists x. split; auto.
      apply falls_zi in F; auto. destruct F as [[-> F]|[-> F]]; simpl in C; inversion C; subst; [left|right]; split; auto.
      pose proof (Z j Hj) as Zj. unfold elems in Zj. rewrite Zj in N. now inversion N.
    - intros (a & s1 & us & g & xs & Hs & D & -> & Lx & Sel & ->).
      exists [elems (copies (PInt 0) n); elems a], s1, us, g, xs. repeat split; auto.
      + apply (ac_cons Or n (OLit (PInt 0)) [d] s (copies (PInt 0) n) s [elems a] s1).
        * apply sample_lit; lia.
        * apply (ac_cons Or n d [] s a s1 [] s1); auto. constructor.
      + rewrite Lx. symmetry. eapply (proj1 RL); eauto.
      + intros j u Hu. destruct (Sel j u Hu) as (x & Hx & Hc). destruct (Ln _ _ _ _ _ D Hu) as [Hj Hu1].
        pose proof (falls_zi' p u H0 H1) as F.
        exists (if Qle_bool u p then 0%nat else 1%nat), (if Qle_bool u p then elems (copies (PInt 0) n) else elems a).
        destruct (Qle_bool u p) eqn:Eu.
        * apply Qle_bool_iff in Eu. split; [exact F|]. split; [simpl; lra|]. split; [reflexivity|].
          destruct Hc as [[_ ->]|[C _]]; [|lra]. rewrite Hx. split; [now apply Z|congruence].
        * split; [exact F|]. split; [simpl; lra|]. split; [reflexivity|].
          destruct Hc as [[C _]|[_ C]]; [apply Qle_bool_iff in C; congruence|]. rewrite Hx. split; [auto|congruence].
  Qed.

  Lemma zi_rejects p d : (p < 0 \/ 1 < p) -> exists m, zero_inflated (T := G Or) (PZNum p) d = Err (ValueError m).
  Proof.
    intros H. unfold zero_inflated.
    assert (Qle_bool 0 p && Qle_bool p 1 = false) as ->.
    { apply not_true_is_false. intros C. apply andb_true_iff in C as [C1 C2].
      apply Qle_bool_iff in C1. apply Qle_bool_iff in C2. destruct H; lra. }
    cbn. eauto.
  Qed.
  Lemma zi_one p d n s : p == 1 -> (1 <= n)%nat ->
    exists D, zero_inflated (PZNum p) d = Ok D /\ smp Or (ODist D) n None None s = (Ok (copies (PInt 0) n), s).
  Proof.
    intros Hp Hn. unfold zero_inflated.
    assert (Qle_bool 0 p = true) as -> by (apply Qle_bool_iff; lra).
    assert (Qle_bool p 1 = true) as -> by (apply Qle_bool_iff; lra). cbn [andb negb].
    assert (Qeq_bool p 1 = true) as -> by (apply Qeq_bool_iff; lra).
    eexists. split; [reflexivity|]. cbn [map mitem_obj fst snd]. rewrite mixture_single; auto.
    - rewrite sample_lit by assumption. f_equal. f_equal. apply finish_copies.
    - split; [reflexivity|]. split; [repeat constructor|]. split; reflexivity.
  Qed.
  Lemma zi_zero p d n s : p == 0 -> (1 <= n)%nat ->
    exists D, zero_inflated (PZNum p) d = Ok D /\ smp Or (ODist D) n None None s =
      match smp Or d n None None s with
      | (Ok v, s') => (Ok (finish_list Or v), s') | (Err e, s') => (Err e, s')
      end.
  Proof.
    intros Hp Hn. unfold zero_inflated.
    assert (Qle_bool 0 p = true) as -> by (apply Qle_bool_iff; lra).
    assert (Qle_bool p 1 = true) as -> by (apply Qle_bool_iff; lra). cbn [andb negb].
    assert (Qeq_bool p 1 = false) as -> by (apply not_true_is_false; intros C; apply Qeq_bool_iff in C; lra).
    assert (Qeq_bool p 0 = true) as -> by (apply Qeq_bool_iff; lra).
    eexists. split; [reflexivity|]. cbn [map mitem_obj fst snd]. apply mixture_single; auto.
    split; [reflexivity|]. split; [repeat constructor|]. split; reflexivity.
  Qed.
  (** Successful samples are already arrays of one dtype, so the final
      conversion changes nothing. *)
  Lemma sample_settled o n lc rc s v s' : uncorrelated_top o ->
    smp Or o n lc rc s = (Ok v, s') -> finish_list Or v = v.
  Proof.
    intros U H. pose proof (sample_needs_n _ _ _ _ _ _ _ _ H) as Hn.
    assert (W : forall own body, wrap Or own body n lc rc s = (Ok v, s') -> finish_list Or v = v).
    { intros own body W. unfold wrap in W. destruct n; [lia|]. apply bindS_ok in W as (a & s1 & _ & W).
      apply bindS_ok in W as (w & s2 & _ & W). apply ret_ok in W as [<- _]. destruct w; simpl; auto.
      now rewrite np_array_idem'. }
    destruct o as [x|f|d|].
    - rewrite smp_lit in H; eauto.
    - rewrite smp_call in H; eauto.
    - rewrite smp_odist in H. destruct d.
      + rewrite smp_leaf in H; eauto.
      + rewrite smp_mix in H; eauto.
      + rewrite smp_complex in H; eauto.
      + destruct U.
    - rewrite smp_other in H; eauto.
  Qed.
End Mixture.
