(** Purity (C23), model functions (C24), events (C25). *)
From Verif Require Import Base M_Weights SpecWeights P_Weights P_Weights2 M_Pick M_Values M_Sampler M_Ops
  SpecSampler SpecSampler2 SpecOps P_Sampler P_Count P_Clip P_Ops P_Sampler2 P_Support.
From Coq Require Import Lqa.
Open Scope Q_scope.

(* ------------------------------------------------------------------ *)
(** * C23 *)
Section Pure.
  Variable Or : oracle.
  Notation St := (state (G Or)).
  Notation MS := (M St).

  Lemma ro_ret {A} (a : A) : rng_only (ret a : MS A).
  Proof. intros g. exists (Ok a), g. reflexivity. Qed.
  Lemma ro_raise {A} e : rng_only (raise e : MS A).
  Proof. intros g. exists (Err e), g. reflexivity. Qed.
  Lemma ro_lift {A} (r : res A) : rng_only (lift r : MS A).
  Proof. intros g. exists r, g. reflexivity. Qed.
  Lemma ro_bind' {A B} (m : MS A) (f : A -> MS B) : rng_only m ->
    (forall a s s', m s = (Ok a, s') -> rng_only (f a)) -> rng_only (bindS m f).
  Proof.
    intros Hm Hf g. destruct (Hm g) as (r & g1 & H1). unfold bindS.
    destruct r as [a|e].
    - destruct (Hf a _ _ (H1 (fun _ _ => None)) g1) as (r2 & g2 & H2). exists r2, g2. intros c. now rewrite H1, H2.
    - exists (Err e), g1. intros c. now rewrite H1.
  Qed.
  Lemma ro_bind {A B} (m : MS A) (f : A -> MS B) : rng_only m -> (forall a, rng_only (f a)) -> rng_only (bindS m f).
  Proof. intros Hm Hf. apply ro_bind'; auto. Qed.
  Lemma ro_repl {A} n (m : MS A) : rng_only m -> rng_only (replicateS n m).
  Proof.
    intros Hm. induction n; simpl; [apply ro_ret|].
    apply ro_bind; auto. intros a. apply ro_bind; auto. intros; apply ro_ret.
  Qed.
  Lemma ro_mapS {A B} (f : A -> MS B) l : (forall a, In a l -> rng_only (f a)) -> rng_only (mapS f l).
  Proof.
    induction l; simpl; intros H; [apply ro_ret|].
    apply ro_bind; [apply H; now left|]. intros b. apply ro_bind; [apply IHl; intros; apply H; now right|]. intros; apply ro_ret.
  Qed.
  Lemma ro_seqS {B} (l : list (MS B)) : Forall rng_only l -> rng_only (seqS l).
  Proof.
    induction 1; simpl; [apply ro_ret|].
    apply ro_bind; auto. intros b. apply ro_bind; auto. intros; apply ro_ret.
  Qed.
  Lemma ro_rngf r n : rng_only (rngf Or r n).
  Proof. intros g. unfold rngf; simpl. destruct (drawf Or r n g) as [x g']. exists x, g'. reflexivity. Qed.
  Lemma ro_rngi r n : rng_only (rngi Or r n).
  Proof. intros g. unfold rngi; simpl. destruct (drawi Or r n g) as [x g']. exists x, g'. reflexivity. Qed.
  Lemma ro_wrap own body n lc rc : (forall k, rng_only (body k)) -> rng_only (wrap Or own body n lc rc).
  Proof.
    intros H. unfold wrap. destruct n; [apply ro_raise|]. apply ro_bind; auto.
    intros a. apply ro_bind; [apply ro_lift|]. intros; apply ro_ret.
  Qed.

  Ltac ro := repeat first
    [ progress cbv beta
    | apply ro_ret | apply ro_raise | apply ro_lift | apply ro_rngf | apply ro_rngi
    | apply ro_bind; [|intros ?] | apply ro_repl
    | match goal with |- rng_only (if ?c then _ else _) => destruct c end
    | match goal with |- rng_only (match ?c with _ => _ end) => destruct c end ].

  Lemma ro_one_int a b : rng_only (one_int Or a b).
  Proof. unfold one_int. ro. Qed.
  Lemma ro_explode fuel sides ex : forall roll tot, rng_only (explode_loop Or fuel sides ex roll tot).
  Proof.
    induction fuel; intros; simpl; destruct (existsb _ _); try apply ro_ret; try apply ro_raise.
    apply ro_bind; [apply ro_one_int|intros; apply IHfuel].
  Qed.
  Lemma ro_roll sides ex : rng_only (single_roll Or sides ex).
  Proof. unfold single_roll. apply ro_bind; [apply ro_one_int|]. intros r. destruct ex; ro. apply ro_explode. Qed.

  Lemma ro_mixture (comps : list (sampler Or)) ws n : (forall c, In c comps -> forall k, rng_only (c k)) ->
    rng_only (mixture_sample Or comps ws n).
  Proof.
    intros H. unfold mixture_sample.
    destruct (fst _) as [[ws' comps']|e] eqn:E; [|apply ro_raise].
    apply mixture_comps in E as (_ & _ & _ & I).
    assert (H' : forall c, In c comps' -> forall k, rng_only (c k)) by (intros; apply H; auto).
    assert (rng_only (large_n Or comps' ws' n)) as L.
    { unfold large_n. apply ro_bind; [|intros; ro]. apply ro_mapS. intros c Hc. apply ro_bind; [auto|intros; apply ro_ret]. }
    assert (rng_only (small_n Or comps' ws' n)) as S.
    { unfold small_n. apply ro_bind; [|intros; ro]. apply ro_repl.
      apply ro_bind; [apply ro_rngf|]. intros us. apply ro_bind; [apply ro_lift|]. intros u.
      apply ro_bind; [apply ro_lift|]. intros i. apply ro_bind'; [apply ro_lift|].
      intros c s s' Hc. apply lift_ok in Hc as [Hc _]. unfold nth_res in Hc.
      destruct (nth_error comps' i) eqn:En; [|discriminate]. inversion Hc; subst.
      apply ro_bind; [apply H'; eapply nth_error_In; eauto|]. intros v. destruct v; ro. }
    destruct comps' as [|c [|c2 comps']].
    - destruct (Nat.ltb 100 n); auto.
    - apply H'. now left.
    - destruct (Nat.ltb 100 n); auto.
  Qed.

  Lemma ro_discrete r n : rng_only (discrete_sample Or r n).
  Proof.
    unfold discrete_sample. apply ro_bind; [apply ro_lift|]. intros wv. apply ro_mixture.
    intros c Hc k. apply in_map_iff in Hc as (x & <- & _). unfold const_sampler. ro.
  Qed.

  Lemma ro_leaf k n : rng_only (leaf_sample Or k n).
  Proof.
    destruct k; simpl; try apply ro_discrete;
      unfold fsample, isample, inverse_lognormal_sample, bernoulli_sample, pareto_sample, pert_sample,
        t_sample, log_t_sample, die_sample, coin_sample; ro; try apply ro_roll; try apply ro_one_int; apply ro_explode.
  Qed.

  Lemma resolve_ro o : (forall n lc rc, rng_only (smp Or o n lc rc)) -> rng_only (resolve Or o).
  Proof.
    intros H. destruct o; [apply ro_ret| | |apply ro_raise]; unfold resolve;
      (apply ro_bind; [apply (H 1%nat None None)|intros v; destruct v; [apply ro_ret|apply ro_raise]]).
  Qed.

  Definition P_ro (o : obj (G Or)) : Prop :=
    self_contained o -> forall n lc rc, rng_only (smp Or o n lc rc).
  Definition R_ro (d : dist (G Or)) : Prop :=
    self_contained_dist d -> forall b n lc rc, rng_only (smp_dist Or b d n lc rc).

  Lemma ro_ext {A} (m m' : MS A) : (forall s, m s = m' s) -> rng_only m' -> rng_only m.
  Proof. intros E H g. destruct (H g) as (r & g' & K). exists r, g'. intros c. now rewrite E. Qed.

  Lemma ro_user_result n (h : St -> res (val + obj (G Or)) * St) :
    rng_only h ->
    (forall s o' s', h s = (Ok (inr o'), s') -> forall k lc rc, rng_only (smp Or o' k lc rc)) ->
    rng_only (fun s => user_result Or n (h s)).
  Proof.
    intros Hh Ho g. destruct (Hh g) as (r & g1 & H1).
    destruct r as [[v|o']|e].
    - exists (Ok v), g1. intros c. rewrite H1. reflexivity.
    - destruct (is_dist_or_callable o') eqn:E.
      + destruct (Ho _ _ _ (H1 (fun _ _ => None)) n None None g1) as (r2 & g2 & H2).
        exists r2, g2. intros c. rewrite H1. simpl. rewrite E. apply H2.
      + exists (Err Unmodelled), g1. intros c. rewrite H1. simpl. now rewrite E.
    - exists (Err e), g1. intros c. rewrite H1. reflexivity.
  Qed.

  Lemma sample_rng_only o : P_ro o.
  Proof.
    apply (obj_ind' P_ro R_ro); unfold P_ro, R_ro.
    - intros v _ n lc rc. rewrite smp_lit. apply ro_wrap. intros; apply ro_ret.
    - intros f IH [Cf Co] n lc rc. eapply ro_ext; [intros s; apply smp_call|]. apply ro_wrap. intros k.
      apply ro_bind'; [now apply ro_repl|]. intros os s s' Hos. apply ro_bind; [|intros; apply ro_ret].
      apply ro_seqS.
      assert (Forall (fun o => rng_only (resolve Or o)) os) as F.
      { eapply replicateS_all; [|exact Hos]. intros s0 o' s0' E. apply resolve_ro. eapply IH; eauto.
        specialize (Co s0). now rewrite E in Co. }
      clear -F. induction F; simpl; constructor; auto.
    - intros d IH C n lc rc. rewrite smp_odist. apply IH. exact C.
    - intros _ n lc rc. rewrite smp_other. apply ro_wrap. intros; apply ro_raise.
    - intros k l r _ b n lc rc. rewrite smp_leaf. apply ro_wrap. intros; apply ro_leaf.
    - intros ws ds l r IH C b n lc rc. rewrite smp_mix. apply ro_wrap. intros k. apply ro_mixture.
      intros c Hc j. apply in_map_iff in Hc as (o' & <- & Ho). simpl in C.
      rewrite Forall_forall in IH. apply IH; auto. clear -C Ho. induction ds; simpl in *; [tauto|].
      destruct Ho as [->|Ho]; tauto.
    - intros l r f IHl IHr IHf (Cl & Cr & Cf) b n lc rc.
      eapply ro_ext; [intros s; apply smp_complex|]. apply ro_wrap. intros k.
      apply ro_bind; [auto|]. intros a. apply ro_bind.
      { unfold right_sample. destruct r as [[]| | |]; try apply ro_ret; (apply ro_bind; [auto|intros; apply ro_ret]). }
      intros y.
      destruct f.
      1-4: intros g; eexists; exists g; intros c; destruct y; reflexivity.
      + destruct Cf as [C1 C2]. destruct y; [intros g; eexists; exists g; intros c; reflexivity|].
        change (rng_only (fun s => user_result Or k (h a s))). apply ro_user_result; auto.
        intros s o' s' E. apply (IHf _ _ _ _ E). specialize (C2 a s). now rewrite E in C2.
      + destruct Cf as [C1 C2]. destruct y as [y|]; [|intros g; eexists; exists g; intros c; reflexivity].
        change (rng_only (fun s => user_result Or k (h a y s))). apply ro_user_result; auto.
        intros s o' s' E. apply (IHf _ _ _ _ _ E). specialize (C2 a y s). now rewrite E in C2.
    - intros g i ms _ C. destruct C.
  Qed.

  (** In terms of two states with the same generator. *)
  Lemma sample_reproducible o n lc rc s1 s2 : self_contained o -> rng s1 = rng s2 ->
    let r1 := smp Or o n lc rc s1 in let r2 := smp Or o n lc rc s2 in
    fst r1 = fst r2 /\ rng (snd r1) = rng (snd r2) /\ corr (snd r1) = corr s1 /\ corr (snd r2) = corr s2.
  Proof.
    intros C E. destruct s1 as [g1 c1], s2 as [g2 c2]. simpl in E. subst g2.
    destruct (sample_rng_only o C n lc rc g1) as (r & g' & H). rewrite !H. auto.
  Qed.

  (* ---------------------------------------------------------------- *)
  (** * C24 *)
  Lemma called_iff (f : St -> res (obj (G Or)) * St) n : forall s os s', called f n s os s' <-> replicateS n f s = (Ok os, s').
  Proof.
    induction n; intros s os s'; split; intros H.
    - inversion H; subst. reflexivity.
    - simpl in H. inv_ok H. constructor.
    - inversion H; subst. simpl. unfold bindS. rewrite H1. apply IHn in H2. rewrite H2. reflexivity.
    - simpl in H. inv_ok H. econstructor; eauto. now apply IHn.
  Qed.
  Lemma resolved_run os : forall s vs s',
    resolved (fun o => smp Or o 1%nat None None) os s vs s' -> seqS (map (resolve Or) os) s = (Ok vs, s').
  Proof.
    induction os; intros s vs s' H; inversion H; subst; simpl; auto.
    - unfold bindS. simpl. erewrite IHos; eauto. reflexivity.
    - unfold bindS at 1.
      replace (resolve Or a s) with (Ok v, s1).
      + unfold bindS. erewrite IHos; eauto. reflexivity.
      + match goal with E : _ = (Ok (Scalar v), s1) |- _ => cbv beta in E;
          destruct a; try discriminate; unfold resolve, bindS; rewrite E; reflexivity end.
  Qed.
  Lemma resolved_iff os : forall s vs s',
    resolved (fun o => smp Or o 1%nat None None) os s vs s' <-> seqS (map (resolve Or) os) s = (Ok vs, s').
  Proof.
    intros s vs s'. split; [apply resolved_run|]. revert s vs s'.
    induction os as [|o os]; intros s vs s' H; simpl in H.
    - inv_ok H. constructor.
    - apply bindS_ok in H as (v & s1 & Hv & H). apply bindS_ok in H as (l & s2 & Hl & H). inv_ok H.
      apply IHos in Hl. destruct o; simpl in Hv.
      + inv_ok Hv. now constructor.
      + apply bindS_ok in Hv as (w & s3 & Hw & Hv). destruct w; simpl in Hv; inv_ok Hv. econstructor; eauto; reflexivity.
      + apply bindS_ok in Hv as (w & s3 & Hw & Hv). destruct w; simpl in Hv; inv_ok Hv. econstructor; eauto; reflexivity.
      + inv_ok Hv.
  Qed.

  Lemma np_array_idem' f l : np_array f (np_array f l) = np_array f l.
  Proof.
    unfold np_array at 2 3.
    destruct (existsb is_none l) eqn:N; [unfold np_array; now rewrite N|].
    destruct (existsb is_str l) eqn:S.
    { apply np_array_strings. apply Forall_forall. intros x Hx. apply in_map_iff in Hx as (y & <- & Hy).
      destruct y; simpl; eauto. }
    assert (A : forall x, In x l -> is_none x = false /\ is_str x = false).
    { intros x Hx. split; apply not_true_is_false; intros C.
      - assert (existsb is_none l = true) by (apply existsb_exists; eauto). congruence.
      - assert (existsb is_str l = true) by (apply existsb_exists; eauto). congruence. }
    destruct (existsb is_flt l) eqn:F.
    { apply np_array_uniform. left. apply Forall_forall. intros x Hx. apply in_map_iff in Hx as (y & <- & Hy).
      destruct (A y Hy). destruct y; simpl in *; try discriminate; eauto. }
    destruct (existsb is_int l) eqn:I.
    { apply np_array_uniform. right. apply Forall_forall. intros x Hx. apply in_map_iff in Hx as (y & <- & Hy).
      destruct (A y Hy).
      assert (is_flt y = false).
      { apply not_true_is_false. intros C. assert (existsb is_flt l = true) by (apply existsb_exists; eauto). congruence. }
      destruct y; simpl in *; try discriminate; eauto. }
    unfold np_array. now rewrite N, S, F, I.
  Qed.

  Lemma model_function f n s v s' : (1 <= n)%nat ->
    (smp Or (OCall f) n None None s = (Ok v, s') <->
     exists os s1 vs, called f n s os s1 /\ resolved (fun o => smp Or o 1%nat None None) os s1 vs s' /\
       v = simplify (np_array (fmt Or) vs)).
  Proof.
    intros Hn. rewrite smp_call, wrap_none by assumption.
    assert (Fin : forall vs, finish_list Or (simplify (np_array (fmt Or) vs)) = simplify (np_array (fmt Or) vs)).
    { intros vs. pose proof (np_array_idem' (fmt Or) vs) as I.
      destruct (np_array (fmt Or) vs) as [|x [|y l]] eqn:E; try reflexivity.
      cbn [simplify finish_list]. now rewrite I. }
    split.
    - destruct (bindS _ _ s) as [[u|e] s2] eqn:E; [|discriminate]. intros H. inversion H; subst. clear H.
      inv_ok E. apply called_iff in Ha. apply resolved_iff in Ha0.
      exists a, s1, a0. rewrite Fin. auto.
    - intros (os & s1 & vs & Hc & Hr & ->). apply called_iff in Hc. apply resolved_iff in Hr.
      unfold bindS. rewrite Hc, Hr. cbn [ret]. now rewrite Fin.
  Qed.
  (** A failing call stops everything before any result is resolved. *)
  Lemma model_function_fails f n k s os s1 e s2 : (k < n)%nat ->
    called f k s os s1 -> f s1 = (Err e, s2) ->
    smp Or (OCall f) n None None s = (Err e, s2).
  Proof.
    intros Hk Hc Hf. rewrite smp_call, wrap_none by lia.
    assert (replicateS n f s = (Err e, s2)) as E.
    { clear -Hk Hc Hf. revert k s os Hk Hc. induction n; intros k s os Hk Hc; [lia|]. simpl. unfold bindS at 1.
      inversion Hc; subst; [now rewrite Hf|]. rewrite H. unfold bindS at 1.
      match goal with K : called f ?j ?t ?os1 s1 |- _ => rewrite (IHn j t os1); [reflexivity|lia|exact K] end. }
    unfold bindS at 1. now rewrite E.
  Qed.

  (* ---------------------------------------------------------------- *)
  (** * C25 *)
  Lemma event_lit p x s us g : as_x p = Some x -> drawf Or (RUniform 0 1) 1 (rng s) = (Ok us, g) ->
    right_length Or ->
    exists u, us = [u] /\ event_occurs Or (OLit p) s = (Ok (xlt (Fin u) x), mkState g (corr s)).
  Proof.
    intros Hx D [RL _]. specialize (RL _ _ _ _ _ D). destruct us as [|u [|? ?]]; try discriminate.
    exists u. split; auto. unfold event_occurs, bindS. simpl. unfold rngf. rewrite D. simpl. rewrite Hx. reflexivity.
  Qed.
  Lemma event_dist o p x s s1 us g : is_dist_or_callable o = true ->
    smp Or o 1 None None s = (Ok (Scalar p), s1) -> as_x p = Some x ->
    drawf Or (RUniform 0 1) 1 (rng s1) = (Ok us, g) -> right_length Or ->
    exists u, us = [u] /\ event_occurs Or o s = (Ok (xlt (Fin u) x), mkState g (corr s1)).
  Proof.
    intros Ho Hs Hx D [RL _]. specialize (RL _ _ _ _ _ D). destruct us as [|u [|? ?]]; try discriminate.
    exists u. split; auto. destruct o; try discriminate; unfold event_occurs, bindS; rewrite Hs; simpl;
      unfold rngf; rewrite D; simpl; rewrite Hx; reflexivity.
  Qed.
End Pure.
