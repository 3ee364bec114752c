(** Lemmas for [Props_Dominance]. *)
From Coq Require Import Lqa Sorted.
From Verif Require Import Base M_Weights M_Values M_Sampler SpecWeights SpecSampler SpecMixture SpecOps SpecDiscrete SpecDominance
  P_Weights P_Support P_Ctor P_Count P_Clip P_Discrete P_Discrete2.
Open Scope Q_scope.

Lemma upto_nonneg l x : nonneg (map fst l) -> 0 <= weight_upto l x.
Proof.
  unfold weight_upto. induction l as [|e l IH]; intros N; cbn; [lra|]. inversion N as [|? ? A B]; subst.
  destruct (Qle_bool (worth e) x); cbn; specialize (IH B); lra.
Qed.
Lemma upto_above l x : Forall (fun e => x < worth e) l -> weight_upto l x == 0.
Proof.
  unfold weight_upto. induction 1 as [|e l H F IH]; cbn; [reflexivity|].
  destruct (Qle_bool (worth e) x) eqn:E; [apply Qle_bool_iff in E; lra|exact IH].
Qed.
Lemma upto_prefix l : ascending l -> nonneg (map fst l) -> forall i e x, nth_error l i = Some e -> x < worth e ->
  weight_upto l x <= total (firstn i (map fst l)).
Proof.
  induction 1 as [|e0 l A IH F]; intros N i e x E X; [destruct i; discriminate|]. inversion N as [|? ? P Q]; subst.
  destruct i as [|i]; cbn in E.
  - injection E as ->. rewrite upto_above; [cbn; lra|]. constructor; auto. eapply Forall_impl; [|exact F]. intros y H. cbv beta in H. lra.
  - specialize (IH Q i e x E X). unfold weight_upto in *. cbn. destruct (Qle_bool (worth e0) x); cbn; lra.
Qed.
Lemma prefix_upto l : ascending l -> nonneg (map fst l) -> forall i e, nth_error l i = Some e ->
  total (firstn (S i) (map fst l)) <= weight_upto l (worth e).
Proof.
  induction 1 as [|e0 l A IH F]; intros N i e E; [destruct i; discriminate|]. inversion N as [|? ? P Q]; subst.
  pose proof (upto_nonneg l (worth e) Q) as U. unfold weight_upto in *. cbn [filter].
  assert (L : worth e0 <= worth e).
  { destruct i as [|i]; cbn in E; [injection E as ->; lra|]. rewrite Forall_forall in F. apply F. eapply nth_error_In; eauto. }
  apply Qle_bool_iff in L. rewrite L. destruct i as [|i]; cbn [map firstn total] in *; [lra|].
  specialize (IH Q i e E). cbn [map firstn total] in *. lra.
Qed.
Lemma positive_nonneg l : positive l -> nonneg l.
Proof. intros H. eapply Forall_impl; [|exact H]. intros a. cbv beta. lra. Qed.
Lemma prefix_le l i : nonneg l -> total (firstn i l) <= total l.
Proof.
  revert i. induction l as [|x l IH]; intros i N; destruct i; cbn; try lra.
  - inversion N; subst. pose proof (IH 0%nat H2). cbn in *. lra.
  - inversion N; subst. specialize (IH i H2). lra.
Qed.
Lemma prefix_lt l i : positive l -> (i < length l)%nat -> total (firstn i l) < total l.
Proof.
  revert i. induction l as [|x l IH]; intros i N L; [cbn in L; lia|]. inversion N as [|? ? A B]; subst. destruct i; cbn.
  - pose proof (prefix_le l 0 (positive_nonneg _ B)). cbn in *. lra.
  - cbn in L. specialize (IH i B ltac:(lia)). lra.
Qed.
Lemma prefix_pos l i : positive l -> l <> [] -> 0 < total (firstn (S i) l).
Proof.
  intros P N. destruct l as [|x l]; [congruence|]. inversion P as [|? ? A B]; subst. cbn.
  pose proof (prefix_le (firstn i l) 0) as H. cbn in H.
  assert (nonneg (firstn i l)) as F. { apply positive_nonneg. clear - B. unfold positive in *. revert i. induction B; intros [|i]; cbn; constructor; auto. }
  specialize (H F). lra.
Qed.

(** The same draw picks no smaller a number. *)
Lemma dominated_pick l l' u i j e e' : ascending l -> ascending l' -> positive (map fst l) -> positive (map fst l') ->
  dominated l l' -> falls (map fst l) u i -> falls (map fst l') u j -> nth_error l i = Some e -> nth_error l' j = Some e' ->
  worth e <= worth e'.
Proof.
  intros A A' P P' [T D] (I & U & _) (J & _ & V) E E'. apply Qnot_lt_le. intros L.
  pose proof (upto_prefix l A (positive_nonneg _ P) i e (worth e') E L) as X.
  pose proof (prefix_upto l' A' (positive_nonneg _ P') j e' E') as Y. specialize (D (worth e')).
  pose proof (prefix_lt (map fst l) i P I) as Z.
  assert (W : 0 < total (firstn (S j) (map fst l'))). { apply prefix_pos; auto. destruct l'; [destruct j; discriminate|discriminate]. }
  destruct U as [->|U]; [cbn in X; lra|]. destruct V as [V|V]; [|lra].
  rewrite V, firstn_all in Y. lra.
Qed.

(* ------------------------------------------------------------ entries of weight zero *)
Definition kept (l : entries) : entries := filter (fun e => Qlt_bool 0 (fst e)) l.
Lemma kept_upto l x : nonneg (map fst l) -> weight_upto (kept l) x == weight_upto l x.
Proof.
  unfold weight_upto, kept. induction l as [|e l IH]; intros N; [reflexivity|]. inversion N as [|? ? A B]; subst. specialize (IH B).
  cbn [filter]. destruct (Qlt_bool 0 (fst e)) eqn:E; cbn [filter].
  - destruct (Qle_bool (worth e) x); cbn [map total]; lra.
  - apply qlt_false in E. destruct (Qle_bool (worth e) x); cbn [map total]; lra.
Qed.
Lemma kept_total l : nonneg (map fst l) -> total (map fst (kept l)) == total (map fst l).
Proof.
  unfold kept. induction l as [|e l IH]; intros N; [reflexivity|]. inversion N as [|? ? A B]; subst. specialize (IH B).
  cbn [filter]. destruct (Qlt_bool 0 (fst e)) eqn:E; cbn [map total]; [lra|]. apply qlt_false in E. lra.
Qed.
Lemma kept_positive l : positive (map fst (kept l)).
Proof.
  unfold kept. induction l as [|e l IH]; cbn [filter]; [constructor|]. destruct (Qlt_bool 0 (fst e)) eqn:E; [|exact IH].
  constructor; auto. now apply qlt_true.
Qed.
Lemma kept_ascending l : ascending l -> ascending (kept l).
Proof.
  unfold kept. induction 1 as [|e l A IH F]; cbn [filter]; [constructor|]. destruct (Qlt_bool 0 (fst e)); [|exact IH].
  constructor; auto. rewrite Forall_forall in *. intros y I. apply filter_In in I as [I _]. auto.
Qed.
Lemma kept_two l : acceptable l -> (2 <= length (kept l))%nat.
Proof.
  intros (_ & _ & _ & e & e' & a & b & c & -> & P & P'). unfold kept. rewrite filter_app. cbn [filter].
  apply qlt_true in P. apply qlt_true in P'. rewrite P, filter_app. cbn [filter]. rewrite P'.
  rewrite app_length. cbn [length]. rewrite app_length. cbn [length]. lia.
Qed.
Lemma written_kept l : acceptable l ->
  exists items, written l = LCatList items /\
    cat_list items = Ok (map fst (kept l), map (fun e => IPlain (num_pv (snd e))) (kept l)).
Proof.
  intros (N & T1 & T2 & e1 & e2 & a & b & c & E & _ & _). eexists. split; [reflexivity|].
  set (m := map (fun e : Q * num => (fst e, num_pv (snd e))) l).
  assert (MF : map fst m = map fst l) by (unfold m; rewrite map_map; reflexivity).
  pose proof (pairs_processed m) as H. rewrite MF in H. unfold m at 2 in H. rewrite map_map in H. cbn [fst snd] in H.
  rewrite H; auto.
  - unfold positive_entries, kept, m. clear. f_equal. f_equal.
    + induction l as [|e l IH]; [reflexivity|]. cbn [map filter fst]. destruct (Qlt_bool 0 (fst e)); cbn [map fst]; now rewrite IH.
    + induction l as [|e l IH]; [reflexivity|]. cbn [map filter fst]. destruct (Qlt_bool 0 (fst e)); cbn [map snd]; now rewrite IH.
  - unfold m. rewrite E. intros X. apply map_eq_nil in X. destruct a; discriminate.
Qed.

(* ------------------------------------------------------------ samples *)
Lemma single_same Or n s us s1 : single_draws Or n s us s1 -> forall us' s2, single_draws Or n s us' s2 -> us = us' /\ s1 = s2.
Proof.
  induction 1 as [s|n s u g us s1 D H IH]; intros us' s2 H'; inversion H'; subst; [auto|].
  match goal with X : drawf Or _ _ (rng s) = (Ok [?v], ?h) |- _ => rewrite D in X; injection X as <- <- end.
  edestruct IH as [-> ->]; [eassumption|auto].
Qed.
Lemma draws_same Or n s us s1 us' s2 : uniform_draws Or n s us s1 -> uniform_draws Or n s us' s2 -> us = us' /\ s1 = s2.
Proof.
  unfold uniform_draws. destruct (Nat.leb n 100); [intros; eapply single_same; eauto|].
  intros (g & D & ->) (g' & D' & ->). rewrite D in D'. injection D' as -> ->. auto.
Qed.
Lemma pv_le_same a a' b b' : same_number a a' -> same_number b b' -> pv_le a b -> pv_le a' b'.
Proof.
  unfold same_number. intros A B (x & y & X & Y & L). rewrite X in A. rewrite Y in B. unfold pv_le.
  destruct (as_x a') as [[p| | |]|]; cbn in A; try contradiction; try discriminate A. destruct (as_x b') as [[q| | |]|]; cbn in B; try contradiction; try discriminate B.
  exists p, q. repeat split. rewrite <- A, <- B. exact L.
Qed.
Lemma list_le_same l m : Forall2 pv_le l m -> forall l' m', Forall2 same_number l l' -> Forall2 same_number m m' -> Forall2 pv_le l' m'.
Proof.
  induction 1 as [|a b l m H F IH]; intros l' m' A B; inversion A; subst; inversion B; subst; constructor; auto.
  eapply pv_le_same; eauto.
Qed.
Lemma simplify_le l m : Forall2 pv_le l m -> samples_le (simplify l) (simplify m).
Proof.
  intros F. destruct F as [|a b l m H F]; [constructor|]. destruct F as [|a' b' l m H' F]; [exact H|].
  cbn. constructor; auto.
Qed.
Lemma pv_le_numeric l m : Forall2 pv_le l m -> Forall numeric l /\ Forall numeric m.
Proof.
  induction 1 as [|a b l m (x & y & X & Y & _) F [IH IH']]; split; constructor; auto; eexists; eauto.
Qed.
Lemma draws_length Or n s us s' : right_length Or -> uniform_draws Or n s us s' -> length us = n.
Proof.
  intros [RF _] H. unfold uniform_draws in H. destruct (Nat.leb n 100).
  - clear RF. induction H; cbn; auto.
  - destruct H as (g & H & _). eapply RF; eauto.
Qed.
Lemma num_plain c : plain (num_pv c) (num_q c).
Proof. destruct c; cbn; reflexivity. Qed.
Lemma dominance_numbers Or : right_length Or -> forall l l' n s v v' s1 s2, acceptable l -> acceptable l' -> ascending l -> ascending l' ->
  dominated l l' -> (1 <= n)%nat ->
  smp Or (ODist (DLeaf (written l) None None)) n None None s = (Ok v, s1) ->
  smp Or (ODist (DLeaf (written l') None None)) n None None s = (Ok v', s2) ->
  exists xs xs' qs qs', v = simplify (np_array (fmt Or) xs) /\ v' = simplify (np_array (fmt Or) xs') /\ length xs = n /\ length xs' = n /\
    Forall2 plain xs qs /\ Forall2 plain xs' qs' /\ Forall2 Qle qs qs' /\ s1 = s2.
Proof.
  intros RL l l' n s v v' s1 s2 U U' A A' D N E E'.
  destruct (written_kept l U) as (items & W & C). destruct (written_kept l' U') as (items' & W' & C').
  apply (discrete_values Or RL (written l) (map fst (kept l)) (map (fun e => IPlain (num_pv (snd e))) (kept l))) in E;
    [|left; eauto|auto|rewrite map_length; now apply kept_two].
  apply (discrete_values Or RL (written l') (map fst (kept l')) (map (fun e => IPlain (num_pv (snd e))) (kept l'))) in E';
    [|left; eauto|auto|rewrite map_length; now apply kept_two].
  destruct E as (us & xs & Dr & F & ->). destruct E' as (us' & xs' & Dr' & F' & ->).
  destruct (draws_same _ _ _ _ _ _ _ Dr Dr') as [<- <-].
  assert (DK : dominated (kept l) (kept l')).
  { destruct U as (N1 & _), U' as (N2 & _), D as [T D]. split; [rewrite !kept_total by auto; exact T|].
    intros x. rewrite !kept_upto by auto. apply D. }
  assert (Lu : length us = n) by (eapply draws_length; eauto).
  assert (G : exists qs qs', Forall2 plain xs qs /\ Forall2 plain xs' qs' /\ Forall2 Qle qs qs').
  { clear Dr Dr' Lu. revert xs' F'. induction F as [|u x us xs H F IH]; intros xs' F'; inversion F' as [|? y ? ys H' F'']; subst; [exists [], []; repeat split; constructor|].
    destruct (IH _ F'') as (qs & qs' & P & P' & L).
    destruct H as (i & it & Fa & _ & Ni & ->). destruct H' as (j & it' & Fa' & _ & Nj & ->).
    rewrite nth_error_map in Ni, Nj. destruct (nth_error (kept l) i) as [e|] eqn:Ei; [|discriminate].
    destruct (nth_error (kept l') j) as [e'|] eqn:Ej; [|discriminate]. injection Ni as <-. injection Nj as <-.
    pose proof (dominated_pick (kept l) (kept l') u i j e e' (kept_ascending _ A) (kept_ascending _ A') (kept_positive _) (kept_positive _) DK Fa Fa' Ei Ej) as G.
    exists (worth e :: qs), (worth e' :: qs'). repeat split; constructor; auto; apply num_plain. }
  destruct G as (qs & qs' & P & P' & L). assert (FL : forall R (a : list Q) (b : list pv), Forall2 R a b -> length a = length b) by (intros R a b K; induction K; cbn; auto). apply FL in F, F'.
  exists xs, xs', qs, qs'. repeat split; auto; congruence.
Qed.
Lemma plain_le l m qs : Forall2 plain l qs -> forall qs', Forall2 plain m qs' -> Forall2 Qle qs qs' -> Forall2 pv_le l m.
Proof.
  intros P. revert m. induction P as [|a x l xs H P IH]; intros m qs' P' L; inversion L as [|? y ? ys Lx Ls]; subst; inversion P' as [|b ? m' ? H' P'']; subst; constructor; eauto.
  destruct a as [z|[q| | |]| | |]; cbn in H; try contradiction; destruct b as [z'|[q'| | |]| | |]; cbn in H'; try contradiction; (eexists _, _; split; [reflexivity|]; split; [reflexivity|]; lra).
Qed.
Lemma dominance Or : right_length Or -> forall l l' n s v v' s1 s2, acceptable l -> acceptable l' -> ascending l -> ascending l' ->
  dominated l l' -> (1 <= n)%nat ->
  smp Or (ODist (DLeaf (written l) None None)) n None None s = (Ok v, s1) ->
  smp Or (ODist (DLeaf (written l') None None)) n None None s = (Ok v', s2) ->
  samples_le v v' /\ s1 = s2.
Proof.
  intros RL l l' n s v v' s1 s2 U U' A A' D N E E'.
  destruct (dominance_numbers Or RL l l' n s v v' s1 s2 U U' A A' D N E E') as (xs & xs' & qs & qs' & -> & -> & _ & _ & P & P' & L & ->). split; auto.
  pose proof (plain_le _ _ _ P _ P' L) as Lv.
  destruct (pv_le_numeric _ _ Lv) as [NX NY]. apply simplify_le. eapply list_le_same; [exact Lv| |]; now apply np_array_same.
Qed.

(* ------------------------------------------------------------ cases of dominance *)
Lemma raised_dominated l l' : nonneg (map fst l) -> Forall2 (fun e e' => fst e = fst e' /\ worth e <= worth e') l l' -> dominated l l'.
Proof.
  intros N F. split.
  - induction F as [|e e' l l' [E _] F IH]; [reflexivity|]. inversion N; subst. cbn [map total]. rewrite E, IH by auto. reflexivity.
  - intros x. unfold weight_upto. induction F as [|e e' l l' [E L] F IH]; [apply Qle_refl|]. inversion N as [|? ? A B]; subst.
    specialize (IH B). cbn [filter]. destruct (Qle_bool (worth e') x) eqn:C, (Qle_bool (worth e) x) eqn:D; cbn [map total]; rewrite <- ?E; try lra.
    apply Qle_bool_iff in C. apply qle_false in D. lra.
Qed.
Lemma upto_app a b x : weight_upto (a ++ b) x == weight_upto a x + weight_upto b x.
Proof. unfold weight_upto. rewrite filter_app, map_app. apply total_app. Qed.
Lemma upto_cons e b x : weight_upto (e :: b) x == (if Qle_bool (worth e) x then fst e else 0) + weight_upto b x.
Proof. unfold weight_upto. cbn [filter]. destruct (Qle_bool (worth e) x); cbn [map total]; lra. Qed.
Lemma moved_dominated a b c w w' x y d : 0 <= d -> num_q x <= num_q y ->
  dominated (a ++ (w, x) :: b ++ (w', y) :: c) (a ++ (w - d, x) :: b ++ (w' + d, y) :: c).
Proof.
  intros D L. split.
  - rewrite !map_app, !total_app. cbn [map total fst]. rewrite !map_app, !total_app. cbn [map total fst]. lra.
  - intros z. rewrite !upto_app, !upto_cons, !upto_app, !upto_cons. unfold worth. cbn [fst snd].
    destruct (Qle_bool (num_q x) z) eqn:E, (Qle_bool (num_q y) z) eqn:F; try lra.
    apply Qle_bool_iff in F. apply qle_false in E. lra.
Qed.
