(** Lemmas about the identity of returned arrays. *)
From Verif Require Import Base M_Weights M_Pick M_Values M_Sampler M_SampleApi M_Alias SpecCache P_Cache.

Section Alias.
  Variable Or : oracle.
  Notation hworld := (hworld Or).
  Notation heap_ok := (heap_ok Or).
  Implicit Types w : hworld.

  Lemma upd_nat_eq {A} (m : nat -> option A) k v : upd_nat m k v k = v.
  Proof. unfold upd_nat. now rewrite Nat.eqb_refl. Qed.
  Lemma upd_nat_ne {A} (m : nat -> option A) k v k' : k' <> k -> upd_nat m k v k' = m k'.
  Proof. intros H. unfold upd_nat. destruct (Nat.eqb_spec k' k); congruence. Qed.

  Lemma h_sample_ok key o n b w r w' : heap_ok w -> h_sample Or key o n b w = (r, w') -> heap_ok w'.
  Proof.
    intros [A B] H. unfold h_sample in H.
    destruct (if b then h_mem Or w key else None); [inversion H; subst; split; assumption|].
    destruct (smp _ _ _ _ _ _) as [[v|e] s1]; [|inversion H; subst; split; assumption].
    destruct v as [x|xs]; simpl in H; inversion H; subst; clear H; split; simpl.
    - intros k l E. destruct b; [|now apply (A k)].
      destruct (String.eqb_spec k key) as [->|N]; [rewrite upd_str_eq in E; discriminate|].
      rewrite upd_str_ne in E by assumption. now apply (A k).
    - exact B.
    - intros k l E.
      assert (K : (l < next Or w)%nat /\ heap Or w l <> None \/ l = next Or w).
      { destruct b; [|left; now apply (A k)].
        destruct (String.eqb_spec k key) as [->|N]; [rewrite upd_str_eq in E; injection E as <-; now right|].
        rewrite upd_str_ne in E by assumption. left. now apply (A k). }
      destruct K as [[K1 K2]| ->].
      + split; [lia|]. rewrite upd_nat_ne by lia. assumption.
      + split; [lia|]. rewrite upd_nat_eq. discriminate.
    - intros l L. rewrite upd_nat_ne by lia. apply B. lia.
  Qed.

  (** Results of calls that bypass the cache are private. *)
  Lemma private_result key o n w r w1 i x k c : heap_ok w -> h_sample Or key o n false w = (Ok r, w1) ->
    h_mem Or w1 k = Some c ->
    deref (heap Or (poke Or r i x w1)) c = deref (heap Or w1) c /\ h_mem Or (poke Or r i x w1) k = Some c.
  Proof.
    intros [A B] H M. unfold h_sample in H.
    destruct (smp _ _ _ _ _ _) as [[v|e] s1]; [|discriminate].
    destruct v as [y|xs]; simpl in H; inversion H; subst; clear H; simpl in *; auto.
    unfold poke. simpl. rewrite upd_nat_eq. simpl. split; auto.
    destruct c as [z|l]; auto. simpl. destruct (A k l M) as [L _].
    rewrite !upd_nat_ne by lia. reflexivity.
  Qed.
  Lemma poke_one l i x w xs : heap Or w l = Some xs -> (i < length xs)%nat ->
    exists ys, deref (heap Or (poke Or (RLoc l) i x w)) (RLoc l) = Some (Arr ys) /\ length ys = length xs /\
      nth_error ys i = Some x /\ (forall j, j <> i -> nth_error ys j = nth_error xs j) /\
      (forall l', l' <> l -> heap Or (poke Or (RLoc l) i x w) l' = heap Or w l').
  Proof.
    intros H L. unfold poke. rewrite H. cbn [heap deref]. rewrite upd_nat_eq. cbn.
    destruct (nth_split xs x L) as (a & b & E & La). set (y := nth i xs x) in E.
    assert (F : firstn i xs = a) by (rewrite E, <- La, firstn_app, Nat.sub_diag, firstn_all; cbn; apply app_nil_r).
    assert (K : skipn i xs = y :: b) by (rewrite E, <- La, skipn_app, Nat.sub_diag, skipn_all; reflexivity).
    rewrite F, K. exists (a ++ x :: b). split; [reflexivity|]. split; [rewrite E, !app_length; reflexivity|].
    split; [rewrite nth_error_app2 by lia; now rewrite La, Nat.sub_diag|]. split.
    - intros j N. rewrite E. destruct (Nat.lt_ge_cases j i) as [J|J]; [rewrite !nth_error_app1 by lia; reflexivity|].
      rewrite !nth_error_app2 by lia. destruct (j - length a)%nat eqn:D; [lia|reflexivity].
    - intros l' N. now rewrite upd_nat_ne.
  Qed.

  (** The identity model agrees with the value model on what is returned. *)
  Definition abstracts w (u : world Or) : Prop :=
    st Or u = h_st Or w /\ forall k, mem Or u k = match h_mem Or w k with Some r => deref (heap Or w) r | None => None end.
  Definition plain_call key o n b s0 : call Or :=
    mkCall Or o key n None None b false None None false 1 (fun _ => s0) [].
  Lemma h_refines key o n b s0 w u : heap_ok w -> abstracts w u -> (1 <= n)%nat -> o <> OOther ->
    match h_sample Or key o n b w, sample_call Or (plain_call key o n b s0) u with
    | (Ok r, w'), (Ok v, u') => deref (heap Or w') r = Some v /\ abstracts w' u'
    | (Err e, w'), (Err e', u') => e = e' /\ abstracts w' u'
    | _, _ => False
    end.
  Proof.
    intros HO [As Am] N NO.
    rewrite call_run by (split; assumption).
    unfold h_sample, obtain, from_cache, the_file. cbn [plain_call c_load c_memcache c_reload c_key c_cores c_obj c_n c_lc c_rc is_some orb negb andb].
    rewrite Am. destruct b.
    - cbn [andb]. destruct (h_mem Or w key) as [r|] eqn:E.
      + destruct (deref (heap Or w) r) as [v|] eqn:D.
        * cbn. split; auto. split; auto.
        * exfalso. destruct r as [y|l]; [discriminate|]. destruct HO as [A B]. destruct (A _ _ E) as [_ K].
          simpl in D. destruct (heap Or w l); [discriminate|now apply K].
      + change (1 <? 1)%nat with false. cbv iota. rewrite <- As.
        destruct (smp Or o n None None (st Or u)) as [[v|e] s1] eqn:Es; cbn; [|split; auto; split; auto].
        destruct v as [x|xs]; cbn; (split; [now rewrite ?upd_nat_eq|]); split; auto; cbn; intros k.
        * destruct (String.eqb_spec k key) as [->|Nk]; [rewrite !upd_str_eq; reflexivity|rewrite !upd_str_ne by assumption; apply Am].
        * destruct (String.eqb_spec k key) as [->|Nk]; [rewrite !upd_str_eq; cbn; now rewrite upd_nat_eq|].
          rewrite !upd_str_ne by assumption. rewrite Am. destruct (h_mem Or w k) as [[y|l]|] eqn:Ek; auto.
          cbn. rewrite upd_nat_ne; auto. destruct HO as [A B]. destruct (A _ _ Ek). lia.
    - cbn [andb]. change (1 <? 1)%nat with false. cbv iota. rewrite <- As.
      destruct (smp Or o n None None (st Or u)) as [[v|e] s1] eqn:Es; cbn; [|split; auto; split; auto].
      destruct v as [x|xs]; cbn; (split; [now rewrite ?upd_nat_eq|]); split; auto; cbn; intros k.
      rewrite Am. destruct (h_mem Or w k) as [[y|l]|] eqn:Ek; auto.
      cbn. rewrite upd_nat_ne; auto. destruct HO as [A B]. destruct (A _ _ Ek). lia.
  Qed.
End Alias.
