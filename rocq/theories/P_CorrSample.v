(** Sampling correlated variables (C56, C57). *)
From Verif Require Import Base M_Weights M_Pick M_Values M_Sampler M_Corr SpecSampler SpecSampler2 SpecCorr
  P_Sampler P_Clip P_Ops P_Sampler2 P_Pure P_Corr P_Induce.
From Coq Require Import Lqa Permutation.
Open Scope Q_scope.

Section CorrS.
  Variable Or : oracle.
  Notation St := (state (G Or)).
  Notation MS := (M St).

  Lemma own_clips (d : dist (G Or)) lc rc : clips d lc rc -> own_clips_dist Or d = (lc, rc).
  Proof.
    induction 1 as [| | |g i members d lc rc H _ IH]; try reflexivity. cbn. apply (map_nth_error (own_clips_dist Or)) in H.
    rewrite (nth_error_nth _ _ _ H). exact IH.
  Qed.
  Lemma seqS_mapS {A B} (f : A -> MS B) l s : seqS (map f l) s = mapS f l s.
  Proof.
    revert s. induction l as [|x l IH]; intros s; [reflexivity|]. simpl. apply bindS_ext; [reflexivity|].
    intros a s1. apply bindS_ext; [apply IH|reflexivity].
  Qed.
  Lemma plain_member d : self_contained_dist d -> smp_dist Or false d = smp Or (ODist d).
  Proof. destruct d; intros H; try reflexivity. destruct H. Qed.
  Lemma members_run members n s : Forall self_contained_dist members ->
    seqS (map (fun c : nat -> option num -> option num -> MS val => c n None None) (map (smp_dist Or false) members)) s =
    independent Or members n s.
  Proof.
    intros F. rewrite map_map, seqS_mapS. unfold independent. revert s. induction F as [|d l H F IH]; intros s; [reflexivity|].
    simpl mapS. rewrite (plain_member d H). apply bindS_ext; [reflexivity|]. intros a s1. apply bindS_ext; [apply IH|reflexivity].
  Qed.
  Lemma independent_corr members n s r s1 : Forall self_contained_dist members ->
    independent Or members n s = (r, s1) -> corr s1 = corr s.
  Proof.
    intros F H. assert (RO : rng_only (independent Or members n)).
    { apply ro_mapS. intros d I. rewrite Forall_forall in F. apply sample_rng_only. simpl. auto. }
    destruct s as [g0 c0]. destruct (RO g0) as (r' & g' & E). rewrite E in H. now inversion H.
  Qed.

  Lemma corr_fresh g i members n s vs s1 newcols col :
    Forall self_contained_dist members -> (1 <= n)%nat -> pending s g i ->
    own_clips_dist Or (DCorr g i members) = (None, None) ->
    independent Or members n s = (Ok vs, s1) ->
    induce Or g (map (enlist) vs) = Ok newcols -> nth_error newcols i = Some col -> uniform_kind col ->
    smp Or (ODist (DCorr g i members)) n None None s = (Ok (Arr col), store_cols Or g i newcols s1).
  Proof.
    intros F N PD OC D I C U. rewrite smp_odist. cbn [smp_dist]. rewrite OC, wrap_none by auto. cbv beta.
    unfold pending in PD. rewrite PD. unfold bindS at 1. rewrite members_run by auto. rewrite D.
    unfold bindS, lift. rewrite I, C. cbn [finish_list]. now rewrite np_array_uniform.
  Qed.
  Lemma corr_stored g i members m s col :
    (1 <= m)%nat -> own_clips_dist Or (DCorr g i members) = (None, None) ->
    corr s g i = Some (Arr col) -> uniform_kind col ->
    smp Or (ODist (DCorr g i members)) m None None s = (Ok (Arr col), clear_col Or g i s).
  Proof.
    intros N OC C U. rewrite smp_odist. cbn [smp_dist]. rewrite OC, wrap_none by auto. cbv beta. rewrite C.
    cbn [finish_list]. now rewrite np_array_uniform.
  Qed.

  (** The stored columns are handed out one by one. *)
  Lemma corr_rest g members newcols : (forall c, In c newcols -> uniform_kind c) ->
    forall rest s, (forall j m, In (j, m) rest -> (j < length newcols)%nat /\ (1 <= m)%nat /\
                      own_clips_dist Or (DCorr g j members) = (None, None) /\
                      corr s g j = Some (Arr (nth j newcols []))) ->
    NoDup (map fst rest) ->
    exists s', mapS (fun jm => smp Or (ODist (DCorr g (fst jm) members)) (snd jm) None None) rest s =
                 (Ok (map (fun jm => Arr (nth (fst jm) newcols [])) rest), s') /\
      rng s' = rng s /\ (forall g' j, g' <> g -> corr s' g' j = corr s g' j) /\
      (forall j, In j (map fst rest) -> pending s' g j) /\
      (forall j, ~ In j (map fst rest) -> corr s' g j = corr s g j).
  Proof.
    intros U. induction rest as [|[j m] rest IH]; intros s H ND.
    - exists s. simpl. repeat split; auto. intros j [].
    - inversion ND as [|? ? NI ND']; subst. destruct (H j m (or_introl eq_refl)) as (J & M1 & OC & C).
      destruct (IH (clear_col Or g j s)) as (s' & E & R & OG & P1 & P2); auto.
      { intros j' m' I'. destruct (H j' m' (or_intror I')) as (J' & M1' & OC' & C'). repeat split; auto.
        cbn [corr clear_col]. rewrite Nat.eqb_refl. destruct (Nat.eqb_spec j' j) as [->|]; auto.
        exfalso. apply NI. change j with (fst (j, m')). now apply in_map. }
      exists s'. split; [|repeat split].
      + cbn [mapS map fst snd]. unfold bindS at 1. rewrite (corr_stored g j members m s _ M1 OC C) by (apply U, nth_In; auto).
        unfold bindS. rewrite E. reflexivity.
      + rewrite R. reflexivity.
      + intros g' k K. rewrite OG by auto. cbn [corr clear_col]. destruct (Nat.eqb_spec g' g); [contradiction|]. reflexivity.
      + intros k [<-|K]; [|auto]. destruct (in_dec Nat.eq_dec j (map fst rest)) as [K|K]; [auto|].
        unfold pending. simpl fst. rewrite P2 by auto. cbn [corr clear_col]. now rewrite !Nat.eqb_refl.
      + intros k K. cbn [map fst] in K. rewrite P2 by (intros X; apply K; right; auto).
        cbn [corr clear_col]. rewrite Nat.eqb_refl. destruct (Nat.eqb_spec k j) as [->|]; [exfalso; apply K; left; auto|reflexivity].
  Qed.

  (** One joint draw serves every member once. *)
  Lemma corr_round g i members n rest s vs s1 newcols :
    Forall self_contained_dist members -> (1 <= n)%nat -> pending s g i ->
    (forall j, (j < length members)%nat -> own_clips_dist Or (DCorr g j members) = (None, None)) ->
    independent Or members n s = (Ok vs, s1) ->
    induce Or g (map enlist vs) = Ok newcols -> length newcols = length members ->
    (forall c, In c newcols -> uniform_kind c) ->
    (i < length members)%nat -> (forall j m, In (j, m) rest -> (j < length members)%nat /\ (1 <= m)%nat) ->
    NoDup (i :: map fst rest) ->
    exists s' s'',
      smp Or (ODist (DCorr g i members)) n None None s = (Ok (Arr (nth i newcols [])), s') /\
      rng s' = rng s1 /\
      mapS (fun jm => smp Or (ODist (DCorr g (fst jm) members)) (snd jm) None None) rest s' =
        (Ok (map (fun jm => Arr (nth (fst jm) newcols [])) rest), s'') /\
      rng s'' = rng s1 /\
      (forall j, In j (i :: map fst rest) -> pending s'' g j) /\
      (forall j, (j < length members)%nat -> ~ In j (i :: map fst rest) -> corr s'' g j = Some (Arr (nth j newcols []))) /\
      (forall g' j, g' <> g -> corr s'' g' j = corr s g' j).
  Proof.
    intros F N PD OC D I L U Hi HR ND. inversion ND as [|? ? NI ND']; subst.
    pose proof (independent_corr _ _ _ _ _ F D) as CS.
    assert (NE : forall j, (j < length members)%nat -> nth_error newcols j = Some (nth j newcols [])).
    { intros j J. apply nth_error_nth'. lia. }
    pose proof (corr_fresh g i members n s vs s1 newcols _ F N PD (OC i Hi) D I (NE i Hi)) as E1.
    assert (SC : forall j, (j < length members)%nat -> j <> i -> corr (store_cols Or g i newcols s1) g j = Some (Arr (nth j newcols []))).
    { intros j J JI. cbn [corr store_cols]. rewrite Nat.eqb_refl. destruct (Nat.eqb_spec j i); [contradiction|]. now rewrite NE. }
    destruct (corr_rest g members newcols U rest (store_cols Or g i newcols s1)) as (s'' & E2 & R & OG & P1 & P2); auto.
    { intros j m J. destruct (HR j m J). repeat split; auto; [lia|]. apply SC; auto. intros ->. apply NI.
      change i with (fst (i, m)). now apply in_map. }
    exists (store_cols Or g i newcols s1), s''. split; [apply E1, U, nth_In; lia|]. split; [reflexivity|]. split; [exact E2|].
    split; [now rewrite R|]. split; [|split].
    - intros j [<-|J]; [|auto]. unfold pending. rewrite P2 by auto. cbn [corr store_cols]. rewrite !Nat.eqb_refl, CS. exact PD.
    - intros j J K. rewrite P2 by (intros X; apply K; right; auto). apply SC; auto. intros ->. apply K. left; auto.
    - intros g' j K. rewrite OG by auto. cbn [corr store_cols]. destruct (Nat.eqb_spec g' g); [contradiction|]. now rewrite CS.
  Qed.

  (** A member whose column is not stored always triggers a new draw; if that draw
      fails, so does the sampling, and nothing is stored. *)
  Lemma corr_fails g i members n s e s1 : Forall self_contained_dist members -> (1 <= n)%nat -> pending s g i ->
    independent Or members n s = (Err e, s1) ->
    smp Or (ODist (DCorr g i members)) n None None s = (Err e, s1).
  Proof.
    intros F N PD D. rewrite smp_odist. cbn [smp_dist]. unfold wrap. destruct n as [|n]; [lia|].
    unfold bindS at 1. unfold pending in PD. rewrite PD. unfold bindS at 1. rewrite members_run by auto. now rewrite D.
  Qed.
  Lemma corr_induce_fails g i members n s vs e s1 : Forall self_contained_dist members -> (1 <= n)%nat -> pending s g i ->
    independent Or members n s = (Ok vs, s1) -> induce Or g (map enlist vs) = Err e ->
    smp Or (ODist (DCorr g i members)) n None None s = (Err e, s1).
  Proof.
    intros F N PD D I. rewrite smp_odist. cbn [smp_dist]. unfold wrap. destruct n as [|n]; [lia|].
    unfold bindS at 1. unfold pending in PD. rewrite PD. unfold bindS at 1. rewrite members_run by auto. rewrite D.
    unfold bindS, lift. now rewrite I.
  Qed.
  (** With clips: the clipped column of the same joint draw. *)
  Lemma corr_clipped g i members n lc rc s v s' vs s1 newcols col :
    Forall self_contained_dist members -> pending s g i ->
    independent Or members n s = (Ok vs, s1) ->
    induce Or g (map enlist vs) = Ok newcols -> nth_error newcols i = Some col -> uniform_kind col ->
    smp Or (ODist (DCorr g i members)) n lc rc s = (Ok v, s') ->
    s' = store_cols Or g i newcols s1 /\
    Forall2 (clamped (tight_lower (q_of lc) (q_of (fst (own_clips_dist Or (DCorr g i members)))))
                     (tight_upper (q_of rc) (q_of (snd (own_clips_dist Or (DCorr g i members)))))) col (elems v).
  Proof.
    intros F PD D I C U H. rewrite smp_odist in H. cbn [smp_dist] in H. apply wrap_clips in H as (u & H & E).
    destruct n as [|n]; [discriminate|]. rewrite wrap_none in H by lia. cbv beta in H. unfold pending in PD. rewrite PD in H.
    unfold bindS at 1 in H. rewrite members_run in H by auto. rewrite D in H.
    unfold bindS, lift in H. rewrite I, C in H. cbn [finish_list] in H. rewrite np_array_uniform in H by auto.
    inversion H; subst. split; auto.
  Qed.

  (** ** End to end with [induce_correlation] *)
  Lemma flts_uniform l : uniform_kind (flts l).
  Proof. left. apply Forall_forall. intros v I. apply in_map_iff in I as (q & <- & _). eauto. Qed.
  Lemma corr_marginals argsort scores spearman gr g i members n s s1 cols out col :
    sorts argsort -> well_shaped scores -> induces Or argsort scores spearman g gr ->
    Forall self_contained_dist members -> (1 <= n)%nat -> pending s g i ->
    own_clips_dist Or (DCorr g i members) = (None, None) ->
    independent Or members n s = (Ok (map (fun c => simplify (flts c)) cols), s1) ->
    (forall c, In c cols -> c <> []) ->
    induce_correlation argsort scores spearman gr cols = Ok out ->
    nth_error out i = Some col ->
    smp Or (ODist (DCorr g i members)) n None None s = (Ok (Arr (flts col)), store_cols Or g i (map flts out) s1).
  Proof.
    intros SO W IN F N PD OC D NE IC C.
    assert (EL : map enlist (map (fun c => simplify (flts c)) cols) = map flts cols).
    { rewrite map_map. apply map_ext_in. intros c Hc. specialize (NE c Hc). destruct c as [|x [|y c]]; [congruence|reflexivity|reflexivity]. }
    eapply corr_fresh; eauto.
    - rewrite EL, IN, IC. reflexivity.
    - now rewrite nth_error_map, C.
    - apply flts_uniform.
  Qed.
End CorrS.

(** The number of values of a new joint draw (C57). *)
From Verif Require Import P_Count.
Lemma corr_count Or g i members n s v s' : right_length Or -> keeps_shape Or g ->
  Forall (fun d => self_contained_dist d /\ covered_dist d) members -> pending s g i ->
  smp Or (ODist (DCorr g i members)) n None None s = (Ok v, s') ->
  length (elems v) = n.
Proof.
  intros RL KS F PD H.
  assert (F1 : Forall self_contained_dist members) by (eapply Forall_impl; [|exact F]; simpl; tauto).
  rewrite smp_odist in H. cbn [smp_dist] in H. apply wrap_clips in H as (u & H & E).
  rewrite <- (f2_len _ _ _ E). clear E. destruct n as [|n]; [discriminate|]. rewrite wrap_none in H by lia. cbv beta in H.
  unfold pending in PD. rewrite PD in H. unfold bindS at 1 in H. rewrite members_run in H by auto.
  destruct (independent Or members (S n) s) as [[vs|e] s1] eqn:D; [|discriminate].
  unfold bindS, lift in H. destruct (induce Or g (map enlist vs)) as [out|e] eqn:I; [|discriminate].
  destruct (nth_error out i) as [c|] eqn:C; [|discriminate]. inversion H; subst. cbn [finish_list elems].
  rewrite np_array_length. pose proof (KS _ _ I) as K.
  assert (LE : Forall (fun w => length (enlist w) = S n) vs).
  { unfold independent in D. clear - RL F D. revert s s1 vs D. induction members as [|d l IH]; intros s s1 vs D; simpl in D.
    - apply ret_ok in D as [<- _]. constructor.
    - inversion F as [|? ? [SC CV] F']; subst. apply bindS_ok in D as (w & s2 & W & D). apply bindS_ok in D as (ws & s3 & D & R).
      apply ret_ok in R as [<- _]. constructor; [|eapply IH; eauto].
      assert (N : n_samples (S n) w) by (exact (sample_count Or RL (ODist d) CV _ _ _ _ _ _ W)).
      destruct n; [destruct N as (x & ->); reflexivity|destruct N as (x & -> & L); exact L]. }
  assert (IL : (i < length out)%nat) by (apply nth_error_Some; congruence).
  assert (KL : length (map (@enlist) vs) = length out) by (apply (f2_len _ _ _ K)).
  pose proof (f2_nth _ _ _ i [] [] K) as X. rewrite KL in X. specialize (X IL).
  rewrite (nth_error_nth _ _ _ C) in X. rewrite <- X. rewrite nth_map2 with (d' := Scalar PNone) by (rewrite map_length in KL; lia).
  rewrite Forall_forall in LE. apply LE, nth_In. rewrite map_length in KL. lia.
Qed.
