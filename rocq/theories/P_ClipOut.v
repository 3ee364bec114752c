(** When clipped sampling succeeds. *)
From Verif Require Import Base M_Weights M_Pick M_Values M_Sampler SpecSampler P_Sampler P_Clip P_Ops.
Open Scope Q_scope.

Definition no_number (v : pv) : Prop := as_x v = None.
Lemma mapM_numeric (f : pv -> res pv) l : (forall v, numeric v -> exists w, f v = Ok w /\ numeric w) ->
  Forall numeric l -> exists r, mapM f l = Ok r /\ Forall numeric r.
Proof.
  intros F. induction 1 as [|x l X L (r & E & N)]; [exists []; split; [reflexivity|constructor]|].
  destruct (F x X) as (w & W & NW). exists (w :: r). cbn. rewrite W. cbn. rewrite E. split; [reflexivity|now constructor].
Qed.
Lemma mapM_no_number (f : pv -> res pv) l : (forall v, numeric v -> exists w, f v = Ok w) ->
  (forall v, no_number v -> f v = Err TypeError) -> Exists no_number l -> mapM f l = Err TypeError.
Proof.
  intros F B E. induction E as [x l X|x l X IH]; cbn.
  - now rewrite (B x X).
  - destruct (as_x x) eqn:A; [|now rewrite (B x A)]. destruct (F x) as (w & ->); [now exists x0|]. cbn. now rewrite IH.
Qed.
Lemma num_numeric b : numeric (num_pv b).
Proof. exists (Fin (num_q b)). apply num_pv_x. Qed.
Lemma same_numeric a b : same_number a b -> numeric a -> numeric b.
Proof. unfold same_number. intros S (x & E). rewrite E in S. destruct (as_x b) eqn:F; [now exists x0|destruct S]. Qed.
Lemma sc_max_ok b v : numeric v -> exists w, sc_max b v = Ok w /\ numeric w.
Proof. intros (x & E). unfold sc_max. rewrite E. eexists. split; [reflexivity|]. destruct (xlt _ _); [apply num_numeric|now exists x]. Qed.
Lemma sc_min_ok b v : numeric v -> exists w, sc_min b v = Ok w /\ numeric w.
Proof. intros (x & E). unfold sc_min. rewrite E. eexists. split; [reflexivity|]. destruct (xlt _ _); [apply num_numeric|now exists x]. Qed.
Lemma np_max_ok b v : numeric v -> exists w, np_max b v = Ok w /\ numeric w.
Proof.
  intros (x & E). unfold np_max. rewrite E. eexists. split; [reflexivity|]. eapply same_numeric; [apply wider_same|].
  destruct (xlt _ _); [apply num_numeric|now exists x].
Qed.
Lemma np_min_ok b v : numeric v -> exists w, np_min b v = Ok w /\ numeric w.
Proof.
  intros (x & E). unfold np_min. rewrite E. eexists. split; [reflexivity|]. eapply same_numeric; [apply wider_same|].
  destruct (xlt _ _); [apply num_numeric|now exists x].
Qed.
Lemma lclip_ok lc v : Forall numeric (elems v) -> exists w, apply_lclip lc v = Ok w /\ Forall numeric (elems w).
Proof.
  destruct lc as [b|]; [|intros N; exists v; split; [reflexivity|exact N]]. unfold apply_lclip. destruct v as [x|[|x [|y l]]]; cbn [elems]; intros N.
  - inversion N; subst. destruct (sc_max_ok b x H1) as (w & -> & NW). cbn. eexists. split; [reflexivity|]. now repeat constructor.
  - exists (Arr []). split; [reflexivity|constructor].
  - inversion N as [|? ? X _]; subst. destruct (sc_max_ok b x X) as (w & -> & NW). cbn [bind]. pose proof X as (x' & E). rewrite E.
    destruct (xlt _ _); eexists; (split; [reflexivity|]); now repeat constructor.
  - destruct (mapM_numeric (np_max b) _ (np_max_ok b) N) as (r & -> & NR). cbn [bind]. now exists (Arr r).
Qed.
Lemma rclip_ok rc v : Forall numeric (elems v) -> exists w, apply_rclip rc v = Ok w /\ Forall numeric (elems w).
Proof.
  destruct rc as [b|]; [|intros N; exists v; split; [reflexivity|exact N]]. unfold apply_rclip. destruct v as [x|[|x [|y l]]]; cbn [elems]; intros N.
  - inversion N; subst. destruct (sc_min_ok b x H1) as (w & -> & NW). cbn. eexists. split; [reflexivity|]. now repeat constructor.
  - exists (Arr []). split; [reflexivity|constructor].
  - inversion N as [|? ? X _]; subst. destruct (sc_min_ok b x X) as (w & -> & NW). cbn [bind]. pose proof X as (x' & E). rewrite E.
    destruct (xlt _ _); eexists; (split; [reflexivity|]); now repeat constructor.
  - destruct (mapM_numeric (np_min b) _ (np_min_ok b) N) as (r & -> & NR). cbn [bind]. now exists (Arr r).
Qed.
Lemma lclip_bad b v : Exists no_number (elems v) -> apply_lclip (Some b) v = Err TypeError.
Proof.
  assert (S : forall x, no_number x -> sc_max b x = Err TypeError) by (intros x E; unfold sc_max; now rewrite E).
  unfold apply_lclip. destruct v as [x|[|x [|y l]]]; cbn [elems]; intros N.
  - inversion N as [? ? X|? ? X]; subst; [now rewrite (S x X)|inversion X].
  - inversion N.
  - inversion N as [? ? X|? ? X]; subst; [now rewrite (S x X)|inversion X].
  - rewrite (mapM_no_number (np_max b)); [reflexivity| | |exact N].
    + intros w W. destruct (np_max_ok b w W) as (r & R & _). eauto.
    + intros w E. unfold np_max. now rewrite E.
Qed.
Lemma rclip_bad b v : Exists no_number (elems v) -> apply_rclip (Some b) v = Err TypeError.
Proof.
  assert (S : forall x, no_number x -> sc_min b x = Err TypeError) by (intros x E; unfold sc_min; now rewrite E).
  unfold apply_rclip. destruct v as [x|[|x [|y l]]]; cbn [elems]; intros N.
  - inversion N as [? ? X|? ? X]; subst; [now rewrite (S x X)|inversion X].
  - inversion N.
  - inversion N as [? ? X|? ? X]; subst; [now rewrite (S x X)|inversion X].
  - rewrite (mapM_no_number (np_min b)); [reflexivity| | |exact N].
    + intros w W. destruct (np_min_ok b w W) as (r & R & _). eauto.
    + intros w E. unfold np_min. now rewrite E.
Qed.
Lemma numeric_dec l : Forall numeric l \/ Exists no_number l.
Proof.
  induction l as [|x l [N|N]]; [now left| |now right; right]. destruct (as_x x) eqn:E; [left; constructor; [now exists x0|exact N]|right; now left].
Qed.
Lemma array_numeric f l : Forall numeric (np_array f l) <-> Forall numeric l.
Proof.
  split; intros N.
  - destruct (numeric_dec l) as [|X]; [assumption|exfalso]. unfold np_array in N.
    destruct (existsb is_none l) eqn:E1.
    { apply existsb_exists in E1 as (x & I & E). rewrite Forall_forall in N. destruct (N x I) as (y & Y). now destruct x. }
    destruct (existsb is_str l) eqn:E2.
    { apply existsb_exists in E2 as (x & I & E). rewrite Forall_forall in N. destruct (N (to_str f x)) as (y & Y); [now apply in_map|]. now destruct x. }
    apply Exists_exists in X as (x & I & X). destruct x; try discriminate.
    + assert (existsb is_str l = true) by (apply existsb_exists; eauto). congruence.
    + assert (existsb is_none l = true) by (apply existsb_exists; eauto). congruence.
  - pose proof (np_array_same f l N) as H. induction H; [constructor|]. inversion N; subst. constructor; eauto using same_numeric.
Qed.
Lemma finish_numeric Or v : Forall numeric (elems (finish_list Or v)) <-> Forall numeric (elems v).
Proof. destruct v; [reflexivity|]. cbn. apply array_numeric. Qed.
Lemma not_both l : Forall numeric l -> Exists no_number l -> False.
Proof. intros N X. apply Exists_exists in X as (x & I & X). rewrite Forall_forall in N. destruct (N x I) as (y & Y). unfold no_number in X. congruence. Qed.

Lemma wrap_outcome Or own body n lc rc s r s' : wrap Or (None, None) body n None None s = (r, s') ->
  match r with
  | Err e => wrap Or own body n lc rc s = (Err e, s')
  | Ok u =>
      (Forall numeric (elems u) -> exists v, wrap Or own body n lc rc s = (Ok v, s')) /\
      (Exists no_number (elems u) -> merge_l lc (fst own) <> None \/ merge_r rc (snd own) <> None ->
         wrap Or own body n lc rc s = (Err TypeError, s'))
  end.
Proof.
  unfold wrap. destruct n as [|n]; [intros H; now injection H as <- <-|]. unfold bindS, lift, ret. destruct (body (S n) s) as [[u0|e] s1].
  2:{ intros H; now injection H as <- <-. }
  cbn. intros H. injection H as <- <-. split.
  - intros N. rewrite (finish_numeric Or) in N. destruct (lclip_ok (merge_l lc (fst own)) u0 N) as (w & W & NW).
    destruct (rclip_ok (merge_r rc (snd own)) w NW) as (z & Z & _). unfold apply_clips. rewrite W. cbn [bind]. rewrite Z. eauto.
  - intros X C. assert (X0 : Exists no_number (elems u0)).
    { destruct (numeric_dec (elems u0)) as [N|]; [|assumption]. apply (finish_numeric Or) in N. destruct (not_both _ N X). }
    unfold apply_clips. destruct (merge_l lc (fst own)) as [b|].
    + now rewrite lclip_bad.
    + cbn [apply_lclip bind]. destruct (merge_r rc (snd own)) as [b|]; [now rewrite rclip_bad|]. destruct C as [C|C]; contradiction.
Qed.
Lemma clip_outcome Or o n lc rc s r s' : uncorrelated_top o -> smp Or (unclipped o) n None None s = (r, s') ->
  match r with
  | Err e => smp Or o n lc rc s = (Err e, s')
  | Ok u =>
      ((forall x, In x (elems u) -> as_x x <> None) -> exists v, smp Or o n lc rc s = (Ok v, s')) /\
      ((exists x, In x (elems u) /\ as_x x = None) ->
         tight_lower (q_of lc) (q_of (own_lower o)) <> None \/ tight_upper (q_of rc) (q_of (own_upper o)) <> None ->
         smp Or o n lc rc s = (Err TypeError, s'))
  end.
Proof.
  intros U H.
  assert (K : forall own body, own = (own_lower o, own_upper o) -> smp Or o n lc rc s = wrap Or own body n lc rc s ->
     wrap Or (None, None) body n None None s = (r, s') -> match r with
  | Err e => smp Or o n lc rc s = (Err e, s')
  | Ok u =>
      ((forall x, In x (elems u) -> as_x x <> None) -> exists v, smp Or o n lc rc s = (Ok v, s')) /\
      ((exists x, In x (elems u) /\ as_x x = None) ->
         tight_lower (q_of lc) (q_of (own_lower o)) <> None \/ tight_upper (q_of rc) (q_of (own_upper o)) <> None ->
         smp Or o n lc rc s = (Err TypeError, s'))
  end).
  { intros own body -> E W. rewrite E. apply (wrap_outcome Or (own_lower o, own_upper o) body n lc rc s) in W. destruct r as [u|e]; [|exact W].
    destruct W as (A & B). split.
    - intros N. apply A. apply Forall_forall. intros x I. specialize (N x I). destruct (as_x x) eqn:F; [now exists x0|contradiction].
    - intros (x & I & X) C. apply B; [apply Exists_exists; eauto|]. cbn [fst snd]. rewrite <- merge_l_tight, <- merge_r_tight in C.
      destruct C as [C|C]; [left|right]; intros Z; rewrite Z in C; now apply C. }
  destruct o as [x|f|d|].
  - eapply K; [reflexivity|now rewrite smp_lit|]. cbn [unclipped] in H. now rewrite smp_lit in H.
  - eapply K; [reflexivity|now rewrite smp_call|]. cbn [unclipped] in H. now rewrite smp_call in H.
  - destruct d as [k l u|ws ds l u|l u f|g i ms]; [..|destruct U]; cbn [unclipped] in H; rewrite smp_odist in H.
    + eapply K; [reflexivity|now rewrite smp_odist, smp_leaf|]. now rewrite smp_leaf in H.
    + eapply K; [reflexivity|now rewrite smp_odist, smp_mix|]. now rewrite smp_mix in H.
    + eapply K; [reflexivity|now rewrite smp_odist, smp_complex|]. now rewrite smp_complex in H.
  - eapply K; [reflexivity|now rewrite smp_other|]. cbn [unclipped] in H. now rewrite smp_other in H.
Qed.
