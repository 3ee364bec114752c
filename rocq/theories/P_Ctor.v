(** Lemmas about constructors and dice (C83-C86). *)
From Verif Require Import Base M_Weights SpecWeights P_Weights M_Pick M_Values M_Sampler M_Ctor
  SpecSampler SpecSampler2 SpecCtor P_Sampler P_Count P_Clip P_Ops P_Sampler2 P_Support.
From Coq Require Import Lqa.
Open Scope Q_scope.

Lemma qle_true a b : Qle_bool a b = true <-> a <= b.
Proof. apply Qle_bool_iff. Qed.
Lemma qle_false a b : Qle_bool a b = false <-> b < a.
Proof.
  split; intros H.
  - apply Qnot_le_lt. intros C. apply Qle_bool_iff in C. congruence.
  - apply not_true_is_false. intros C. apply Qle_bool_iff in C. lra.
Qed.
Lemma qeq_true a b : Qeq_bool a b = true <-> a == b.
Proof. apply Qeq_bool_iff. Qed.
Lemma qeq_false a b : Qeq_bool a b = false <-> ~ a == b.
Proof. rewrite <- Qeq_bool_iff. destruct (Qeq_bool a b); intuition congruence. Qed.

Ltac qb :=
  repeat match goal with
  | H : Qlt_bool _ _ = true |- _ => apply qlt_true in H
  | H : Qlt_bool _ _ = false |- _ => apply qlt_false in H
  | H : Qle_bool _ _ = true |- _ => apply qle_true in H
  | H : Qle_bool _ _ = false |- _ => apply qle_false in H
  | H : Qeq_bool _ _ = true |- _ => apply qeq_true in H
  | H : Qeq_bool _ _ = false |- _ => apply qeq_false in H
  end.

Lemma t_check_ok pos x y : t_check pos x y = Ok tt <->
  (x = None /\ y = None) \/
  (exists a b, x = Some a /\ y = Some b /\ (pos = true -> 0 < num_q a) /\ num_q a <= num_q b).
Proof.
  unfold t_check. destruct x as [a|], y as [b|].
  - destruct (Qlt_bool (num_q b) (num_q a)) eqn:E1; qb.
    + split; [discriminate|]. intros [[H _]|(a' & b' & Ha & Hb & _ & L)]; [discriminate|].
      inversion Ha; inversion Hb; subst. lra.
    + destruct pos; simpl; [destruct (Qle_bool (num_q a) 0) eqn:E2; qb|].
      * split; [discriminate|]. intros [[H _]|(a' & b' & Ha & Hb & P & L)]; [discriminate|].
        inversion Ha; inversion Hb; subst. specialize (P eq_refl). lra.
      * split; auto. intros _. right. exists a, b. repeat split; auto.
      * split; auto. intros _. right. exists a, b. repeat split; auto. discriminate.
  - split; [discriminate|]. intros [[H _]|(a' & b' & _ & H & _)]; discriminate.
  - split; [discriminate|]. intros [[_ H]|(a' & b' & H & _)]; discriminate.
  - split; auto.
Qed.
Lemma t_check_err pos x y e : t_check pos x y = Err e -> exists s, e = ValueError s.
Proof.
  unfold t_check. destruct x, y; try destruct (Qlt_bool _ _); try destruct (_ && _); intros H; inversion H; eauto.
Qed.

(** Acceptance is exactly the documented constraint. *)
Lemma construct_accepts {T} (c : ctor) : (exists d : dist T, construct c = Ok d) <-> documented c.
Proof.
  destruct c; simpl; try (split; [auto|eexists; reflexivity]).
  - destruct (Qlt_bool x y) eqn:E; qb; split; intros H; eauto; try lra. destruct H; discriminate.
  - destruct (Qle_bool p 0) eqn:E1, (Qle_bool 1 p) eqn:E2; qb; simpl; split; intros H; eauto; try lra; destruct H; discriminate.
  - destruct p as [q|].
    + destruct (Qle_bool 0 q) eqn:E1, (Qle_bool q 1) eqn:E2; qb; simpl; split; intros H; eauto;
        destruct H as (q' & H); try discriminate; destruct H as (H & ? & ?); inversion H; subst; lra.
    + split; intros (q & H); [discriminate|destruct H; discriminate].
  - pose proof (t_check_ok false x y) as K. destruct (t_check false x y) as [[]|e]; cbn [bind]; split; intros H; eauto.
    + destruct K as [K _]. destruct (K eq_refl) as [?|(a & b & ? & ? & _ & ?)]; eauto 10.
    + destruct H; discriminate.
    + destruct K as [_ K]. exfalso. assert (X : Err e = Ok tt); [|discriminate]. apply K.
      destruct H as [?|(a & b & ? & ? & ?)]; auto. right. exists a, b. repeat split; auto. discriminate.
  - pose proof (t_check_ok true x y) as K. destruct (t_check true x y) as [[]|e]; cbn [bind]; split; intros H; eauto.
    + destruct K as [K _]. destruct (K eq_refl) as [?|(a & b & ? & ? & P & ?)]; eauto 10.
    + destruct H; discriminate.
    + destruct K as [_ K]. exfalso. assert (X : Err e = Ok tt); [|discriminate]. apply K.
      destruct H as [?|(a & b & ? & ? & ? & ?)]; auto. right. exists a, b. repeat split; auto.
  - destruct (Qlt_bool m l) eqn:E1; [|destruct (Qlt_bool r m) eqn:E2; [|destruct (Qeq_bool l r) eqn:E3]]; qb;
      split; intros H; eauto; try (destruct H; discriminate); try lra.
  - destruct (Qlt_bool m l) eqn:E1; [|destruct (Qlt_bool r m) eqn:E2; [|destruct (Qlt_bool lam 0) eqn:E4; [|destruct (Qeq_bool l r) eqn:E3]]]; qb;
      split; intros H; eauto; try (destruct H; discriminate); try lra.
  - destruct (Qle_bool df 0) eqn:E; qb; split; intros H; eauto; try lra. destruct H; discriminate.
  - destruct (Qlt_bool 0 scale) eqn:E1; [destruct (Qlt_bool scale scale_limit) eqn:E2|]; qb; simpl; split; intros H; eauto;
      try (destruct H; discriminate); unfold scale_limit in *; simpl in *; try lra.
  - destruct (Qlt_bool p 0) eqn:E1, (Qlt_bool 1 p) eqn:E2; qb; simpl; split; intros H; eauto; try lra; destruct H; discriminate.
Qed.

Lemma construct_error {T} (c : ctor) e : construct (T := T) c = Err e ->
  e = AssertionError \/ exists s, e = ValueError s.
Proof.
  destruct c; simpl; try discriminate;
    repeat match goal with |- context [if ?b then _ else _] => destruct b end;
    try (intros H; inversion H; eauto; fail).
  - destruct p; [|intros H; inversion H; eauto]. destruct (_ && _); intros H; inversion H; eauto.
  - destruct (t_check false x y) eqn:E; cbn [bind]; intros H; inversion H; subst. apply t_check_err in E; auto.
  - destruct (t_check true x y) eqn:E; cbn [bind]; intros H; inversion H; subst. apply t_check_err in E; auto.
Qed.

(* ------------------------------------------------------------------ *)
(** * Sampling accepted distributions *)
Section Sampling.
  Variable Or : oracle.
  Hypothesis NC : numpy_checks Or.
  Notation St := (state (G Or)).

  Lemma rngf_ok r n (s : St) : f_valid r -> exists l s', rngf Or r n s = (Ok l, s').
  Proof.
    intros V. destruct NC as (H & _). destruct (H r n (rng s) V) as (l & g & E). unfold rngf. rewrite E. eauto.
  Qed.
  Lemma rngf_bad r n (s : St) : ~ f_valid r -> exists m s', rngf Or r n s = (Err (ValueError m), s').
  Proof.
    intros V. destruct NC as (_ & H & _). destruct (H r n (rng s) V) as (l & g & E). unfold rngf. rewrite E. eauto.
  Qed.
  Lemma rngi_ok r n (s : St) : i_valid r -> exists l s', rngi Or r n s = (Ok l, s').
  Proof.
    intros V. destruct NC as (_ & _ & H & _). destruct (H r n (rng s) V) as (l & g & E). unfold rngi. rewrite E. eauto.
  Qed.
  Lemma rngi_bad r n (s : St) : ~ i_valid r -> exists m s', rngi Or r n s = (Err (ValueError m), s').
  Proof.
    intros V. destruct NC as (_ & _ & _ & H). destruct (H r n (rng s) V) as (l & g & E). unfold rngi. rewrite E. eauto.
  Qed.

  Hypothesis RL : right_length Or.
  Definition runs {A} (m : M St A) : Prop := forall s, exists v s', m s = (Ok v, s').
  Definition rejects {A} (m : M St A) : Prop := forall s, exists msg s', m s = (Err (ValueError msg), s').

  Lemma runs_bind {A B} (m : M St A) (f : A -> M St B) : runs m -> (forall a, runs (f a)) -> runs (bindS m f).
  Proof. intros H K s. destruct (H s) as (v & s1 & E). unfold bindS. rewrite E. apply K. Qed.
  Lemma runs_ret {A} (a : A) : runs (ret a).
  Proof. intros s. unfold ret. eauto. Qed.
  Lemma rejects_bind {A B} (m : M St A) (f : A -> M St B) : rejects m -> rejects (bindS m f).
  Proof. intros H s. destruct (H s) as (v & s1 & E). unfold bindS. rewrite E. eauto. Qed.
  Lemma runs_f r n : f_valid r -> runs (rngf Or r n).
  Proof. intros V s. now apply rngf_ok. Qed.
  Lemma runs_i r n : i_valid r -> runs (rngi Or r n).
  Proof. intros V s. now apply rngi_ok. Qed.
  Lemma rejects_f r n : ~ f_valid r -> rejects (rngf Or r n).
  Proof. intros V s. now apply rngf_bad. Qed.
  Lemma rejects_i r n : ~ i_valid r -> rejects (rngi Or r n).
  Proof. intros V s. now apply rngi_bad. Qed.
  Lemma runs_one lo hi : (lo < hi)%Z -> runs (one_int Or lo hi).
  Proof.
    intros V s. unfold one_int, bindS. destruct (rngi_ok (RInt lo hi) 1 s V) as (l & s' & E). rewrite E.
    apply (rngi_length Or RL) in E. destruct l as [|z [|y l]]; try discriminate. unfold ret. eauto.
  Qed.
  Lemma runs_replicate {A} (m : M St A) n : runs m -> runs (replicateS n m).
  Proof.
    intros H. induction n; simpl; [apply runs_ret|]. apply runs_bind; auto. intros a. apply runs_bind; auto.
    intros l. apply runs_ret.
  Qed.

  Lemma leaf_runs k n : one_request k -> meaningful k -> runs (leaf_sample Or k n).
  Proof.
    intros K V. destruct k; simpl in K, V |- *; try contradiction;
      try (apply runs_bind; [first [apply runs_f|apply runs_i]; simpl; auto; lra|intros; apply runs_ret]).
    - apply runs_ret.
    - destruct sd; [|contradiction]. apply runs_bind; [apply runs_f; auto|intros; apply runs_ret].
    - destruct K as [-> ->]. simpl. apply runs_bind; [apply runs_f; auto|intros; apply runs_ret].
    - destruct K as [-> ->]. simpl. intros s. unfold bindS.
      destruct (rngf_ok (RStdT t) 1 s V) as (l & s' & E). rewrite E.
      apply (rngf_length Or RL) in E. destruct l as [|z [|y l]]; try discriminate. unfold ret. eauto.
    - destruct explode; [contradiction|]. unfold die_sample.
      assert (R : runs (single_roll Or sides None)).
      { unfold single_roll. apply runs_bind; [apply runs_one; lia|intros; apply runs_ret]. }
      destruct n as [|[|n]]; apply runs_bind; auto using runs_replicate; intros; apply runs_ret.
    - unfold coin_sample. destruct n as [|[|n]]; (apply runs_bind; [first [apply runs_one|apply runs_i]; simpl; lia|intros; apply runs_ret]).
  Qed.
  Lemma leaf_rejects k n : (1 <= n)%nat -> one_request k -> ~ meaningful k -> rejects (leaf_sample Or k n).
  Proof.
    intros Hn K V. destruct k; simpl in K, V |- *; try contradiction;
      try (exfalso; apply V; exact I);
      try (apply rejects_bind; first [apply rejects_f|apply rejects_i]; simpl; auto; fail).
    - destruct sd; [|contradiction]. apply rejects_bind, rejects_f. auto.
    - destruct K as [-> ->]. apply rejects_bind, rejects_f. auto.
    - destruct K as [-> ->]. apply rejects_bind, rejects_f. auto.
    - destruct explode; [contradiction|]. unfold die_sample.
      assert (R : rejects (single_roll Or sides None)).
      { unfold single_roll, one_int. apply rejects_bind, rejects_bind, rejects_i. simpl. lia. }
      destruct n as [|[|n]]; [lia| |]; apply rejects_bind; auto. simpl. now apply rejects_bind.
  Qed.

  (** Clips never fail on numbers. *)
  Lemma mapM_total {A B} (f : A -> res B) l : Forall (fun x => exists y, f x = Ok y) l -> exists r, mapM f l = Ok r.
  Proof. induction 1 as [|x l (y & E) H (r & IH)]; simpl; eauto. rewrite E, IH. simpl. eauto. Qed.
  Lemma lclip_total c v : Forall numeric (elems v) -> exists w, apply_lclip c v = Ok w.
  Proof.
    intros H. destruct c as [b|]; simpl; eauto. destruct v as [x|l]; simpl in H.
    - inversion H as [|? ? (y & E) _]; subst. unfold sc_max. rewrite E. simpl. eauto.
    - assert (X : exists r, mapM (np_max b) l = Ok r).
      { apply mapM_total. eapply Forall_impl; [|exact H]. intros a (y & E). unfold np_max. rewrite E. eauto. }
      destruct X as (r & X).
      destruct l as [|x [|y l]]; try (rewrite X; simpl; eauto).
      inversion H as [|? ? (y & E) _]; subst. unfold sc_max. rewrite E. simpl. destruct (xlt _ _); eauto.
  Qed.
  Lemma rclip_total c v : Forall numeric (elems v) -> exists w, apply_rclip c v = Ok w.
  Proof.
    intros H. destruct c as [b|]; simpl; eauto. destruct v as [x|l]; simpl in H.
    - inversion H as [|? ? (y & E) _]; subst. unfold sc_min. rewrite E. simpl. eauto.
    - assert (X : exists r, mapM (np_min b) l = Ok r).
      { apply mapM_total. eapply Forall_impl; [|exact H]. intros a (y & E). unfold np_min. rewrite E. eauto. }
      destruct X as (r & X).
      destruct l as [|x [|y l]]; try (rewrite X; simpl; eauto).
      inversion H as [|? ? (y & E) _]; subst. unfold sc_min. rewrite E. simpl. destruct (xlt _ _); eauto.
  Qed.
  Lemma clips_total lc rc v : Forall numeric (elems v) -> exists w, apply_clips lc rc v = Ok w.
  Proof.
    intros H. unfold apply_clips. destruct (lclip_total lc v H) as (w & E). rewrite E. simpl.
    apply rclip_total. destruct lc as [b|]; [|inversion E; subst; auto].
    apply lclip_steps in E. eapply forall2_numeric; eauto.
  Qed.

  (** Leaves whose samples are numbers. *)
  Definition number_leaf (k : leaf) : Prop :=
    match k with LConst _ | LCoin | LCatList _ | LCatDict _ => False | _ => True end.
  Lemma flts_numeric l : Forall numeric (flts l).
  Proof. unfold flts. induction l; simpl; constructor; auto. eexists; reflexivity. Qed.
  Lemma ints_numeric l : Forall numeric (ints l).
  Proof. unfold ints. induction l; simpl; constructor; auto. eexists; reflexivity. Qed.
  Lemma num_numeric a : numeric (num_pv a).
  Proof. eexists. apply num_pv_x. Qed.
  Lemma leaf_numeric k n s v s' : number_leaf k -> leaf_sample Or k n s = (Ok v, s') -> Forall numeric (elems v).
  Proof.
    intros K H.
    assert (FS : forall r s, fsample Or r n s = (Ok v, s') -> Forall numeric (elems v)).
    { intros r s0 E. unfold fsample in E. inv_ok E. rewrite elems_simplify. apply flts_numeric. }
    assert (IS : forall r s, isample Or r n s = (Ok v, s') -> Forall numeric (elems v)).
    { intros r s0 E. unfold isample in E. inv_ok E. rewrite elems_simplify. apply ints_numeric. }
    destruct k; simpl in K, H; try contradiction; eauto.
    - destruct sd; [eauto|destruct (raise_ok _ _ _ _ H)].
    - unfold inverse_lognormal_sample in H. inv_ok H. rewrite elems_simplify.
      clear. induction a; simpl; constructor; auto. eexists; reflexivity.
    - unfold bernoulli_sample in H. inv_ok H. rewrite elems_simplify.
      clear. induction a; simpl; constructor; auto. eexists; reflexivity.
    - unfold pareto_sample in H. inv_ok H. rewrite elems_simplify. apply flts_numeric.
    - unfold pert_sample in H. destruct (Qeq_bool _ _); inv_ok H. rewrite elems_simplify. apply flts_numeric.
    - unfold t_sample in H. destruct x, y; try (destruct (raise_ok _ _ _ _ H)).
      + destruct (Qlt_bool _ _); [destruct (raise_ok _ _ _ _ H)|]. destruct (Qeq_bool _ _); [inv_ok H|destruct (Qeq_bool (ppf _ _) 0); [inv_ok H|]; inv_ok H].
        * repeat constructor. apply num_numeric.
        * rewrite elems_simplify. apply flts_numeric.
      + inv_ok H. apply flts_numeric.
    - unfold log_t_sample in H. destruct x, y; try (destruct (raise_ok _ _ _ _ H)).
      + destruct (Qlt_bool _ _); [destruct (raise_ok _ _ _ _ H)|]. destruct (Qlt_bool _ _); [destruct (raise_ok _ _ _ _ H)|].
        destruct (Qeq_bool _ _); [inv_ok H|destruct (Qeq_bool _ 0); [inv_ok H|]; destruct (Qeq_bool (ppf _ _) 0); [inv_ok H|]; inv_ok H].
        * repeat constructor. apply num_numeric.
        * rewrite elems_simplify. apply flts_numeric.
      + inv_ok H. destruct a as [|q [|? ?]]; inv_ok H. repeat constructor. eexists; reflexivity.
    - unfold die_sample in H. destruct n as [|[|n]]; inv_ok H; simpl; try apply ints_numeric.
      repeat constructor. eexists; reflexivity.
  Qed.

  (** Sampling a leaf with clips succeeds when its dispatch does. *)
  Lemma smp_leaf_runs k lc rc n s : (1 <= n)%nat -> (number_leaf k \/ (lc = None /\ rc = None)) ->
    runs (leaf_sample Or k n) -> exists v s', smp Or (ODist (DLeaf k lc rc)) n None None s = (Ok v, s').
  Proof.
    intros Hn K R. rewrite smp_odist, smp_leaf. unfold wrap. destruct n as [|n]; [lia|].
    destruct (R s) as (v & s1 & E). unfold bindS. rewrite E. simpl merge_l. simpl merge_r. simpl fst. simpl snd.
    assert (X : exists w, apply_clips lc rc v = Ok w).
    { destruct K as [K|[-> ->]]; [|unfold apply_clips; simpl; eauto]. apply clips_total. eapply leaf_numeric; eauto. }
    destruct X as (w & X). unfold lift. rewrite X. unfold ret. eauto.
  Qed.
  Lemma smp_leaf_rejects k lc rc n s : (1 <= n)%nat -> rejects (leaf_sample Or k n) ->
    exists msg s', smp Or (ODist (DLeaf k lc rc)) n None None s = (Err (ValueError msg), s').
  Proof.
    intros Hn R. rewrite smp_odist, smp_leaf. unfold wrap. destruct n as [|n]; [lia|].
    destruct (R s) as (v & s1 & E). unfold bindS. rewrite E. eauto.
  Qed.

  (** What a constructor returns. *)
  Lemma construct_leaf (c : ctor) (d : dist (G Or)) : construct c = Ok d ->
    exists k lc rc, d = DLeaf k lc rc /\ (number_leaf k \/ (lc = None /\ rc = None)) /\
      (match k with LCatList _ | LCatDict _ | LDie _ _ | LNormal _ None | LInvLognormal _ _ => False | _ => True end).
  Proof.
    destruct c; simpl; intros H; try (inversion H; subst; do 3 eexists; split; [reflexivity|split; simpl; auto]; fail);
      try (repeat match type of H with context [if ?b then _ else _] => destruct b end;
           inversion H; subst; do 3 eexists; split; [reflexivity|split; simpl; auto]; fail).
    - destruct p; [|discriminate]. destruct (_ && _); inversion H; subst. do 3 eexists; split; [reflexivity|split; simpl; auto].
    - destruct (t_check _ _ _); inversion H; subst. do 3 eexists; split; [reflexivity|split; simpl; auto].
    - destruct (t_check _ _ _); inversion H; subst. do 3 eexists; split; [reflexivity|split; simpl; auto].
  Qed.

  Lemma pert_params l m r lam : l <= m -> m <= r -> l < r -> 0 <= lam ->
    1 <= pert_alpha l m r lam /\ 1 <= pert_beta l m r lam /\
    pert_alpha l m r lam + pert_beta l m r lam == 2 + lam.
  Proof.
    intros A B C D. unfold pert_alpha, pert_beta.
    assert (E : 0 <= lam * (m - l) / (r - l)).
    { apply Qle_shift_div_l; [lra|]. rewrite Qmult_0_l. nra. }
    assert (F : 0 <= lam * (r - m) / (r - l)).
    { apply Qle_shift_div_l; [lra|]. rewrite Qmult_0_l. nra. }
    split; [lra|]. split; [lra|]. field. lra.
  Qed.
  Lemma pert_mean l m r lam : l < r -> 0 <= lam ->
    let a := pert_alpha l m r lam in let b := pert_beta l m r lam in
    l + (a / (a + b)) * (r - l) == (l + lam * m + r) / (lam + 2).
  Proof.
    intros C D. unfold pert_alpha, pert_beta. cbv zeta.
    assert (E : 1 + lam * (m - l) / (r - l) + (1 + lam * (r - m) / (r - l)) == 2 + lam) by (field; lra).
    rewrite E. field. split; lra.
  Qed.
  Lemma pert_mode l m r lam : l < r -> 0 < lam ->
    let a := pert_alpha l m r lam in let b := pert_beta l m r lam in
    l + ((a - 1) / (a + b - 2)) * (r - l) == m.
  Proof.
    intros C D. unfold pert_alpha, pert_beta. cbv zeta.
    assert (E : 1 + lam * (m - l) / (r - l) + (1 + lam * (r - m) / (r - l)) - 2 == lam) by (field; lra).
    rewrite E. field. split; lra.
  Qed.
  Lemma pert_runs l m r lam n : l <= m -> m <= r -> l < r -> 0 <= lam -> runs (leaf_sample Or (LPert l m r lam) n).
  Proof.
    intros A B C D. simpl. unfold pert_sample.
    destruct (Qeq_bool (r - l) 0) eqn:E; qb; [lra|].
    destruct (pert_params l m r lam A B C D) as (P1 & P2 & _).
    apply runs_bind; [apply runs_f; simpl; lra|intros; apply runs_ret].
  Qed.

  (** C83: constructors with complete checks produce distributions that sample. *)
  Lemma checked_runs (c : ctor) (d : dist (G Or)) n s : fully_checked c -> construct c = Ok d -> (1 <= n)%nat ->
    exists v s', smp Or (ODist d) n None None s = (Ok v, s').
  Proof.
    intros F H Hn. assert (D : documented c) by (apply (@construct_accepts (G Or)); eauto).
    destruct (construct_leaf c d H) as (k & lc & rc & -> & K & _). apply smp_leaf_runs; auto.
    destruct c; simpl in F, D, H; try contradiction.
    - inversion H; subst. apply leaf_runs; simpl; auto.
    - destruct (Qlt_bool x y); inversion H; subst. apply leaf_runs; simpl; auto. lra.
    - destruct (_ || _); inversion H; subst. apply leaf_runs; simpl; auto. split; auto; lra.
    - destruct p; [|discriminate]. destruct (_ && _); inversion H; subst. apply leaf_runs; simpl; auto.
    - repeat match type of H with context [if ?b then _ else _] => destruct b end; inversion H; subst. apply leaf_runs; simpl; auto.
    - repeat match type of H with context [if ?b then _ else _] => destruct b end; inversion H; subst.
      destruct D as (? & ? & ? & ?). apply pert_runs; auto.
    - destruct (Qle_bool _ _); inversion H; subst. apply leaf_runs; simpl; auto.
    - repeat match type of H with context [if ?b then _ else _] => destruct b end; inversion H; subst. apply leaf_runs; simpl; auto. lra.
    - inversion H; subst. apply leaf_runs; simpl; auto.
  Qed.

  (** C84: exactly which simple distributions can be sampled. *)
  Lemma samples_iff (c : ctor) k lc rc n s : construct (T := G Or) c = Ok (DLeaf k lc rc) -> one_request k -> (1 <= n)%nat ->
    (meaningful k -> exists v s', smp Or (ODist (DLeaf k lc rc)) n None None s = (Ok v, s')) /\
    (~ meaningful k -> exists msg s', smp Or (ODist (DLeaf k lc rc)) n None None s = (Err (ValueError msg), s')).
  Proof.
    intros H K Hn. split; intros V.
    - destruct (construct_leaf c _ H) as (k' & lc' & rc' & E & N & _). inversion E; subst. apply smp_leaf_runs; auto.
      now apply leaf_runs.
    - apply smp_leaf_rejects; auto. now apply leaf_rejects.
  Qed.

  (** C85: pert samples are rescaled beta draws. *)
  Lemma pert_draws l m r lam n s v s' : (1 <= n)%nat -> l < r ->
    smp Or (ODist (DLeaf (LPert l m r lam) None None)) n None None s = (Ok v, s') ->
    exists xs g, drawf Or (RBeta (pert_alpha l m r lam) (pert_beta l m r lam)) n (rng s) = (Ok xs, g) /\
      s' = mkState g (corr s) /\ elems v = map (fun x => PFlt (Fin (l + x * (r - l)))) xs.
  Proof.
    intros Hn C H. rewrite smp_odist, smp_leaf, wrap_none in H by assumption.
    destruct (leaf_sample Or (LPert l m r lam) n s) as [[u|e] s1] eqn:E; [|discriminate]. inversion H; subst. clear H.
    simpl in E. unfold pert_sample in E. destruct (Qeq_bool _ _); inv_ok E.
    unfold rngf in Ha. destruct (drawf Or _ n (rng s)) as [x g] eqn:D. inversion Ha; subst.
    exists a, g. split; auto. split; auto.
    rewrite finish_simplify.
    - rewrite elems_simplify. unfold flts. now rewrite map_map.
    - right. left. unfold flts. apply Forall_forall. intros y Hy. apply in_map_iff in Hy as (q & <- & _). eauto.
  Qed.
End Sampling.
Lemma pert_no_width Or l m r lam n s : l == r -> pert_sample Or l m r lam n s = (Err ZeroDivisionError, s).
Proof.
  intros E. unfold pert_sample. replace (Qeq_bool (r - l) 0) with true; [reflexivity|].
  symmetry. apply Qeq_bool_iff. rewrite E. unfold Qminus. apply Qplus_opp_r.
Qed.
