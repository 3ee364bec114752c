(** Arithmetic on distributions, constant expressions, [dist_fn] (C17-C20). *)
From Verif Require Import Base M_Weights P_Weights M_Pick M_Values M_Sampler M_Ops SpecSampler SpecOps
  P_Sampler P_Count P_Clip.
From Coq Require Import Lqa.
Open Scope Q_scope.

(* ------------------------------------------------------------------ *)
(** * Generic facts *)
Arguments Qfloor : simpl never.
Arguments Qdiv : simpl never.

Lemma wrap_none Or body n s : (1 <= n)%nat ->
  wrap Or (None, None) body n None None s =
  match body n s with (Ok u, s') => (Ok (finish_list Or u), s') | (Err e, s') => (Err e, s') end.
Proof.
  intros H. unfold wrap. destruct n; [lia|]. unfold bindS at 1. destruct (body (S n) s) as [[u|e] s']; reflexivity.
Qed.

Lemma zipM_pointwise f xs : forall ys zs, zipM f xs ys = Ok zs <-> pointwise f xs ys zs.
Proof.
  induction xs; intros [|y ys] zs; simpl; split; intros H; try discriminate; try (inversion H; fail).
  - inversion H; constructor.
  - inversion H; reflexivity.
  - apply bind_ok in H as (c & Hc & H). apply bind_ok in H as (cs & H & E). inversion E; subst.
    constructor; auto. now apply IHxs.
  - inversion H as [|? ? ? ? ? ? Hf Hr]; subst. rewrite Hf. simpl. apply IHxs in Hr. rewrite Hr. reflexivity.
Qed.

Lemma xpow_float pw arr a b z : xpow pw arr a b = Ok z -> exists x, z = PFlt x.
Proof.
  unfold xpow, zero_to_neg. intros H.
  repeat match type of H with
         | context [if ?c then _ else _] => destruct c
         | context [match ?c with _ => _ end] => destruct c
         end; inversion H; eauto.
Qed.

Lemma lift2_run f n a b (N : n_samples n a) (N' : n_samples n b) :
  match zipM (f (arrays n)) (elems a) (elems b) with
  | Ok zs => exists v, lift2 f a b = Ok v /\ n_samples n v /\ elems v = zs
  | Err e => lift2 f a b = Err e
  end.
Proof.
  apply n_cases in N as [[-> (x & ->)]|[N (l & -> & L)]].
  - destruct N' as (y & ->). simpl. unfold arrays; simpl. destruct (f false x y); simpl; eauto.
  - apply n_cases in N' as [[-> _]|[_ (m & -> & L')]]; [congruence|].
    unfold arrays. assert ((n =? 1)%nat = false) as -> by now apply Nat.eqb_neq.
    cbn [elems negb].
    assert (E : lift2 f (Arr l) (Arr m) = (do zs <- zipM (f true) l m; Ok (Arr zs))).
    { destruct l as [|x [|x2 l]]; simpl in L; try congruence;
      destruct m as [|y [|y2 m]]; simpl in L'; try congruence; reflexivity. }
    rewrite E. destruct (zipM (f true) l m) as [zs|e] eqn:Z; [|reflexivity].
    exists (Arr zs). repeat split. apply n_arr; auto. apply zipM_length in Z as [Z _]. congruence.
Qed.

Lemma finish_same Or v : Forall numeric (elems v) -> Forall2 same_number (elems v) (elems (finish_list Or v)).
Proof. intros Hn; destruct v as [x|l]; simpl in *; [apply forall2_same|now apply np_array_same]. Qed.

Lemma finish_texts Or v : texts (elems v) -> Forall2 same_number (elems v) (elems (finish_list Or v)).
Proof.
  intros Ht. destruct v as [x|l]; simpl in *; [apply forall2_same|].
  assert (N : existsb is_none l = false).
  { apply not_true_is_false. intros C. apply existsb_exists in C as (y & Hy & E).
    unfold texts in Ht. rewrite Forall_forall in Ht. destruct (Ht y Hy) as (q & ->). discriminate. }
  assert (M : map (to_str (fmt Or)) l = l).
  { clear N. induction Ht as [|y l (q & ->) Ht IH]; simpl; auto. now rewrite IH. }
  unfold np_array. rewrite N, M. destruct (existsb is_str l) eqn:S; [apply forall2_same|].
  destruct Ht as [|y l (q & ->) Ht]; [constructor|discriminate].
Qed.

(* ------------------------------------------------------------------ *)
(** * C17 *)
Section Binary.
  Variable Or : oracle.
  Notation St := (state (G Or)).

  Lemma right_some r n : r <> OLit PNone ->
    forall s, right_sample Or r n s = bindS (smp Or r n None None) (fun y => ret (Some y)) s.
  Proof. intros N s. destruct r as [[]| | |]; try reflexivity. congruence. Qed.

  Lemma complex_run l r f n s a b s1 s2 :
    (1 <= n)%nat -> r <> OLit PNone ->
    smp Or l n None None s = (Ok a, s1) -> smp Or r n None None s1 = (Ok b, s2) ->
    smp Or (ODist (DComplex l r f)) n None None s =
    match fn_result Or f n a (Some b) s2 with
    | (Ok u, s') => (Ok (finish_list Or u), s') | (Err e, s') => (Err e, s')
    end.
  Proof.
    intros Hn Hr Ha Hb. rewrite smp_odist, smp_complex, wrap_none by assumption.
    rewrite (bindS_run _ _ _ _ _ Ha).
    unfold bindS. rewrite right_some by assumption. unfold bindS. rewrite Hb. reflexivity.
  Qed.
  Lemma complex_run1 l f n s a s1 :
    (1 <= n)%nat ->
    smp Or l n None None s = (Ok a, s1) ->
    smp Or (ODist (DComplex l (OLit PNone) f)) n None None s =
    match fn_result Or f n a None s1 with
    | (Ok u, s') => (Ok (finish_list Or u), s') | (Err e, s') => (Err e, s')
    end.
  Proof.
    intros Hn Ha. rewrite smp_odist, smp_complex, wrap_none by assumption.
    rewrite (bindS_run _ _ _ _ _ Ha). reflexivity.
  Qed.
  Lemma complex_left_err l r f n s e s1 :
    (1 <= n)%nat -> smp Or l n None None s = (Err e, s1) ->
    smp Or (ODist (DComplex l r f)) n None None s = (Err e, s1).
  Proof.
    intros Hn Ha. rewrite smp_odist, smp_complex, wrap_none by assumption.
    now rewrite (bindS_err _ _ _ _ _ Ha).
  Qed.
  Lemma complex_right_err l r f n s a s1 e s2 :
    (1 <= n)%nat -> r <> OLit PNone ->
    smp Or l n None None s = (Ok a, s1) -> smp Or r n None None s1 = (Err e, s2) ->
    smp Or (ODist (DComplex l r f)) n None None s = (Err e, s2).
  Proof.
    intros Hn Hr Ha Hb. rewrite smp_odist, smp_complex, wrap_none by assumption.
    rewrite (bindS_run _ _ _ _ _ Ha). unfold bindS. rewrite right_some by assumption.
    unfold bindS. rewrite Hb. reflexivity.
  Qed.

  Lemma op_pointwise l r o n s a b s1 s2 :
    (1 <= n)%nat -> r <> OLit PNone ->
    smp Or l n None None s = (Ok a, s1) -> smp Or r n None None s1 = (Ok b, s2) ->
    n_samples n a -> n_samples n b ->
    (forall zs, pointwise (binop (pow_ Or) (arrays n) o) (elems a) (elems b) zs -> Forall numeric zs \/ texts zs ->
       exists v, smp Or (ODist (DComplex l r (FOp o))) n None None s = (Ok v, s2) /\
                 n_samples n v /\ Forall2 same_number zs (elems v)) /\
    ((forall zs, ~ pointwise (binop (pow_ Or) (arrays n) o) (elems a) (elems b) zs) ->
       exists e, smp Or (ODist (DComplex l r (FOp o))) n None None s = (Err e, s2)).
  Proof.
    intros Hn Hr Ha Hb Na Nb. rewrite (complex_run _ _ _ _ _ _ _ _ _ Hn Hr Ha Hb).
    cbn [fn_result apply_fn].
    pose proof (lift2_run (fun arr => binop (pow_ Or) arr o) n a b Na Nb) as L.
    split.
    - intros zs P K. apply zipM_pointwise in P. cbv beta in L. rewrite P in L.
      destruct L as (v & -> & Nv & E). eexists; split; [reflexivity|]. split; [now apply n_finish|].
      destruct K as [K|K]; rewrite <- E in K |- *; [now apply finish_same|now apply finish_texts].
    - intros NP. destruct (zipM _ _ _) as [zs|e] eqn:Z.
      + apply zipM_pointwise in Z. destruct (NP _ Z).
      + rewrite L. eauto.
  Qed.

  Lemma neg_pointwise d n s a s1 :
    (1 <= n)%nat -> smp Or (ODist d) n None None s = (Ok a, s1) -> n_samples n a ->
    Forall (fun x => exists z, negop (arrays n) x = Ok z) (elems a) ->
    exists v, smp Or (ODist (op_neg d)) n None None s = (Ok v, s1) /\ n_samples n v /\
      Forall2 (fun x y => exists z, negop (arrays n) x = Ok z /\ same_number z y) (elems a) (elems v).
  Proof.
    intros Hn Ha Na F. unfold op_neg. rewrite (complex_run1 _ _ _ _ _ _ Hn Ha). cbn [fn_result apply_fn].
    assert (exists zs, mapM (negop (arrays n)) (elems a) = Ok zs) as (zs & Z).
    { clear -F. induction F; simpl; eauto. destruct H as (z & ->), IHF as (zs & ->). simpl; eauto. }
    assert (Nz : Forall numeric zs /\ Forall2 (fun x z => negop (arrays n) x = Ok z) (elems a) zs).
    { apply mapM_forall2 in Z. split; auto. clear -Z. revert Z. generalize (arrays n). intros arr Z.
      induction Z; constructor; auto.
      destruct x; simpl in H; try discriminate; try (inversion H; eexists; reflexivity).
      destruct arr; [discriminate|]. inversion H. eexists; reflexivity. }
    assert (exists v, lift1 negop a = Ok v /\ n_samples n v /\ elems v = zs) as (v & -> & Nv & E).
    { apply n_cases in Na as [[-> (x & ->)]|[N (l & -> & L)]]; simpl in Z |- *.
      - change (arrays 1) with false in Z. destruct (negop false x) as [z|]; [|discriminate]. simpl in *. inversion Z. eexists; repeat split; eauto. 
      - unfold arrays in Z. assert ((n =? 1)%nat = false) as E by now apply Nat.eqb_neq. rewrite E in Z. cbn [negb] in Z.
        rewrite Z. simpl. eexists; repeat split; eauto. apply n_arr; auto. apply mapM_length in Z. congruence. }
    eexists; split; [reflexivity|]. split; [now apply n_finish|].
    destruct Nz as [N1 N2]. rewrite <- E in N1. apply (finish_same Or) in N1.
    rewrite E in N1. revert N2 N1. generalize (elems (finish_list Or v)) (elems a). clear.
    intros lv la H. revert lv. induction H; intros lv K; inversion K; subst; constructor; eauto.
  Qed.
End Binary.

(* ------------------------------------------------------------------ *)
(** * C18: constant expressions *)
Lemma inject_Z_eq a b : a = b -> inject_Z a == inject_Z b.
Proof. now intros ->. Qed.
Lemma whole_den q : is_int_q q = true -> q == inject_Z (q_to_z q).
Proof.
  unfold is_int_q, q_to_z. intros H. apply Pos.eqb_eq in H.
  rewrite <- (Qred_correct q) at 1. destruct (Qred q) as [a d]. simpl in *. subst. reflexivity.
Qed.
Lemma is_int_q_inject z : is_int_q (inject_Z z) = true.
Proof.
  unfold is_int_q, Qred, inject_Z. simpl.
  destruct z; simpl; auto.
  - pose proof (Z.ggcd_correct_divisors (Zpos p) 1) as H1.
    simpl in H1. destruct (Pos.ggcd p 1) as [g [aa bb]] eqn:E. simpl in *.
    destruct H1 as [_ H1]. injection H1 as H1. symmetry in H1. apply Pos.mul_eq_1_r in H1. now subst.
  - pose proof (Z.ggcd_correct_divisors (Zneg p) 1) as H1.
    simpl in H1. destruct (Pos.ggcd p 1) as [g [aa bb]] eqn:E. simpl in *.
    destruct H1 as [_ H1]. injection H1 as H1. symmetry in H1. apply Pos.mul_eq_1_r in H1. now subst.
Qed.
Lemma whole_iff q : is_whole q = true -> is_int_q q = true /\ q_to_z q = Qfloor q.
Proof.
  unfold is_whole. intros H. apply Qeq_bool_eq in H.
  assert (Qred q = Qred (inject_Z (Qfloor q))) as E by now apply Qred_complete.
  assert (I : is_int_q q = true).
  { unfold is_int_q. rewrite E. apply is_int_q_inject. }
  split; auto. apply whole_den in I. apply inject_Z_injective.
  eapply Qeq_trans; [apply Qeq_sym; exact I|exact H].
Qed.

Lemma Qfloor_unique q z : inject_Z z <= q -> q < inject_Z (z + 1) -> Qfloor q = z.
Proof.
  intros H1 H2. pose proof (Qfloor_le q) as F1. pose proof (Qlt_floor q) as F2.
  assert (A : inject_Z (Qfloor q) < inject_Z (z + 1)) by lra.
  assert (B : inject_Z z < inject_Z (Qfloor q + 1)) by lra.
  rewrite <- Zlt_Qlt in A, B. lia.
Qed.
Lemma floor_div_pos a b : (0 < b)%Z -> Qfloor (inject_Z a / inject_Z b) = (a / b)%Z.
Proof.
  intros Hb. assert (Hb' : 0 < inject_Z b) by (change 0 with (inject_Z 0); rewrite <- Zlt_Qlt; lia).
  pose proof (Z.div_mod a b). pose proof (Z.mod_pos_bound a b Hb).
  apply Qfloor_unique.
  - apply Qle_shift_div_l; auto. rewrite <- inject_Z_mult, <- Zle_Qle. lia.
  - apply Qlt_shift_div_r; auto. rewrite <- inject_Z_mult, <- Zlt_Qlt. lia.
Qed.
Lemma floor_div a b : b <> 0%Z -> Qfloor (inject_Z a / inject_Z b) = (a / b)%Z.
Proof.
  intros Hb. destruct (Z.lt_trichotomy b 0) as [H|[H|H]]; [|congruence|now apply floor_div_pos].
  rewrite <- (Z.div_opp_opp a b) by assumption.
  rewrite <- floor_div_pos by lia. apply Qfloor_comp. rewrite !inject_Z_opp.
  assert (~ inject_Z b == 0).
  { unfold Qeq; simpl. lia. }
  field. repeat split; auto; intros C; lra.
Qed.


Lemma plain_x v q : plain v q -> exists x, as_x v = Some (Fin x) /\ x == q.
Proof. destruct v as [z|[]| | |]; simpl; try tauto; eauto. Qed.

Lemma Qeq_bool_inject z : Qeq_bool (inject_Z z) 0 = (z =? 0)%Z.
Proof.
  unfold Qeq_bool. simpl. rewrite Z.mul_1_r.
  destruct (Z.eqb_spec z 0) as [->|N]; [reflexivity|]. apply not_true_is_false. intros C.
  apply Zeq_is_eq_bool in C. congruence.
Qed.
Lemma Qeq_bool_comp0 a b : a == b -> Qeq_bool a 0 = Qeq_bool b 0.
Proof. intros H. destruct (Qeq_bool b 0) eqn:E.
  - apply Qeq_bool_eq in E. apply Qeq_eq_bool. now rewrite H.
  - apply Qeq_bool_false in E. apply Qeq_bool_false. now rewrite H.
Qed.
Lemma Qle_bool_comp a b c d : a == b -> c == d -> Qle_bool a c = Qle_bool b d.
Proof.
  intros E1 E2. destruct (Qle_bool a c) eqn:A, (Qle_bool b d) eqn:B; auto.
  - apply Qle_bool_iff in A. apply Qle_bool_false in B. lra.
  - apply Qle_bool_iff in B. apply Qle_bool_false in A. lra.
Qed.

Lemma inject_pow a k : (0 <= k)%Z -> inject_Z (a ^ k) == Qpower (inject_Z a) k.
Proof. intros H. now apply Zpower_Qpower. Qed.
Lemma Qfloor_eq a b : a == b -> Qfloor a = Qfloor b.
Proof. intros H. now apply Qfloor_comp. Qed.
Lemma Qpower_eq a b k : a == b -> Qpower a k == Qpower b k.
Proof. now intros ->. Qed.
Lemma is_whole_comp a b : a == b -> is_whole a = is_whole b.
Proof.
  intros H. unfold is_whole. rewrite (Qfloor_eq _ _ H).
  destruct (Qeq_bool b _) eqn:E.
  - apply Qeq_bool_eq in E. apply Qeq_eq_bool. now rewrite H.
  - apply Qeq_bool_false in E. apply Qeq_bool_false. now rewrite H.
Qed.
Lemma is_whole_inject z : is_whole (inject_Z z) = true.
Proof. unfold is_whole. rewrite Qfloor_Z. apply Qeq_bool_refl. Qed.

Lemma iop_plain arr o a b q :
  arith o (inject_Z a) (inject_Z b) = Some q -> exists z, iop arr o a b = Ok z /\ plain z q.
Proof.
  destruct o; cbn [arith iop fop]; intros H; try discriminate.
  - inversion H. eexists; split; eauto. simpl. now rewrite inject_Z_plus.
  - inversion H. eexists; split; eauto. simpl. unfold Qminus. rewrite <- inject_Z_opp, <- inject_Z_plus.
    apply inject_Z_eq. lia.
  - inversion H. eexists; split; eauto. simpl. now rewrite inject_Z_mult.
  - rewrite Qeq_bool_inject in H. destruct (b =? 0)%Z; inversion H. eexists; split; eauto. simpl. reflexivity.
  - rewrite Qeq_bool_inject in H. destruct (Z.eqb_spec b 0) as [|Nb]; [discriminate|]. assert (q = inject_Z (Qfloor (inject_Z a / inject_Z b))) as -> by congruence.
    eexists; split; eauto. cbn [plain].
    rewrite floor_div by assumption. reflexivity.
  - rewrite is_whole_inject, Qfloor_Z in H. simpl in H. unfold ipow.
    destruct (Qle_bool 0 (inject_Z b)) eqn:E; inversion H. apply Qle_bool_iff in E.
    change 0 with (inject_Z 0) in E. rewrite <- Zle_Qle in E. apply Z.leb_le in E. rewrite E.
    eexists; split; eauto. simpl. apply inject_pow. now apply Z.leb_le.
Qed.
Lemma arith_comp o x x' y y' q : x == x' -> y == y' -> arith o x y = Some q ->
  exists q', arith o x' y' = Some q' /\ q' == q.
Proof.
  intros Ex Ey. destruct o; simpl; intros H; try discriminate.
  - inversion H. eexists; split; eauto. now rewrite Ex, Ey.
  - inversion H. eexists; split; eauto. now rewrite Ex, Ey.
  - inversion H. eexists; split; eauto. now rewrite Ex, Ey.
  - rewrite <- (Qeq_bool_comp0 _ _ Ey). destruct (Qeq_bool y 0); inversion H. eexists; split; eauto. now rewrite Ex, Ey.
  - rewrite <- (Qeq_bool_comp0 _ _ Ey). destruct (Qeq_bool y 0); inversion H. eexists; split; eauto.
    apply inject_Z_eq. apply Qfloor_eq. now rewrite Ex, Ey.
  - rewrite <- (is_whole_comp _ _ Ey), <- (Qle_bool_comp 0 0 y y'), <- (Qfloor_eq _ _ Ey) by (auto; reflexivity).
    destruct (is_whole y && Qle_bool 0 y); inversion H. eexists; split; eauto. apply Qpower_eq. now rewrite Ex.
Qed.
Lemma fop_plain pw arr o x y q :
  arith o x y = Some q -> exists z, fop pw arr o (Fin x) (Fin y) = Ok z /\ plain z q.
Proof.
  destruct o; cbn [arith fop xzero xdiv xfloordiv xadd xsub xneg xmul xpow]; intros H; try discriminate.
  - inversion H. eexists; split; eauto. simpl. reflexivity.
  - inversion H. eexists; split; eauto. simpl. reflexivity.
  - inversion H. eexists; split; eauto. simpl. reflexivity.
  - destruct (Qeq_bool y 0); inversion H. cbn. eexists; split; eauto. simpl. reflexivity.
  - destruct (Qeq_bool y 0); inversion H. cbn. eexists; split; eauto. simpl. reflexivity.
  - destruct (is_whole y) eqn:W; [|discriminate]. destruct (whole_iff _ W) as [I E].
    simpl in H. destruct (Qle_bool 0 y) eqn:L; [|discriminate]. inversion H. clear H.
    apply Qle_bool_iff in L. rewrite I, E. destruct (Qeq_bool y 0) eqn:Y.
    { apply Qeq_bool_iff in Y. eexists; split; eauto. cbn [plain].
      rewrite (Qfloor_eq _ _ Y). reflexivity. }
    assert (0 < y) as P. { apply Qeq_bool_false in Y. lra. }
    destruct (Qeq_bool x 0) eqn:X; [|eexists; split; eauto; cbn [plain]; reflexivity].
    apply Qeq_bool_iff in X. apply Qlt_bool_iff in P. rewrite P. apply Qlt_bool_iff in P.
    eexists; split; eauto. cbn [plain]. rewrite X. symmetry. apply Qpower_0.
    intros F. unfold is_whole in W. apply Qeq_bool_iff in W. rewrite F in W. change (inject_Z 0) with 0 in W. lra.
Qed.
Lemma plain_comp z q q' : plain z q -> q == q' -> plain z q'.
Proof. destruct z as [z|[]| | |]; simpl; try tauto; intros H E; now rewrite H. Qed.
Lemma binop_plain pw arr o a b x y q :
  plain a x -> plain b y -> arith o x y = Some q -> exists z, binop pw arr o a b = Ok z /\ plain z q.
Proof.
  intros Pa Pb H.
  destruct a as [za|[xa| | |]| | |]; simpl in Pa; try contradiction;
  destruct b as [zb|[xb| | |]| | |]; simpl in Pb; try contradiction;
  destruct (arith_comp _ _ _ _ _ _ (Qeq_sym _ _ Pa) (Qeq_sym _ _ Pb) H) as (q' & H' & E).
  - apply (iop_plain arr) in H' as (z & Hz & Pz). exists z. split; eauto using plain_comp.
  - apply (fop_plain pw arr) in H' as (z & Hz & Pz). exists z. split; eauto using plain_comp.
  - apply (fop_plain pw arr) in H' as (z & Hz & Pz). exists z. split; eauto using plain_comp.
  - apply (fop_plain pw arr) in H' as (z & Hz & Pz). exists z. split; eauto using plain_comp.
Qed.

Lemma Zltb_inject a b : (a <? b)%Z = Qlt_bool (inject_Z a) (inject_Z b).
Proof.
  destruct (Qlt_bool _ _) eqn:E.
  - apply Qlt_bool_iff in E. rewrite <- Zlt_Qlt in E. now apply Z.ltb_lt.
  - apply Qlt_bool_false in E. rewrite <- Zle_Qle in E. now apply Z.ltb_ge.
Qed.
Lemma Zleb_inject a b : (a <=? b)%Z = Qle_bool (inject_Z a) (inject_Z b).
Proof.
  destruct (Qle_bool _ _) eqn:E.
  - apply Qle_bool_iff in E. rewrite <- Zle_Qle in E. now apply Z.leb_le.
  - apply Qle_bool_false in E. rewrite <- Zlt_Qlt in E. apply Z.leb_gt. assumption.
Qed.
Lemma xle_fin x y : xle (Fin x) (Fin y) = Qle_bool x y.
Proof.
  unfold xle. change (xlt (Fin x) (Fin y)) with (Qlt_bool x y). simpl.
  destruct (Qle_bool x y) eqn:E.
  - apply Qle_bool_iff in E. destruct (Qlt_bool x y) eqn:L; auto. apply Qlt_bool_false in L.
    simpl. apply Qeq_eq_bool. lra.
  - apply Qle_bool_false in E. assert (Qlt_bool x y = false) as -> by (apply Qlt_bool_false; lra).
    simpl. apply Qeq_bool_false. lra.
Qed.
Lemma binop_compare pw arr o a b x y c :
  plain a x -> plain b y -> compare o x y = Some c -> binop pw arr o a b = Ok (PBool c).
Proof.
  intros Pa Pb H.
  destruct a as [za|[xa| | |]| | |]; simpl in Pa; try contradiction;
  destruct b as [zb|[xb| | |]| | |]; simpl in Pb; try contradiction;
  destruct o; simpl in H; try discriminate; inversion H; simpl; f_equal; f_equal;
  rewrite ?Zltb_inject, ?Zleb_inject, ?xle_fin;
  first [apply Qlt_bool_comp; assumption | apply Qle_bool_comp; assumption].
Qed.
Lemma neg_plain arr a x : plain a x -> exists z, negop arr a = Ok z /\ plain z (- x).
Proof.
  destruct a as [za|[xa| | |]| | |]; simpl; try contradiction; intros H.
  - eexists; split; eauto. simpl. rewrite inject_Z_opp. now rewrite H.
  - eexists; split; eauto. simpl. now rewrite H.
Qed.

(** [n] copies of one value. *)

Lemma copies_elems x n : elems (copies x n) = repeat x n.
Proof. unfold copies. destruct n as [|[|n]]; reflexivity. Qed.
Lemma copies_n x n : n_samples n (copies x n).
Proof. apply n_simplify. apply repeat_length. Qed.
Lemma n_samples_elems n v l : n_samples n v -> elems v = l -> v = simplify l.
Proof.
  intros N E. apply n_cases in N as [[-> (x & ->)]|[N (m & -> & L)]]; simpl in E; subst; [reflexivity|].
  destruct l as [|x [|y l]]; try reflexivity. simpl in N. congruence.
Qed.
Lemma zipM_repeat {A B C} (f : A -> B -> res C) x y z n : f x y = Ok z -> zipM f (repeat x n) (repeat y n) = Ok (repeat z n).
Proof. intros H. induction n; simpl; auto. rewrite H, IHn. reflexivity. Qed.
Lemma mapM_repeat {A B} (f : A -> res B) x z n : f x = Ok z -> mapM f (repeat x n) = Ok (repeat z n).
Proof. intros H. induction n; simpl; auto. rewrite H, IHn. reflexivity. Qed.

Lemma np_array_repeat f x n : np_array f (repeat x n) = repeat x n.
Proof.
  assert (E : forall p, existsb p (repeat x n) = negb (Nat.eqb n 0) && p x).
  { intros p. induction n; simpl; auto. rewrite IHn. destruct (p x); simpl; auto.
    rewrite andb_false_r. reflexivity. }
  assert (Mp : forall h, h x = x -> map h (repeat x n) = repeat x n).
  { intros h H. induction n; simpl; auto. rewrite H. f_equal. apply IHn.
    intros p. clear. induction n; simpl; auto. rewrite IHn. destruct (p x); simpl; auto.
    rewrite andb_false_r. reflexivity. }
  unfold np_array. rewrite !E. destruct n; [reflexivity|]. simpl negb. rewrite !andb_true_l.
  destruct x as [z|q|b|t|]; simpl is_none; simpl is_str; simpl is_flt; simpl is_int; cbv iota; auto; apply Mp; reflexivity.
Qed.
Lemma finish_copies Or x n : finish_list Or (copies x n) = copies x n.
Proof.
  unfold copies. destruct n as [|[|n]]; [reflexivity|reflexivity|].
  change (simplify (repeat x (S (S n)))) with (Arr (repeat x (S (S n)))).
  unfold finish_list. now rewrite np_array_repeat.
Qed.

Section Const.
  Variable Or : oracle.
  Notation St := (state (G Or)).

  Lemma sample_lit x n s : (1 <= n)%nat -> smp Or (OLit x) n None None s = (Ok (copies x n), s).
  Proof. intros H. rewrite smp_lit, wrap_none by assumption. cbn [ret]. f_equal. f_equal. apply finish_copies. Qed.
  Lemma sample_const x n s : (1 <= n)%nat ->
    smp Or (ODist (DLeaf (LConst x) None None)) n None None s = (Ok (copies x n), s).
  Proof.
    intros H. rewrite smp_odist, smp_leaf, wrap_none by assumption. cbn [leaf_sample ret].
    rewrite np_array_repeat. f_equal. f_equal. apply finish_copies.
  Qed.
  Lemma lift2_copies f x y z n : f (arrays n) x y = Ok z ->
    lift2 f (copies x n) (copies y n) = Ok (copies z n).
  Proof.
    intros H. pose proof (lift2_run f n _ _ (copies_n x n) (copies_n y n)) as L.
    rewrite !copies_elems, (zipM_repeat _ _ _ _ _ H) in L. destruct L as (v & -> & N & E).
    f_equal. unfold copies. eapply n_samples_elems; eauto.
  Qed.
  Lemma lift1_copies f x z n : f (arrays n) x = Ok z -> lift1 f (copies x n) = Ok (copies z n).
  Proof.
    unfold copies, arrays. destruct n as [|[|n]]; intros H; [reflexivity|simpl in *; now rewrite H|].
    cbn [Nat.eqb negb] in H. pose proof (mapM_repeat (f true) x z (S (S n)) H) as M.
    change (simplify (repeat x (S (S n)))) with (Arr (repeat x (S (S n)))).
    change (simplify (repeat z (S (S n)))) with (Arr (repeat z (S (S n)))).
    unfold lift1. now rewrite M.
  Qed.

  Lemma expr_not_none (e : aexp) : (expr e : obj (G Or)) <> OLit PNone.
  Proof. destruct e; simpl; try discriminate. destruct a; discriminate. Qed.

  Lemma num_plain a : plain (num_pv a) (num_q a).
  Proof. destruct a; simpl; reflexivity. Qed.

  Lemma const_expr e : forall q n s, (1 <= n)%nat -> eval e = Some q ->
    exists x, smp Or (expr e) n None None s = (Ok (copies x n), s) /\ plain x q.
  Proof.
    induction e; intros q n s Hn H; cbn [eval expr] in *.
    - inversion H; subst. exists (num_pv a). rewrite sample_lit by assumption. auto using num_plain.
    - inversion H; subst. exists (num_pv a). rewrite sample_const by assumption. auto using num_plain.
    - destruct (eval e1) as [x|]; [|discriminate]. destruct (eval e2) as [y|]; [|discriminate].
      destruct (IHe1 x n s Hn eq_refl) as (a & Ea & Pa).
      destruct (IHe2 y n s Hn eq_refl) as (b & Eb & Pb).
      destruct (binop_plain (pow_ Or) (arrays n) _ _ _ _ _ _ Pa Pb H) as (z & Ez & Pz).
      exists z. split; auto.
      rewrite (complex_run _ _ _ _ _ _ _ _ _ _ Hn (expr_not_none e2) Ea Eb).
      cbn [fn_result apply_fn]. rewrite (lift2_copies _ _ _ _ _ Ez). now rewrite finish_copies.
    - destruct (eval e) as [x|]; [|discriminate]. inversion H; subst.
      destruct (IHe x n s Hn eq_refl) as (a & Ea & Pa).
      destruct (neg_plain (arrays n) _ _ Pa) as (z & Ez & Pz).
      exists z. split; auto.
      rewrite (complex_run1 _ _ _ _ _ _ _ Hn Ea).
      cbn [fn_result apply_fn]. rewrite (lift1_copies _ _ _ _ Ez). now rewrite finish_copies.
  Qed.
  Lemma const_compare o e1 e2 x y c n s :
    (1 <= n)%nat -> eval e1 = Some x -> eval e2 = Some y -> compare o x y = Some c ->
    smp Or (ODist (DComplex (expr e1) (expr e2) (FOp o))) n None None s = (Ok (copies (PBool c) n), s).
  Proof.
    intros Hn H1 H2 Hc.
    destruct (const_expr e1 x n s Hn H1) as (a & Ea & Pa).
    destruct (const_expr e2 y n s Hn H2) as (b & Eb & Pb).
    rewrite (complex_run _ _ _ _ _ _ _ _ _ _ Hn (expr_not_none e2) Ea Eb).
    cbn [fn_result apply_fn].
    rewrite (lift2_copies _ _ _ _ _ (binop_compare (pow_ Or) (arrays n) _ _ _ _ _ _ Pa Pb Hc)). now rewrite finish_copies.
  Qed.

  (* ---------------------------------------------------------------- *)
  (** * C20: [dist_fn] *)
  Lemma fn_result_user (h : stateful (G Or)) n a s :
    fn_result Or (as_fn h) n a None s = h a s.
  Proof. cbn. destruct (h a s) as [[v|e] s']; reflexivity. Qed.
  Lemma fn_result_user2 (h : stateful2 (G Or)) n a b s :
    fn_result Or (as_fn2 h) n a (Some b) s = h a b s.
  Proof. cbn. destruct (h a b s) as [[v|e] s']; reflexivity. Qed.
  Lemma settled_finish v : settled (fmt Or) v -> finish_list Or v = v.
  Proof. destruct v; simpl; auto. now intros ->. Qed.

  Lemma fold_err1 hs (o : obj (G Or)) n s e s1 : (1 <= n)%nat ->
    smp Or o n None None s = (Err e, s1) ->
    smp Or (fold_fns o (OLit PNone) (map as_fn hs)) n None None s = (Err e, s1).
  Proof.
    intros Hn. revert o. induction hs; simpl; intros o H; auto.
    apply IHhs. now apply complex_left_err.
  Qed.
  Lemma fold_run1 hs : forall (o : obj (G Or)) n s, (1 <= n)%nat ->
    Forall (fun h => forall a s v s', h a s = (Ok v, s') -> settled (fmt Or) v) hs ->
    smp Or (fold_fns o (OLit PNone) (map as_fn hs)) n None None s =
    match smp Or o n None None s with
    | (Ok a, s1) => run_all hs a s1
    | (Err e, s1) => (Err e, s1)
    end.
  Proof.
    induction hs; intros o n s Hn F.
    - simpl. destruct (smp Or o n None None s) as [[v|e] s1]; reflexivity.
    - inversion F; subst. cbn [map fold_fns fold_left run_all].
      destruct (smp Or o n None None s) as [[v|e] s1] eqn:E.
      + pose proof (complex_run1 Or _ (as_fn a) _ _ _ _ Hn E) as C.
        rewrite fn_result_user in C.
        change (fold_left _ (map as_fn hs) ?x) with (fold_fns x (OLit PNone) (map as_fn hs)).
        rewrite IHhs by assumption. rewrite C.
        destruct (a v s1) as [[w|e] s2] eqn:W; [|reflexivity].
        rewrite settled_finish by eauto. reflexivity.
      + apply (fold_err1 (a :: hs)); assumption.
  Qed.
  Lemma fold_err2 hs (o d2 : obj (G Or)) n s e s1 : (1 <= n)%nat ->
    smp Or o n None None s = (Err e, s1) ->
    smp Or (fold_fns o d2 (map as_fn2 hs)) n None None s = (Err e, s1).
  Proof.
    intros Hn. revert o. induction hs; simpl; intros o H; auto.
    apply IHhs. now apply complex_left_err.
  Qed.
  Lemma fold_run2 d2 hs : forall (o : obj (G Or)) n s, (1 <= n)%nat -> d2 <> OLit PNone ->
    Forall (fun h => forall a b s v s', h a b s = (Ok v, s') -> settled (fmt Or) v) hs ->
    smp Or (fold_fns o d2 (map as_fn2 hs)) n None None s =
    match smp Or o n None None s with
    | (Ok a, s1) => run_all2 (smp Or d2 n None None) hs a s1
    | (Err e, s1) => (Err e, s1)
    end.
  Proof.
    induction hs; intros o n s Hn N F.
    - simpl. destruct (smp Or o n None None s) as [[v|e] s1]; reflexivity.
    - inversion F; subst. cbn [map fold_fns fold_left run_all2].
      destruct (smp Or o n None None s) as [[v|e] s1] eqn:E; [|apply (fold_err2 (a :: hs)); assumption].
      destruct (smp Or d2 n None None s1) as [[b|e] s2] eqn:E2.
      + pose proof (complex_run Or _ _ (as_fn2 a) _ _ _ _ _ _ Hn N E E2) as C.
        rewrite fn_result_user2 in C.
        change (fold_left _ (map as_fn2 hs) ?x) with (fold_fns x d2 (map as_fn2 hs)).
        rewrite IHhs by assumption. rewrite C.
        destruct (a v b s2) as [[w|e] s3] eqn:W; [|reflexivity].
        rewrite settled_finish by eauto. reflexivity.
      + change (fold_left _ (map as_fn2 hs) ?x) with (fold_fns x d2 (map as_fn2 hs)).
        apply fold_err2; auto. eapply complex_right_err; eauto.
  Qed.
End Const.

Lemma zip_copies_l {A B C} (f : A -> B -> res C) x : forall l, zipM f (repeat x (length l)) l = mapM (f x) l.
Proof. induction l as [|y l IH]; simpl; auto. now rewrite IH. Qed.
Lemma zip_copies_r {A B C} (f : A -> B -> res C) x : forall l, zipM f l (repeat x (length l)) = mapM (fun y => f y x) l.
Proof. induction l as [|y l IH]; simpl; auto. now rewrite IH. Qed.
Lemma single_operand f x l : lift2 f (Scalar x) (Arr l) = lift2 f (Arr (repeat x (length l))) (Arr l) /\
                             lift2 f (Arr l) (Scalar x) = lift2 f (Arr l) (Arr (repeat x (length l))).
Proof.
  destruct l as [|y [|z l]]; [split; reflexivity|split; reflexivity|]. cbn [lift2].
  pose proof (zip_copies_l (f true) x (y :: z :: l)) as A. pose proof (zip_copies_r (f true) x (y :: z :: l)) as B.
  cbn [length repeat] in *. rewrite A, B. split; reflexivity.
Qed.
