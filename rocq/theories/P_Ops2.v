(** More on operators and lazy functions: numeric reading (C17), repeated clips
    (C21), rounding and math functions (C89, C90). *)
From Verif Require Import Base M_Weights SpecWeights P_Weights P_Weights2 M_Pick M_Values M_Sampler M_Ops
  SpecSampler SpecSampler2 SpecOps P_Sampler P_Count P_Clip P_Ops P_Sampler2 P_Support P_Pure.
From Coq Require Import Lqa Qabs.
Open Scope Q_scope.

Section More.
  Variable Or : oracle.
  Notation St := (state (G Or)).

  (** Numbers in, numbers out. *)
  Lemma op_arith l r o n s a b s1 s2 xs ys zs :
    (1 <= n)%nat -> r <> OLit PNone ->
    smp Or l n None None s = (Ok a, s1) -> smp Or r n None None s1 = (Ok b, s2) ->
    n_samples n a -> n_samples n b ->
    Forall2 plain (elems a) xs -> Forall2 plain (elems b) ys ->
    Forall2 (fun xy z => arith o (fst xy) (snd xy) = Some z) (combine xs ys) zs ->
    exists v, smp Or (ODist (DComplex l r (FOp o))) n None None s = (Ok v, s2) /\
      n_samples n v /\
      Forall2 (fun z y => match as_x y with Some (Fin q) => q == z | _ => False end) zs (elems v).
  Proof.
    intros Hn Hr Ha Hb Na Nb Pa Pb Pz.
    assert (exists ws, pointwise (binop (pow_ Or) (arrays n) o) (elems a) (elems b) ws /\
            Forall2 (fun z w => match as_x w with Some (Fin q) => q == z | _ => False end) zs ws) as (ws & Pw & Pq).
    { apply n_elems in Na. apply n_elems in Nb. assert (L : length (elems a) = length (elems b)) by congruence.
      clear -Pa Pb Pz L. revert b ys zs Pb Pz L. generalize (elems a) Pa. clear Pa a.
      intros la Pa b. generalize (elems b). clear b. 
      induction Pa as [|x q la xs Px Pa IH]; intros lb ys zs Pb Pz L.
      - destruct lb; [|discriminate]. inversion Pz; subst. exists []. split; constructor.
      - destruct lb as [|y lb]; [discriminate|]. inversion Pb as [|? p ? ys' Py Pb']; subst.
        simpl in Pz. inversion Pz as [|? z ? zs' Hz Pz']; subst. simpl in Hz.
        destruct (binop_plain (pow_ Or) (arrays n) o x y q p z Px Py Hz) as (w & Ew & Pw).
        destruct (IH lb ys' zs' Pb' Pz' ltac:(simpl in L; congruence)) as (ws & P1 & P2).
        exists (w :: ws). split; constructor; auto. apply plain_x in Pw as (t & -> & E). exact E. }
    destruct (op_pointwise Or l r o n s a b s1 s2 Hn Hr Ha Hb Na Nb) as [H _].
    assert (Nw : Forall numeric ws).
    { clear -Pq. induction Pq as [|z w zs ws E Pq IH]; constructor; auto. unfold numeric. destruct (as_x w); [eauto|contradiction]. }
    destruct (H ws Pw (or_introl Nw)) as (v & Ev & Nv & Sv). exists v. repeat split; auto.
    clear -Pq Sv. revert Sv. generalize (elems v). intros lv Sv. revert lv Sv.
    induction Pq; intros lv Sv; inversion Sv; subst; constructor; auto.
    unfold same_number in *. destruct (as_x y) as [[q| | |]|]; try contradiction.
    destruct (as_x y0) as [[q'| | |]|]; simpl in *; try contradiction; try discriminate. lra.
  Qed.

  Lemma clip_twice d lo hi n s a s1 :
    (1 <= n)%nat -> smp Or d n None None s = (Ok a, s1) -> n_samples n a ->
    Forall numeric (elems a) -> (n = 1%nat \/ one_kind (elems a) lo hi) ->
    smp Or (clip_d (clip_d d (Some lo) (Some hi)) (Some lo) (Some hi)) n None None s =
    smp Or (clip_d d (Some lo) (Some hi)) n None None s.
  Proof.
    intros Hn Ha Na Nu K.
    pose proof (clip_samples Or d lo hi n s a s1 Hn Ha Na Nu K) as C1.
    assert (L : length (map (clamp_num lo hi) (elems a)) = n) by (rewrite map_length; now apply n_elems).
    rewrite (clip_samples Or _ lo hi n s _ s1 Hn C1); try (rewrite elems_simplify).
    - rewrite C1. rewrite map_map. do 2 f_equal. f_equal. apply map_ext. intros. apply clamp_num_idem.
    - now apply n_simplify.
    - rewrite Forall_forall in *. intros x Hx. apply in_map_iff in Hx as (y & <- & Hy).
      destruct (Nu y Hy) as (q & E). destruct (clamp_num_clamp lo hi y q E) as (z & E' & _). eexists; eauto.
    - destruct K as [->|K]; auto. right.
      erewrite map_ext by (intros; apply clamp_num_eq). rewrite <- map_map.
      destruct K as [(A & B & C)|(A & B & C)]; [left|right]; repeat split; auto.
      + apply floats_map_hi; auto. now apply floats_map_lo.
      + apply ints_map_hi; auto. now apply ints_map_lo.
  Qed.

  (** [dist_round]: one sample is rounded, several samples raise. *)
  Lemma round_many d digits n s a s1 : (2 <= n)%nat ->
    smp Or d n None None s = (Ok a, s1) ->
    smp Or (dist_round d digits) n None None s = (Err TypeError, s1).
  Proof.
    intros Hn Ha. unfold dist_round, fold_fns. cbn [fold_left].
    erewrite complex_run; [|lia|discriminate|exact Ha|apply sample_lit; lia].
    destruct n as [|[|n]]; try lia. cbn. reflexivity.
  Qed.
  Lemma round_one d digits s x q s1 :
    smp Or d 1 None None s = (Ok (Scalar x), s1) -> x = PFlt (Fin q) ->
    smp Or (dist_round d digits) 1 None None s =
      (Ok (Scalar (if (digits <=? 0)%Z then PInt (qtrunc (np_round q digits)) else PFlt (Fin (np_round q digits)))), s1).
  Proof.
    intros Ha ->. unfold dist_round, fold_fns. cbn [fold_left].
    erewrite complex_run; [|lia|discriminate|exact Ha|apply sample_lit; lia].
    cbn. destruct (digits <=? 0)%Z; reflexivity.
  Qed.
  Lemma round_text d digits s x s1 : smp Or d 1 None None s = (Ok (Scalar x), s1) -> as_x x = None ->
    smp Or (dist_round d digits) 1 None None s = (Err TypeError, s1).
  Proof.
    intros Ha Hx. unfold dist_round, fold_fns. cbn [fold_left].
    erewrite complex_run; [|lia|discriminate|exact Ha|apply sample_lit; lia].
    destruct x; try discriminate Hx; reflexivity.
  Qed.
  Lemma exp_many d f n s a s1 : (2 <= n)%nat -> n_samples n a ->
    smp Or d n None None s = (Ok a, s1) ->
    smp Or (dist_exp f d) n None None s = (Err TypeError, s1).
  Proof.
    intros Hn Na Ha. unfold dist_exp, fold_fns. cbn [fold_left].
    rewrite (complex_run1 Or d _ n s a s1 ltac:(lia) Ha).
    apply n_cases in Na as [[-> _]|[_ (l & -> & L)]]; [lia|].
    destruct l as [|x [|y l]]; simpl in L; try lia. reflexivity.
  Qed.
  Lemma log_many d f base n s a s1 : (2 <= n)%nat -> n_samples n a ->
    smp Or d n None None s = (Ok a, s1) ->
    smp Or (dist_log f d base) n None None s = (Err TypeError, s1).
  Proof.
    intros Hn Na Ha. unfold dist_log, fold_fns. cbn [fold_left].
    erewrite complex_run; [|lia|discriminate|exact Ha|apply sample_const; lia].
    apply n_cases in Na as [[-> _]|[_ (l & -> & L)]]; [lia|]. reflexivity.
  Qed.

  (** [dist_max], [dist_min] of one-kind numeric samples. *)
  Lemma max_pointwise d1 d2 n s a b s1 s2 zs :
    (1 <= n)%nat -> d2 <> OLit PNone ->
    smp Or d1 n None None s = (Ok a, s1) -> smp Or d2 n None None s1 = (Ok b, s2) ->
    n_samples n a -> n_samples n b -> pointwise max_pv (elems a) (elems b) zs ->
    exists v, smp Or (dist_max2 d1 d2) n None None s = (Ok v, s2) /\ n_samples n v /\
      Forall2 same_number zs (elems v).
  Proof.
    intros Hn Hr Ha Hb Na Nb P. unfold dist_max2, fold_fns. cbn [fold_left].
    erewrite complex_run; [|exact Hn|exact Hr|exact Ha|exact Hb].
    pose proof (lift2_run (fun _ => max_pv) n a b Na Nb) as L. cbv beta in L.
    pose proof P as P'. apply zipM_pointwise in P. rewrite P in L. destruct L as (v & Lv & Nv & E).
    cbn [fn_result pure2]. rewrite Lv. cbn. eexists; split; [reflexivity|]. split; [now apply n_finish|].
    rewrite <- E. apply finish_same. rewrite E. clear -P'.
    induction P'; constructor; auto. clear -H. unfold max_pv in H.
    destruct (as_x x) as [[q| | |]|] eqn:Ex; destruct (as_x y) as [[p| | |]|] eqn:Ey; try discriminate;
      apply ok_inj in H; subst; try (match goal with |- numeric (if ?c then _ else _) => destruct c end); eexists; first [reflexivity|eassumption].
  Qed.
  Lemma min_pointwise d1 d2 n s a b s1 s2 zs :
    (1 <= n)%nat -> d2 <> OLit PNone ->
    smp Or d1 n None None s = (Ok a, s1) -> smp Or d2 n None None s1 = (Ok b, s2) ->
    n_samples n a -> n_samples n b -> pointwise min_pv (elems a) (elems b) zs ->
    exists v, smp Or (dist_min2 d1 d2) n None None s = (Ok v, s2) /\ n_samples n v /\
      Forall2 same_number zs (elems v).
  Proof.
    intros Hn Hr Ha Hb Na Nb P. unfold dist_min2, fold_fns. cbn [fold_left].
    erewrite complex_run; [|exact Hn|exact Hr|exact Ha|exact Hb].
    pose proof (lift2_run (fun _ => min_pv) n a b Na Nb) as L. cbv beta in L.
    pose proof P as P'. apply zipM_pointwise in P. rewrite P in L. destruct L as (v & Lv & Nv & E).
    cbn [fn_result pure2]. rewrite Lv. cbn. eexists; split; [reflexivity|]. split; [now apply n_finish|].
    rewrite <- E. apply finish_same. rewrite E. clear -P'.
    induction P'; constructor; auto. clear -H. unfold min_pv in H.
    destruct (as_x x) as [[q| | |]|] eqn:Ex; destruct (as_x y) as [[p| | |]|] eqn:Ey; try discriminate;
      apply ok_inj in H; subst; try (match goal with |- numeric (if ?c then _ else _) => destruct c end); eexists; first [reflexivity|eassumption].
  Qed.
End More.

(** Rounding half to even is nearest. *)
Lemma round_half_even_near q : Qabs (q - inject_Z (round_half_even q)) <= 1#2.
Proof.
  unfold round_half_even.
  pose proof (Qfloor_le q) as L. pose proof (Qlt_floor q) as U. rewrite inject_Z_plus in U.
  change (inject_Z 1) with 1 in U.
  destruct (Qlt_bool _ _) eqn:A.
  - apply qlt_true in A. apply Qabs_Qle_condition. split; lra.
  - apply qlt_false in A. destruct (Qlt_bool (1#2) _) eqn:B.
    + apply qlt_true in B. rewrite inject_Z_plus. change (inject_Z 1) with 1.
      apply Qabs_Qle_condition. split; lra.
    + apply qlt_false in B. destruct (Z.even _).
      * apply Qabs_Qle_condition. split; lra.
      * rewrite inject_Z_plus. change (inject_Z 1) with 1. apply Qabs_Qle_condition. split; lra.
Qed.
Lemma round_half_even_tie z : Z.Even (round_half_even (inject_Z z + (1#2))).
Proof.
  unfold round_half_even.
  assert (Qfloor (inject_Z z + (1#2)) = z) as ->.
  { apply Qfloor_unique; rewrite ?inject_Z_plus; change (inject_Z 1) with 1; lra. }
  assert (Qlt_bool (inject_Z z + (1#2) - inject_Z z) (1#2) = false) as -> by (apply qlt_false; lra).
  assert (Qlt_bool (1#2) (inject_Z z + (1#2) - inject_Z z) = false) as -> by (apply qlt_false; lra).
  destruct (Z.even z) eqn:E; [now apply Z.even_spec|].
  apply Z.even_spec. rewrite Z.even_add, E. reflexivity.
Qed.

Lemma clip_clamps Or d lo hi n s a s1 :
  (1 <= n)%nat -> smp Or d n None None s = (Ok a, s1) -> n_samples n a ->
  Forall numeric (elems a) -> (n = 1%nat \/ one_kind (elems a) lo hi) ->
  exists v, smp Or (clip_d d (Some lo) (Some hi)) n None None s = (Ok v, s1) /\
    Forall2 (fun x y => exists xx yy, as_x x = Some xx /\ as_x y = Some yy /\
               yy = clamp (Some (num_q lo)) (Some (num_q hi)) xx) (elems a) (elems v).
Proof.
  intros Hn H N NU K. eexists. split; [eapply clip_samples; eauto|].
  rewrite elems_simplify. clear -NU. induction NU as [|x l [xx E] NU IH]; simpl; constructor; auto.
  destruct (clamp_num_clamp lo hi x xx E) as (yy & E' & ->). eauto.
Qed.
Lemma clip_none' Or d n s a s1 :
  (1 <= n)%nat -> smp Or d n None None s = (Ok a, s1) -> n_samples n a ->
  (n = 1%nat \/ floats (elems a) \/ integers (elems a)) ->
  smp Or (clip_d d None None) n None None s = (Ok a, s1).
Proof. intros. eapply clip_none; eauto. Qed.
Lemma scalar_array pw o a b x y q : plain a x -> plain b y -> arith o x y = Some q ->
  exists z z', binop pw false o a b = Ok z /\ binop pw true o a b = Ok z' /\ plain z q /\ plain z' q.
Proof.
  intros A B E. destruct (binop_plain pw false o a b x y q A B E) as (z & Hz & Pz).
  destruct (binop_plain pw true o a b x y q A B E) as (z' & Hz' & Pz'). eauto 10.
Qed.
Lemma max_min_plain a b x y : plain a x -> plain b y ->
  (exists z, max_pv a b = Ok z /\ plain z (if Qlt_bool x y then y else x)) /\
  (exists z, min_pv a b = Ok z /\ plain z (if Qlt_bool y x then y else x)).
Proof.
  intros A B. destruct (plain_x a x A) as (u & Eu & U). destruct (plain_x b y B) as (w & Ew & W).
  unfold max_pv, min_pv. rewrite Eu, Ew. split; eexists; (split; [reflexivity|]); unfold xlt.
  - rewrite (Qlt_bool_comp u x w y U W). destruct (Qlt_bool x y); auto.
  - rewrite (Qlt_bool_comp w y u x W U). destruct (Qlt_bool y x); auto.
Qed.

Lemma round_floats qs d : round_val (Arr (map (fun q => PFlt (Fin q)) qs)) (Scalar (PInt d)) =
  match qs with
  | [] => if (d <=? 0)%Z then Err TypeError else Ok (Arr [])
  | [q] => if (d <=? 0)%Z then Err TypeError else Ok (Arr [PFlt (Fin (np_round q d))])
  | _ => Ok (Arr (map (fun q => if (d =? 0)%Z then PInt (qtrunc (np_round q d)) else PFlt (Fin (np_round q d))) qs))
  end.
Proof.
  assert (R : forall l, mapM (np_round_pv d) (map (fun q => PFlt (Fin q)) l) = Ok (map (fun q => PFlt (Fin (np_round q d))) l)).
  { induction l as [|q l IH]; [reflexivity|]. cbn [map mapM np_round_pv bind]. rewrite IH. reflexivity. }
  assert (I : forall l, mapM py_int (map (fun q => PFlt (Fin (np_round q d))) l) = Ok (map (fun q => PInt (qtrunc (np_round q d))) l)).
  { induction l as [|q l IH]; [reflexivity|]. cbn [map mapM py_int bind]. rewrite IH. reflexivity. }
  unfold round_val. destruct qs as [|a [|b qs]].
  - reflexivity.
  - cbn [map np_round_pv bind]. destruct (d <=? 0)%Z; reflexivity.
  - change (map (fun q => PFlt (Fin q)) (a :: b :: qs)) with (PFlt (Fin a) :: PFlt (Fin b) :: map (fun q => PFlt (Fin q)) qs).
    cbv iota. change (PFlt (Fin a) :: PFlt (Fin b) :: map (fun q => PFlt (Fin q)) qs) with (map (fun q => PFlt (Fin q)) (a :: b :: qs)).
    rewrite R. cbn [bind]. destruct (d =? 0)%Z; [rewrite I|]; reflexivity.
Qed.
