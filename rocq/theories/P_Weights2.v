(** More lemmas about the weight-processing model. *)
From Verif Require Import Base M_Weights SpecWeights P_Weights.
From Coq Require Import Lqa Field Setoid Morphisms.
Open Scope Q_scope.

(* ---------- C02 ---------- *)
Section Exact.
  Context {A : Type}.
  Variable as_pair : A -> option (cell * A).
  Variable is_na : A -> bool.

  Definition acceptable (ws : list Q) (n : nat) : Prop :=
    n <> 0%nat /\ nonneg ws /\
    ((S (length ws) = n /\ total ws < 1) \/
     (length ws = n /\ 99#100 < total ws /\ total ws < 101#100)).

  Lemma pwv_list ws l :
    l <> [] ->
    fst (pwv as_pair is_na (WList (map Num ws)) WNone (VList l) false) =
    fst (finish false (map Num ws) PCaller l).
  Proof. destruct l; [congruence|]. reflexivity. Qed.

  Lemma nonneg_snoc ws q : nonneg (ws ++ [q]) <-> nonneg ws /\ 0 <= q.
  Proof.
    unfold nonneg. rewrite Forall_app. split.
    - intros [H1 H2]. inversion H2; subst. auto.
    - intros [H1 H2]. auto.
  Qed.

  Lemma exact_accept ws l :
    (exists r, fst (pwv as_pair is_na (WList (map Num ws)) WNone (VList l) false) = Ok r)
    <-> acceptable ws (length l).
  Proof.
    split.
    - intros [[ws' vs'] H]. destruct l as [|x0 l0] eqn:El; [discriminate|]. rewrite <- El in *.
      assert (l <> []) as Hne by (rewrite El; discriminate).
      rewrite pwv_list in H by assumption.
      destruct (finish false (map Num ws) PCaller l) as [r post] eqn:Ef. cbn [fst] in H; subst r.
      destruct (finish_ok _ _ _ _ _ _ _ Ef) as (qs & Hqs & [((C & _) & _)|(fw & Hcase & Hl & Hloop)]); [discriminate|].
      apply (f_equal (map cell_q)) in Hqs. rewrite !cell_q_num in Hqs. subst qs.
      destruct (filter_loop_ok _ _ _ _ Hl Hloop) as (Hn & _).
      split; [rewrite El; discriminate|].
      destruct Hcase as [(H1 & [H2 H3] & -> & _)|(H1 & H2 & _ & -> & _)].
      + split; [assumption|]. right. auto.
      + apply nonneg_snoc in Hn. destruct Hn. split; [assumption|]. left; auto.
    - intros (Hne & Hn & Hc).
      assert (l <> []) as Hl by (intros ->; cbn in Hne; congruence).
      rewrite pwv_list by assumption. unfold finish. rewrite any_na_num, cell_q_num.
      destruct Hc as [(H1 & H2)|(H1 & H2 & H3)].
      + rewrite (proj2 (Nat.eqb_eq _ _) H1).
        replace (Qlt_bool (qsum ws) 1) with true
          by (symmetry; apply Qlt_bool_iff; rewrite qsum_total; assumption).
        cbn [andb fst].
        destruct (filter_loop_accepts (ws ++ [1 - qsum ws]) l) as [r Hr].
        * rewrite app_length; cbn; lia.
        * apply nonneg_snoc. split; [assumption|]. rewrite qsum_total. lra.
        * exists r; exact Hr.
      + replace (Nat.eqb (S (length ws)) (length l)) with false
          by (symmetry; apply Nat.eqb_neq; lia). cbn [andb].
        replace (Qle_bool (qsum ws) (99#100)) with false
          by (symmetry; apply Qle_bool_false; rewrite qsum_total; assumption).
        replace (Qle_bool (101#100) (qsum ws)) with false
          by (symmetry; apply Qle_bool_false; rewrite qsum_total; assumption).
        cbn [orb]. rewrite (proj2 (Nat.eqb_eq _ _) H1). cbn [negb fst].
        apply filter_loop_accepts; assumption.
  Qed.

  Lemma exact_reject ws l e :
    fst (pwv as_pair is_na (WList (map Num ws)) WNone (VList l) false) = Err e ->
    exists m, e = ValueError m.
  Proof.
    destruct l as [|x0 l0] eqn:El.
    - cbn. intros H; injection H as <-. eexists; reflexivity.
    - rewrite <- El. rewrite pwv_list by (rewrite El; discriminate).
      unfold finish. rewrite any_na_num, cell_q_num. intros H.
      destruct (Nat.eqb (S (length ws)) (length l) && Qlt_bool (qsum ws) 1) eqn:Eb; cbn [fst] in H.
      + apply andb_true_iff in Eb. destruct Eb as [E _]. apply Nat.eqb_eq in E.
        destruct (filter_loop_rejects (ws ++ [1 - qsum ws]) l e) as [-> _]; [|exact H|eexists; reflexivity].
        rewrite app_length; cbn; lia.
      + destruct (Qle_bool (qsum ws) (99#100) || Qle_bool (101#100) (qsum ws));
          [cbn in H; injection H as <-; eexists; reflexivity|].
        destruct (Nat.eqb_spec (length ws) (length l)) as [E|E]; cbn [negb fst] in H.
        * destruct (filter_loop_rejects ws l e E H) as [-> _]. eexists; reflexivity.
        * injection H as <-; eexists; reflexivity.
  Qed.

  (* ---------- C06 ---------- *)
  Lemma filter_loop_positive ws : forall vs : list A,
    length ws = length vs -> positive ws -> filter_loop ws vs = Ok (ws, vs).
  Proof.
    induction ws as [|w ws IH]; intros [|v vs] Hl Hp; cbn in Hl; try discriminate; [reflexivity|].
    inversion Hp as [|? ? Hw Hp']; subst. cbn [filter_loop].
    replace (Qlt_bool w 0) with false by (symmetry; apply Qlt_bool_false; lra).
    injection Hl as Hl. rewrite (IH _ Hl Hp'). cbn [bind fst snd].
    replace (Qlt_bool 0 w) with true by (symmetry; apply Qlt_bool_iff; lra). reflexivity.
  Qed.

  Lemma reprocess ws (vs : list A) :
    length ws = length vs -> positive ws -> range_ok (total ws) ->
    pwv as_pair is_na (WList (map Num ws)) WNone (VList vs) false =
    (Ok (ws, vs), (WList (map Num ws), WNone)).
  Proof.
    intros Hl Hp [H1 H2].
    destruct vs as [|v0 vs0] eqn:Ev.
    { destruct ws; [cbn in H1; lra|discriminate]. }
    rewrite <- Ev in *.
    assert (finish false (map Num ws) PCaller vs = (Ok (ws, vs), map Num ws)) as Hf.
    { unfold finish. rewrite any_na_num, cell_q_num.
      replace (Nat.eqb (S (length ws)) (length vs)) with false
          by (symmetry; apply Nat.eqb_neq; lia). cbn [andb].
      replace (Qle_bool (qsum ws) (99#100)) with false
        by (symmetry; apply Qle_bool_false; rewrite qsum_total; assumption).
      replace (Qle_bool (101#100) (qsum ws)) with false
        by (symmetry; apply Qle_bool_false; rewrite qsum_total; assumption).
      cbn [orb]. rewrite (proj2 (Nat.eqb_eq _ _) Hl). cbn [negb].
      rewrite filter_loop_positive by assumption. reflexivity. }
    unfold pwv. cbn [wnone negb andb]. rewrite Ev at 1. cbn [values_missing weights_of_warg].
    unfold fill_weights. cbn [andb]. rewrite Hf. reflexivity.
  Qed.

  Lemma idempotent w rw (v : varg A) drop ws vs aft :
    pwv as_pair is_na w rw v drop = (Ok (ws, vs), aft) -> ~ all_zero rw ->
    pwv as_pair is_na (WList (map Num ws)) WNone (VList vs) false =
    (Ok (ws, vs), (WList (map Num ws), WNone)).
  Proof.
    intros H Hz. destruct (pwv_usable _ _ _ _ _ _ _ _ _ H Hz) as (k & gw & vals & fw & _ & _ & [Hl _] & _ & Hp & Hr & _).
    apply reprocess; assumption.
  Qed.

  (* ---------- C07 ---------- *)
  Lemma fill_none drop rel l x :
    hd_error l = Some x -> as_pair x = None ->
    fst (fill_weights as_pair is_na drop rel None l) =
    (let kept := if drop : bool then filter (fun y => negb (is_na y)) l else l in
     fst (finish rel (equal_weights (length kept)) PFresh kept)).
  Proof.
    intros Hh Hp. unfold fill_weights. destruct l as [|y l]; [discriminate|].
    cbn in Hh. injection Hh as ->. rewrite Hp. reflexivity.
  Qed.

  Lemma equal_default (v : varg A) l x (drop : bool) :
    seq_values v l -> hd_error l = Some x -> as_pair x = None ->
    let kept := if drop then filter (fun y => negb (is_na y)) l else l in
    let n := length kept in
    fst (pwv as_pair is_na WNone WNone v drop) =
    if Nat.eqb n 0 then Err (ValueError "weights don't sum to 1")
    else Ok (repeat (1 / inject_Z (Z.of_nat n)) n, kept).
  Proof.
    intros Hs Hh Hp kept n.
    assert (values_missing v = false) as Hm.
    { clear - Hs Hh. destruct l; [discriminate|]. inversion Hs; reflexivity. }
    rewrite (seq_fill _ _ drop WNone WNone v l Hs Hm eq_refl None eq_refl).
    cbn [wnone negb]. rewrite (fill_none _ _ _ _ Hh Hp). cbv zeta. fold kept. fold n.
    unfold finish. set (q := 1 / inject_Z (Z.of_nat n)).
    assert (equal_weights n = map Num (repeat q n)) as ->.
    { unfold equal_weights. fold q. clearbody q. clear. induction n; cbn; congruence. }
    rewrite any_na_num, cell_q_num, repeat_length.
    replace (Nat.eqb (S n) (length kept)) with false by (symmetry; apply Nat.eqb_neq; unfold n; lia).
    cbn [andb].
    destruct (Nat.eqb_spec n 0) as [E|E].
    - rewrite E. reflexivity.
    - assert (~ inject_Z (Z.of_nat n) == 0) as Hnz.
      { intros C. unfold Qeq, inject_Z in C. cbn [Qnum Qden] in C. lia. }
      assert (qsum (repeat q n) == 1) as T.
      { rewrite qsum_total, total_repeat. unfold q. clear - Hnz. revert Hnz.
        generalize (inject_Z (Z.of_nat n)). intros a Ha. field. exact Ha. }
      replace (Qle_bool (qsum (repeat q n)) (99#100)) with false
        by (symmetry; apply Qle_bool_false; rewrite T; lra).
      replace (Qle_bool (101#100) (qsum (repeat q n))) with false
        by (symmetry; apply Qle_bool_false; rewrite T; lra).
      cbn [orb]. unfold n at 1. rewrite Nat.eqb_refl. cbn [negb fst].
      apply filter_loop_positive.
      + rewrite repeat_length. reflexivity.
      + unfold positive. apply Forall_forall. intros y Hy. apply repeat_spec in Hy. subst y.
        unfold q. apply Qlt_shift_div_l.
        * unfold Qlt, inject_Z. cbn [Qnum Qden]. lia.
        * lra.
  Qed.

  (* ---------- C05 ---------- *)
  Lemma finish_post rel ws p (vs : list A) r post :
    finish rel ws p vs = (r, post) ->
    post = ws \/
    (rel = false /\ p <> PTuple /\ exists qs, ws = map Num qs /\ S (length qs) = length vs /\ total qs < 1 /\
      post = map Num (qs ++ [1 - qsum qs])).
  Proof.
    unfold finish. intros H.
    destruct (any_na ws) as [[|]|e] eqn:Ena; try (injection H as <- <-; left; reflexivity).
    pose proof (any_na_false _ Ena) as Hws. set (qs := map cell_q ws) in *.
    destruct rel.
    - left. destruct p, qs as [|q0 qs0] eqn:Eq; try destruct (Qeq_bool (qsum (q0 :: qs0)) 0);
      (try destruct (normalize _) as [ns|]; try destruct (negb _); injection H as <- <-; reflexivity).
    - destruct (Nat.eqb_spec (S (length qs)) (length vs)) as [El|El];
        [destruct (Qlt_bool (qsum qs) 1) eqn:Es|]; cbn [andb] in H.
      + apply Qlt_bool_iff in Es. rewrite qsum_total in Es.
        destruct p; injection H as <- <-; try (left; reflexivity);
        (right; split; [reflexivity|]; split; [congruence|]; exists qs; repeat split; auto;
         rewrite Hws at 1; rewrite map_app; reflexivity).
      + left. destruct (_ || _); [|destruct (negb _)]; injection H as <- <-; reflexivity.
      + left. destruct (_ || _); [|destruct (negb _)]; injection H as <- <-; reflexivity.
  Qed.

  Lemma caller_after w rw (v : varg A) drop r w' rw' :
    pwv as_pair is_na w rw v drop = (r, (w', rw')) ->
    (w' = w /\ rw' = rw) \/
    (rw' = rw /\ rw = WNone /\ exists l qs, seq_values v l /\ w = WList (map Num qs) /\
      S (length qs) = length l /\ total qs < 1 /\ w' = WList (map Num (qs ++ [1 - qsum qs]))).
  Proof.
    unfold pwv. intros H.
    destruct (negb (wnone w) && negb (wnone rw)) eqn:Eboth; [injection H as <- <- <-; left; auto|].
    destruct (values_missing v) eqn:Emiss; [injection H as <- <- <-; left; auto|].
    destruct (weights_of_warg (if negb (wnone rw) then rw else w)) as [ows|e] eqn:Ew;
      [|injection H as <- <- <-; left; auto].
    assert (forall l, seq_values v l ->
       (if negb (wnone rw)
        then (w, after (if negb (wnone rw) then rw else w) (snd (fill_weights as_pair is_na drop (negb (wnone rw)) ows l)))
        else (after (if negb (wnone rw) then rw else w) (snd (fill_weights as_pair is_na drop (negb (wnone rw)) ows l)), rw)) = (w', rw') ->
    (w' = w /\ rw' = rw) \/
    (rw' = rw /\ rw = WNone /\ exists l qs, seq_values v l /\ w = WList (map Num qs) /\
      S (length qs) = length l /\ total qs < 1 /\ w' = WList (map Num (qs ++ [1 - qsum qs])))) as K.
    { intros l Hs Hf. unfold fill_weights in Hf. destruct ows as [[cw p]|].
      - destruct (drop && existsb is_na l).
        + left. cbn [snd] in Hf. destruct (wnone rw) eqn:Erw; cbn [negb] in *.
          * injection Hf as <- <-. split; [|reflexivity]. destruct w; cbn in *; try reflexivity. congruence.
          * injection Hf as <- <-. split; [reflexivity|]. destruct rw; cbn in *; try reflexivity. congruence.
        + destruct (finish (negb (wnone rw)) cw p l) as [r0 post] eqn:Ef. cbn [fst snd] in Hf.
          destruct (finish_post _ _ _ _ _ _ Ef) as [->|(Hr & Hp & qs & -> & H1 & H2 & ->)].
          * left. destruct (wnone rw) eqn:Erw; cbn [negb] in *.
            -- injection Hf as <- <-. split; [|reflexivity]. destruct w; cbn in *; try reflexivity. congruence.
            -- injection Hf as <- <-. split; [reflexivity|]. destruct rw; cbn in *; try reflexivity. congruence.
          * rewrite Hr in *. injection Hf as <- <-.
            destruct w; cbn [after]; try (left; split; reflexivity).
            right. split; [reflexivity|]. split; [destruct rw; cbn in Hr; try discriminate; reflexivity|].
            cbn in Ew. injection Ew as -> <-. exists l, qs. auto 10.
      - left. destruct (wnone rw) eqn:Erw; cbn [negb] in *.
        + destruct w; cbn in Ew; try discriminate. injection Hf as <- <-. auto.
        + destruct rw; cbn in Ew; discriminate. }
    destruct v as [| |l|l|l|l|l]; try (injection H as <- <- <-; left; auto; fail);
      try (injection H as <- H; eapply (K l); [constructor|exact H]).
    destruct ows as [?|]; injection H as <- <- <-; left; auto.
  Qed.
End Exact.

(* ---------- C03 / C04 ---------- *)
(** Two results that agree up to [==] on the weights. *)
Definition res_equiv {A} (a b : res (list Q * list A)) : Prop :=
  match a, b with
  | Ok (w1, v1), Ok (w2, v2) => qlist_eq w1 w2 /\ v1 = v2
  | Err e1, Err e2 => e1 = e2
  | _, _ => False
  end.

(** Rescaling every entry of a weight argument. *)
Definition scale_cell (k : Q) (c : cell) : cell :=
  match c with Num q => Num (k * q) | _ => c end.
Definition scale_warg (k : Q) (w : warg) : warg :=
  match w with
  | WScalar c => WScalar (scale_cell k c)
  | WList l => WList (map (scale_cell k) l)
  | WArray l => WArray (map (scale_cell k) l)
  | WTuple l => WTuple (map (scale_cell k) l)
  | WNone => WNone
  | WNonIter => WNonIter
  end.

Section Scale.
  Context {A : Type}.

  Lemma filter_loop_equiv (a b : list Q) : qlist_eq a b -> forall vs : list A,
    res_equiv (filter_loop a vs) (filter_loop b vs).
  Proof.
    induction 1 as [|x y a b Hxy Hab IH]; intros vs; cbn [filter_loop].
    - cbn. split; [constructor|reflexivity].
    - destruct vs as [|v vs]; [reflexivity|].
      assert (Qlt_bool x 0 = Qlt_bool y 0) as -> by (unfold Qlt_bool; rewrite Hxy; reflexivity).
      assert (Qlt_bool 0 x = Qlt_bool 0 y) as -> by (unfold Qlt_bool; rewrite Hxy; reflexivity).
      destruct (Qlt_bool y 0); [reflexivity|].
      specialize (IH vs). destruct (filter_loop a vs) as [[w1 v1]|], (filter_loop b vs) as [[w2 v2]|];
        cbn [res_equiv bind fst snd] in *; try contradiction; auto.
      destruct IH as [IH ->]. destruct (Qlt_bool 0 y); cbn; split; auto. constructor; auto.
  Qed.

  Lemma total_scale k l : total (map (Qmult k) l) == k * total l.
  Proof. induction l as [|x l IH]; cbn [map total]; [ring|]. rewrite IH. ring. Qed.

  Lemma any_na_scale k l : any_na (map (scale_cell k) l) = any_na l.
  Proof.
    unfold any_na. assert (mapM is_na_cell (map (scale_cell k) l) = mapM is_na_cell l) as ->; [|reflexivity].
    induction l as [|c l IH]; [reflexivity|]. cbn [map mapM]. rewrite IH. destruct c; reflexivity.
  Qed.

  Lemma finish_scale k ws p (vs : list A) : ~ k == 0 ->
    res_equiv (fst (finish true (map (scale_cell k) ws) p vs)) (fst (finish true ws p vs)).
  Proof.
    intros Hk. unfold finish. rewrite any_na_scale.
    destruct (any_na ws) as [[|]|e] eqn:Ena; try reflexivity.
    pose proof (any_na_false _ Ena) as Hws. set (qs := map cell_q ws) in *.
    assert (map cell_q (map (scale_cell k) ws) = map (Qmult k) qs) as ->.
    { rewrite Hws. rewrite !map_map. apply map_ext. reflexivity. }
    clearbody qs. clear Ena Hws.
    assert (qsum (map (Qmult k) qs) == k * qsum qs) as Hs by (rewrite !qsum_total, total_scale; reflexivity).
    assert (Qeq_bool (qsum (map (Qmult k) qs)) 0 = Qeq_bool (qsum qs) 0) as Hz.
    { apply eq_true_iff_eq. rewrite !Qeq_bool_iff, Hs. split; intros H; [|rewrite H; ring].
      destruct (Qmult_integral _ _ H); [contradiction|assumption]. }
    assert (res_equiv
       (match normalize (map (Qmult k) qs) with
        | Ok ns => if negb (Nat.eqb (length ns) (length vs))
             then Err (ValueError "weights and values not same length") else filter_loop ns vs
        | Err e => Err e end)
       (match normalize qs with
        | Ok ns => if negb (Nat.eqb (length ns) (length vs))
             then Err (ValueError "weights and values not same length") else filter_loop ns vs
        | Err e => Err e end)) as K.
    { unfold normalize. destruct qs as [|q0 qs0] eqn:Eq.
      - destruct vs; cbn; auto. split; [constructor|reflexivity].
      - rewrite <- Eq in *. destruct (map (Qmult k) qs) as [|m0 m1] eqn:Em; [rewrite Eq in Em; discriminate|].
        rewrite <- Em in *. rewrite Hz. destruct (Qeq_bool (qsum qs) 0) eqn:Ez; [reflexivity|].
        rewrite !map_length. destruct (negb _); [reflexivity|].
        apply filter_loop_equiv. apply Qeq_bool_false in Ez.
        rewrite map_map. clear - Hk Hs Ez.
        revert Hs Ez. generalize (qsum (map (Qmult k) qs)) (qsum qs). intros a b Hs Ez.
        unfold qlist_eq. induction qs as [|x qs IH]; cbn; constructor; auto.
        rewrite Hs. field. split; assumption. }
    assert (forall x : res (list Q) , forall ws0 : list cell, fst (match x with
         | Ok ns => if negb (Nat.eqb (length ns) (length vs))
            then (Err (ValueError "weights and values not same length"), ws0) else (filter_loop ns vs, ws0)
         | Err e => (Err e, ws0) end) = match x with
         | Ok ns => if negb (Nat.eqb (length ns) (length vs))
            then Err (ValueError "weights and values not same length") else filter_loop ns vs
         | Err e => Err e end) as Hfst.
    { intros [ns|] ws0; [destruct (negb _)|]; reflexivity. }
    destruct p; rewrite ?Hfst; try exact K.
    rewrite Hz. destruct qs as [|q0 qs0] eqn:Eq; cbn [map].
    - rewrite !Hfst. exact K.
    - destruct (Qeq_bool (qsum (q0 :: qs0)) 0); [|rewrite !Hfst; exact K].
      cbn [fst]. unfold numpy_zero_sum. change (k * q0 :: map (Qmult k) qs0) with (map (Qmult k) (q0 :: qs0)).
      rewrite map_length. destruct (negb _); [reflexivity|].
      assert (forallb (fun w => Qeq_bool w 0) (map (Qmult k) (q0 :: qs0)) = forallb (fun w => Qeq_bool w 0) (q0 :: qs0)) as ->.
      { clear - Hk. induction (q0 :: qs0) as [|x l IH]; [reflexivity|]. cbn [map forallb]. rewrite IH. f_equal.
        apply eq_true_iff_eq. rewrite !Qeq_bool_iff. split; intros H; [|rewrite H; ring].
        destruct (Qmult_integral _ _ H); [contradiction|assumption]. }
      destruct (forallb _ _); cbn; auto. split; [constructor|reflexivity].
  Qed.

  Variable as_pair : A -> option (cell * A).
  Variable is_na : A -> bool.

  Lemma res_equiv_refl (r : res (list Q * list A)) : res_equiv r r.
  Proof. destruct r as [[w v]|]; cbn; auto. split; auto. apply qlist_eq_refl. Qed.

  Lemma pwv_scale k w rw (v : varg A) drop : ~ k == 0 ->
    res_equiv (fst (pwv as_pair is_na w (scale_warg k rw) v drop)) (fst (pwv as_pair is_na w rw v drop)).
  Proof.
    intros Hk. destruct (wnone rw) eqn:Ew.
    { destruct rw; try discriminate. cbn [scale_warg]. apply res_equiv_refl. }
    assert (wnone (scale_warg k rw) = false) as Ew' by (destruct rw; auto).
    unfold pwv. rewrite Ew, Ew'. cbn [negb].
    destruct (negb (wnone w) && true); [reflexivity|].
    destruct (values_missing v); [reflexivity|].
    assert (weights_of_warg (scale_warg k rw) =
            match weights_of_warg rw with
            | Ok (Some (l, p)) => Ok (Some (map (scale_cell k) l, p))
            | x => x end) as -> by (destruct rw; reflexivity).
    assert (exists l p, weights_of_warg rw = Ok (Some (l, p)) \/ exists e, weights_of_warg rw = Err e) as (l & p & [->|[e ->]]).
    { destruct rw; cbn; try discriminate; repeat eexists; eauto. Unshelve. exact []. exact PFresh. }
    2:{ reflexivity. }
    assert (forall vs, res_equiv
       (fst (fill_weights as_pair is_na drop true (Some (map (scale_cell k) l, p)) vs))
       (fst (fill_weights as_pair is_na drop true (Some (l, p)) vs))) as K.
    { intros vs. unfold fill_weights. destruct (drop && existsb is_na vs); [reflexivity|].
      cbn [fst]. apply finish_scale; assumption. }
    destruct v; try reflexivity; cbn [fst]; apply K.
  Qed.
End Scale.

Definition nonpos (l : list Q) : Prop := Forall (fun w => w <= 0) l.

Section RelExact.
  Context {A : Type}.
  Variable as_pair : A -> option (cell * A).
  Variable is_na : A -> bool.

  Lemma rel_accept ws (l : list A) :
    (exists r, fst (pwv as_pair is_na WNone (WList (map Num ws)) (VList l) false) = Ok r)
    <-> l <> [] /\ length ws = length l /\ ~ total ws == 0 /\ (nonneg ws \/ nonpos ws).
  Proof.
    destruct l as [|x0 l0] eqn:El.
    { split; [intros [r H]; discriminate|intros (H & _); congruence]. }
    rewrite <- El in *. assert (l <> []) as Hne by (rewrite El; discriminate).
    assert (fst (pwv as_pair is_na WNone (WList (map Num ws)) (VList l) false) =
            fst (finish true (map Num ws) PCaller l)) as -> by (rewrite El; reflexivity).
    unfold finish. rewrite any_na_num, cell_q_num. unfold normalize.
    destruct ws as [|w0 ws0] eqn:Ews.
    { split; [intros [r H]|intros (_ & H & _)]; destruct l; try congruence; discriminate. }
    rewrite <- Ews in *. destruct (Qeq_bool (qsum ws) 0) eqn:Ez.
    { apply Qeq_bool_iff in Ez. rewrite qsum_total in Ez.
      split; [intros [r H]; discriminate|intros (_ & _ & H & _); contradiction]. }
    apply Qeq_bool_false in Ez. rewrite map_length.
    destruct (Nat.eqb_spec (length ws) (length l)) as [E|E]; cbn [negb fst].
    2:{ split; [intros [r H]; discriminate|intros (_ & H & _); contradiction]. }
    assert (nonneg (map (fun x => x / qsum ws) ws) <-> nonneg ws \/ nonpos ws) as Hsign.
    { unfold nonneg, nonpos. rewrite Forall_map. 
      assert (0 < qsum ws \/ qsum ws < 0) as [Hs|Hs].
      { destruct (Q_dec (qsum ws) 0) as [[|]|]; auto. contradiction. }
      - split.
        + intros H. left. eapply Forall_impl; [|exact H]. cbn; intros a Ha.
          apply (Qmult_le_compat_r _ _ (qsum ws)) in Ha; [|lra].
          assert (a / qsum ws * qsum ws == a) by (field; lra). lra.
        + intros [H|H].
          * eapply Forall_impl; [|exact H]. cbn; intros a Ha.
            apply Qle_shift_div_l; lra.
          * exfalso. rewrite qsum_total in Hs.
            assert (total ws <= 0); [|lra]. clear - H. induction H; cbn [total]; lra.
      - assert (forall a, 0 <= a / qsum ws <-> a <= 0) as Hd.
        { intros a. assert (a / qsum ws == (-a) / (- qsum ws)) as -> by (field; lra). split; intros Ha.
          - apply (Qmult_le_compat_r _ _ (- qsum ws)) in Ha; [|lra].
            assert (- a / - qsum ws * - qsum ws == - a) by (field; lra). lra.
          - apply Qle_shift_div_l; lra. }
        split.
        + intros H. right. eapply Forall_impl; [|exact H]. cbn; intros a Ha. apply Hd; assumption.
        + intros [H|H].
          * exfalso. rewrite qsum_total in Hs. pose proof (total_nonneg _ H). lra.
          * eapply Forall_impl; [|exact H]. cbn; intros a Ha. apply Hd; assumption. }
    rewrite <- qsum_total.
    rewrite Ews at 1. cbv iota. rewrite <- Ews at 1.
    split.
    - intros [[w' v'] H]. repeat split; auto. apply Hsign.
      eapply filter_loop_ok; [|exact H]. rewrite map_length; exact E.
    - intros (_ & _ & _ & H). apply filter_loop_accepts; [rewrite map_length; exact E|]. apply Hsign, H.
  Qed.
End RelExact.

(* ---------- C08 ---------- *)
Section Discrete.
  Context {A : Type}.
  Variable as_pair : A -> option (cell * A).
  Variable is_na : A -> bool.
  Variable eqb : A -> A -> bool.
  Variable hashable : list A -> bool.
  Variable is_list_obj : A -> bool.
  Hypothesis eqb_refl : forall x, eqb x x = true.
  Hypothesis eqb_sym : forall x y, eqb x y = eqb y x.
  Hypothesis eqb_trans : forall x y z, eqb x y = true -> eqb y z = true -> eqb x z = true.

  Definition cmass (x : A) (c : list (A * nat)) : nat :=
    fold_right Nat.add 0%nat (map (fun kn => if eqb (fst kn) x then snd kn else 0%nat) c).

  Lemma eqb_congr x y z : eqb x y = true -> eqb x z = eqb y z.
  Proof.
    intros H. apply eq_true_iff_eq. split; intros K.
    - eapply eqb_trans; [|exact K]. rewrite eqb_sym; exact H.
    - eapply eqb_trans; [exact H|exact K].
  Qed.

  Lemma cmass_add x y c : cmass x (counter_add eqb y c) = ((if eqb y x then 1 else 0) + cmass x c)%nat.
  Proof.
    induction c as [|[k n] c IH]; cbn [counter_add].
    - unfold cmass. cbn. destruct (eqb y x); reflexivity.
    - destruct (eqb k y) eqn:E.
      + unfold cmass; cbn [map fold_right fst snd]. rewrite (eqb_congr _ _ x E). destruct (eqb y x); reflexivity.
      + unfold cmass in *; cbn [map fold_right fst snd]. rewrite IH. destruct (eqb k x), (eqb y x); lia.
  Qed.

  Lemma cmass_counter x l : cmass x (counter eqb l) = occurrences eqb x l.
  Proof.
    unfold counter.
    assert (forall c, cmass x (fold_left (fun c y => counter_add eqb y c) l c) = (cmass x c + occurrences eqb x l)%nat) as K.
    { induction l as [|y l IH]; intros c; cbn [fold_left occurrences]; [lia|].
      rewrite IH, cmass_add. destruct (eqb y x); lia. }
    rewrite K. reflexivity.
  Qed.

  Definition csum (c : list (A * nat)) : nat := fold_left Nat.add (map snd c) 0%nat.

  Lemma fold_add l a : fold_left Nat.add l a = (a + fold_left Nat.add l 0)%nat.
  Proof.
    revert a; induction l as [|x l IH]; intros a; cbn [fold_left]; [lia|].
    rewrite (IH (a + x)%nat), (IH (0 + x)%nat). lia.
  Qed.

  Lemma csum_add y c : csum (counter_add eqb y c) = S (csum c).
  Proof.
    unfold csum. induction c as [|[k n] c IH]; cbn [counter_add].
    - reflexivity.
    - destruct (eqb k y); cbn [map fold_left snd].
      + rewrite !(fold_add _ (0 + _)). lia.
      + rewrite !(fold_add _ (0 + _)). rewrite IH. lia.
  Qed.

  Lemma csum_counter l : csum (counter eqb l) = length l.
  Proof.
    unfold counter.
    assert (forall c, csum (fold_left (fun c y => counter_add eqb y c) l c) = (csum c + length l)%nat) as K.
    { induction l as [|y l IH]; intros c; cbn [fold_left length]; [lia|]. rewrite IH, csum_add. lia. }
    rewrite K. reflexivity.
  Qed.

  Lemma counter_pos l : Forall (fun kn => (0 < snd kn)%nat) (counter eqb l).
  Proof.
    unfold counter.
    assert (forall c, Forall (fun kn : A * nat => (0 < snd kn)%nat) c ->
      Forall (fun kn => (0 < snd kn)%nat) (fold_left (fun c y => counter_add eqb y c) l c)) as K.
    { induction l as [|y l IH]; intros c Hc; cbn [fold_left]; [assumption|]. apply IH.
      clear IH. induction Hc as [|[k n] c Hk Hc IH]; cbn [counter_add].
      - constructor; [cbn; lia|constructor].
      - destruct (eqb k y); constructor; auto. cbn in *; lia. }
    apply K. constructor.
  Qed.

  (** Each distinct value appears once. *)
  Lemma counter_distinct l :
    ForallOrdPairs (fun a b => eqb (fst a) (fst b) = false) (counter eqb l).
  Proof.
    unfold counter.
    assert (forall c, ForallOrdPairs (fun a b : A * nat => eqb (fst a) (fst b) = false) c ->
      ForallOrdPairs (fun a b => eqb (fst a) (fst b) = false) (fold_left (fun c y => counter_add eqb y c) l c)) as K.
    { induction l as [|y l IH]; intros c Hc; cbn [fold_left]; [assumption|]. apply IH.
      clear IH. induction Hc as [|[k n] c Hk Hc IH]; cbn [counter_add].
      - repeat constructor.
      - destruct (eqb k y) eqn:E.
        + constructor; assumption.
        + constructor; [|assumption]. clear - Hk E.
          induction Hk as [|[k' n'] c Hk' Hk IH]; cbn [counter_add].
          * constructor; [exact E|constructor].
          * cbn [fst] in *. destruct (eqb k' y); constructor; auto. }
    apply K. constructor.
  Qed.

  Lemma mass_map x c (d : Q) : ~ d == 0 ->
    mass eqb x (map (fun kn => inject_Z (Z.of_nat (snd kn)) / d) c) (map fst c) ==
    inject_Z (Z.of_nat (cmass x c)) / d.
  Proof.
    intros Hd. induction c as [|[k n] c IH].
    - cbn. unfold Qdiv. rewrite Qmult_0_l. reflexivity.
    - cbn [map mass fst snd]. rewrite IH.
      change (cmass x ((k, n) :: c)) with ((if eqb k x then n else 0%nat) + cmass x c)%nat.
      rewrite Nat2Z.inj_add, inject_Z_plus.
      destruct (eqb k x); [field; assumption|]. cbn [Z.of_nat]. field; assumption.
  Qed.

  Lemma mass_repeat x l q : mass eqb x (repeat q (length l)) l == inject_Z (Z.of_nat (occurrences eqb x l)) * q.
  Proof.
    induction l as [|y l IH]; cbn [length repeat mass occurrences].
    - cbn. ring.
    - rewrite IH, Nat2Z.inj_add, inject_Z_plus. destruct (eqb y x); cbn [Z.of_nat Pos.of_succ_nat]; ring.
  Qed.

  Lemma total_counts c (d : Q) : ~ d == 0 ->
    total (map (fun kn : A * nat => inject_Z (Z.of_nat (snd kn)) / d) c) == inject_Z (Z.of_nat (csum c)) / d.
  Proof.
    intros Hd. induction c as [|[k n] c IH].
    - cbn. unfold Qdiv. rewrite Qmult_0_l. reflexivity.
    - cbn [map total snd]. rewrite IH. unfold csum. cbn [map fold_left snd].
      rewrite (fold_add _ (0 + n)%nat). cbn [Nat.add].
      rewrite Nat2Z.inj_add, inject_Z_plus. unfold csum. field. assumption.
  Qed.

  Lemma discrete_mass l x0 :
    hd_error l = Some x0 -> as_pair x0 = None ->
    exists ws vs, pdwv as_pair is_na eqb hashable is_list_obj l = Ok (ws, vs) /\
      length ws = length vs /\ positive ws /\
      (forall x, mass eqb x ws vs ==
                 inject_Z (Z.of_nat (occurrences eqb x l)) / inject_Z (Z.of_nat (length l))) /\
      (if Nat.leb 100 (length l) && negb (is_list_obj x0) && hashable l
       then ForallOrdPairs (fun a b => eqb a b = false) vs else vs = l).
  Proof.
    intros Hh Hp. destruct l as [|y l0] eqn:El; [discriminate|]. cbn in Hh. injection Hh as ->.
    rewrite <- El in *.
    assert (~ inject_Z (Z.of_nat (length l)) == 0) as Hnz.
    { intros C. rewrite El in C. unfold Qeq, inject_Z in C. cbn [Qnum Qden length] in C. lia. }
    assert (0 < inject_Z (Z.of_nat (length l))) as Hpos.
    { rewrite El. unfold Qlt, inject_Z. cbn [Qnum Qden length]. lia. }
    replace (Nat.leb 100 (length l) && negb (is_list_obj x0) && hashable l) with (compresses hashable is_list_obj l)
      by (rewrite El; reflexivity).
    unfold pdwv. destruct (compresses hashable is_list_obj l) eqn:Ec.
    - set (c := counter eqb l). set (d := inject_Z (Z.of_nat (length l))) in *.
      set (ws := map (fun kn : A * nat => inject_Z (Z.of_nat (snd kn)) / d) c).
      assert (compress eqb l = map (fun kn => (fst kn, Num (inject_Z (Z.of_nat (snd kn)) / d))) c) as Hcomp.
      { unfold compress. fold c. change (fold_left Nat.add (map snd c) 0%nat) with (csum c).
        assert (csum c = length l) as -> by apply csum_counter. reflexivity. }
      exists ws, (map fst c).
      assert (positive ws) as Hpw.
      { unfold positive, ws. rewrite Forall_map. eapply Forall_impl; [|apply counter_pos].
        cbn. intros [k n] Hn. cbn in *. apply Qlt_shift_div_l; [assumption|].
        unfold Qlt, inject_Z. cbn. lia. }
      assert (length ws = length (map fst c)) as Hlen by (unfold ws; rewrite !map_length; reflexivity).
      assert (total ws == 1) as Ht.
      { unfold ws. rewrite total_counts by assumption. unfold c. rewrite csum_counter. fold d. field. assumption. }
      split; [|split; [exact Hlen|split; [exact Hpw|split]]].
      + rewrite Hcomp. unfold pwv. cbn [wnone negb andb values_missing weights_of_warg fst]. unfold fill_weights.
        rewrite !map_map. cbn [fst snd andb].
        replace (map (fun x : A * nat => Num (inject_Z (Z.of_nat (snd x)) / d)) c) with (map Num ws)
          by (unfold ws; rewrite map_map; reflexivity).
        replace (map (fun x : A * nat => fst x) c) with (map fst c) by reflexivity.
        unfold finish. rewrite any_na_num, cell_q_num.
        replace (Nat.eqb (S (length ws)) (length (map fst c))) with false by (symmetry; apply Nat.eqb_neq; lia).
        cbn [andb].
        replace (Qle_bool (qsum ws) (99#100)) with false
          by (symmetry; apply Qle_bool_false; rewrite qsum_total, Ht; lra).
        replace (Qle_bool (101#100) (qsum ws)) with false
          by (symmetry; apply Qle_bool_false; rewrite qsum_total, Ht; lra).
        cbn [orb]. rewrite (proj2 (Nat.eqb_eq _ _) Hlen). cbn [negb fst].
        apply filter_loop_positive; assumption.
      + intros x. unfold ws. rewrite mass_map by assumption. unfold c. rewrite cmass_counter. reflexivity.
      + generalize (counter_distinct l). fold c. generalize c. clear. intros c H.
        induction H as [|a c Ha Hc IH]; cbn [map]; constructor; auto. rewrite Forall_map. exact Ha.
    - pose proof (equal_default as_pair is_na (VList l) l x0 false (seq_list l)) as K.
      rewrite El in K at 1. specialize (K eq_refl Hp). cbv zeta in K. cbv iota in K.
      replace (Nat.eqb (length l) 0) with false in K by (rewrite El; reflexivity).
      eexists _, _. split; [exact K|]. split; [apply repeat_length|]. split; [|split; [|reflexivity]].
      + unfold positive. apply Forall_forall. intros y Hy. apply repeat_spec in Hy. subst y.
        apply Qlt_shift_div_l; [assumption|lra].
      + intros x. rewrite mass_repeat. field. assumption.
  Qed.
End Discrete.

Lemma compress_distinct {A} (eqb : A -> A -> bool) (l : list A) :
  ForallOrdPairs (fun a b => eqb (fst a) (fst b) = false) (compress eqb l).
Proof.
  unfold compress. generalize (counter_distinct eqb l). generalize (counter eqb l) as c.
  generalize (inject_Z (Z.of_nat (fold_left Nat.add (map snd (counter eqb l)) 0%nat))) as d.
  intros d c H.
  assert (forall d, ForallOrdPairs (fun a b => eqb (fst a) (fst b) = false)
    (map (fun kn : A * nat => (fst kn, Num (inject_Z (Z.of_nat (snd kn)) / d))) c)) as K; [|apply K].
  clear d. intros d. induction H as [|[k n] c Hk Hc IH]; cbn [map fst]; constructor; auto.
  rewrite Forall_map. exact Hk.
Qed.

(* ------------------------------------------------- weights that are not numbers *)
Lemma any_na_bad l : In Bad l -> any_na l = Err TypeError.
Proof.
  intros H. unfold any_na. assert (mapM is_na_cell l = Err TypeError) as ->; [|reflexivity].
  induction l as [|c l IH]; [destruct H|]. cbn [mapM]. destruct c; cbn [is_na_cell bind]; try reflexivity;
    (destruct H as [H|H]; [discriminate|]; now rewrite IH).
Qed.
Lemma any_na_na l : ~ In Bad l -> In NA l -> any_na l = Ok true.
Proof.
  intros B H. unfold any_na.
  assert (exists bs, mapM is_na_cell l = Ok bs /\ existsb (fun b => b) bs = true) as (bs & -> & E); [|cbn [bind]; now rewrite E].
  assert (K : forall l, ~ In Bad l -> exists bs, mapM is_na_cell l = Ok bs).
  { clear. induction l as [|c l IH]; intros B; [now exists []|]. destruct IH as [bs E]; [intros X; apply B; now right|].
    cbn [mapM]. rewrite E. destruct c; cbn [is_na_cell bind]; try (eexists; reflexivity). exfalso. apply B. now left. }
  induction l as [|c l IH]; [destruct H|].
  assert (B' : ~ In Bad l) by (intros X; apply B; now right).
  destruct c.
  - destruct (K l B') as [bs E]. cbn [mapM is_na_cell bind]. rewrite E. eexists. split; [reflexivity|reflexivity].
  - destruct H as [H|H]; [discriminate|]. destruct (IH B' H) as (bs & E & X). cbn [mapM is_na_cell bind]. rewrite E. eexists. split; [reflexivity|exact X].
  - exfalso. apply B. now left.
Qed.
Lemma weights_not_numbers {A} (as_pair : A -> option (cell * A)) (is_na : A -> bool) ws l :
  l <> [] ->
  (In Bad ws -> fst (pwv as_pair is_na (WList ws) WNone (VList l) false) = Err TypeError /\
                fst (pwv as_pair is_na WNone (WList ws) (VList l) false) = Err TypeError) /\
  (~ In Bad ws -> In NA ws -> exists m, fst (pwv as_pair is_na (WList ws) WNone (VList l) false) = Err (ValueError m) /\
                fst (pwv as_pair is_na WNone (WList ws) (VList l) false) = Err (ValueError m)).
Proof.
  intros N. destruct l as [|v l]; [congruence|]. split.
  - intros B. unfold pwv. cbn [wnone negb andb values_missing weights_of_warg fst fill_weights snd].
    unfold finish. rewrite (any_na_bad _ B). split; reflexivity.
  - intros B H. eexists. unfold pwv. cbn [wnone negb andb values_missing weights_of_warg fst fill_weights snd].
    unfold finish. rewrite (any_na_na _ B H). split; reflexivity.
Qed.

Lemma no_values {A} (as_pair : A -> option (cell * A)) (is_na : A -> bool) w rw (v : varg A) drop :
  v = VNone \/ v = VList [] \/ v = VArray [] ->
  exists m, fst (pwv as_pair is_na w rw v drop) = Err (ValueError m) /\
            (w = WNone \/ rw = WNone -> m = "must pass values"%string).
Proof.
  intros H. unfold pwv. assert (values_missing v = true) as -> by (destruct H as [-> |[-> | ->]]; reflexivity).
  destruct (negb (wnone w) && negb (wnone rw)) eqn:E; cbn [fst]; eexists; (split; [reflexivity|]); auto.
  intros [-> | ->]; [discriminate|]. rewrite andb_false_r in E. discriminate.
Qed.
