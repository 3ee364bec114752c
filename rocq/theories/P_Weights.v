(** Lemmas about the weight-processing model. *)
From Verif Require Import Base M_Weights SpecWeights.
From Coq Require Import Lqa Field.
Open Scope Q_scope.

(* ---------- booleans ---------- *)
Lemma Qlt_bool_iff a b : Qlt_bool a b = true <-> a < b.
Proof.
  unfold Qlt_bool. rewrite negb_true_iff.
  split; intros H.
  - apply Qnot_le_lt. intros C. apply Qle_bool_iff in C. congruence.
  - destruct (Qle_bool b a) eqn:E; [|reflexivity].
    apply Qle_bool_iff in E. lra.
Qed.

Lemma Qlt_bool_false a b : Qlt_bool a b = false <-> b <= a.
Proof.
  unfold Qlt_bool. rewrite negb_false_iff. apply Qle_bool_iff.
Qed.

Lemma Qle_bool_false a b : Qle_bool a b = false <-> b < a.
Proof.
  split; intros H.
  - apply Qnot_le_lt. intros C. apply Qle_bool_iff in C. congruence.
  - destruct (Qle_bool a b) eqn:E; [|reflexivity]. apply Qle_bool_iff in E. lra.
Qed.

Lemma Qeq_bool_false a b : Qeq_bool a b = false <-> ~ a == b.
Proof.
  split; intros H.
  - intros C. apply Qeq_bool_iff in C. congruence.
  - destruct (Qeq_bool a b) eqn:E; [|reflexivity]. apply Qeq_bool_iff in E. contradiction.
Qed.

(* ---------- sums ---------- *)
Lemma fold_left_Qplus l a : fold_left Qplus l a == a + total l.
Proof.
  revert a; induction l as [|x l IH]; intros a; cbn [fold_left total]; [ring|].
  rewrite IH. ring.
Qed.

Lemma qsum_total l : qsum l == total l.
Proof. unfold qsum. rewrite fold_left_Qplus. ring. Qed.

Lemma total_app a b : total (a ++ b) == total a + total b.
Proof. induction a as [|x a IH]; cbn [app total]; [ring|]. rewrite IH. ring. Qed.

Lemma total_map_div l k : ~ k == 0 -> total (map (fun x => x / k) l) == total l / k.
Proof.
  intros Hk. induction l as [|x l IH]; cbn [map total].
  - field; assumption.
  - rewrite IH. field; assumption.
Qed.

Lemma total_repeat q n : total (repeat q n) == inject_Z (Z.of_nat n) * q.
Proof.
  induction n as [|n IH]; cbn [repeat total].
  - cbn. ring.
  - rewrite IH. rewrite Nat2Z.inj_succ. unfold Z.succ. rewrite inject_Z_plus. ring.
Qed.

Lemma total_nonneg l : nonneg l -> 0 <= total l.
Proof. induction 1 as [|x l Hx Hl IH]; cbn [total]; lra. Qed.


(* ---------- the filter loop ---------- *)
Section Loop.
  Context {A : Type}.
  Implicit Types (vs : list A).

  Lemma filter_loop_ok ws : forall vs ws' vs',
    length ws = length vs ->
    filter_loop ws vs = Ok (ws', vs') ->
    nonneg ws /\ positive ws' /\ nonzero_part ws vs ws' vs' /\ total ws' == total ws.
  Proof.
    induction ws as [|w ws IH]; intros [|v vs] ws' vs' Hl H; cbn in Hl; try discriminate.
    - cbn in H. injection H as <- <-. repeat split; try constructor.
    - cbn [filter_loop] in H. destruct (Qlt_bool w 0) eqn:E0; [discriminate|].
      apply Qlt_bool_false in E0.
      destruct (filter_loop ws vs) as [[r1 r2]|e] eqn:Er; [|discriminate].
      cbn [bind fst snd] in H. injection Hl as Hl.
      destruct (IH _ _ _ Hl Er) as (Hn & Hp & [Hlen Hc] & Ht).
      unfold nonzero_part. cbn [combine filter fst total].
      destruct (Qlt_bool 0 w) eqn:E1; injection H as <- <-.
      + apply Qlt_bool_iff in E1.
        replace (Qeq_bool w 0) with false by (symmetry; apply Qeq_bool_false; lra).
        cbn [negb combine length total].
        repeat split; try (constructor; assumption); try congruence. rewrite Ht; reflexivity.
      + apply Qlt_bool_false in E1.
        replace (Qeq_bool w 0) with true by (symmetry; apply Qeq_bool_iff; lra).
        cbn [negb]. repeat split; try assumption; try (constructor; assumption). rewrite Ht. lra.
  Qed.

  Lemma filter_loop_accepts ws : forall vs,
    length ws = length vs -> nonneg ws -> exists r, filter_loop ws vs = Ok r.
  Proof.
    induction ws as [|w ws IH]; intros [|v vs] Hl Hn; cbn in Hl; try discriminate.
    - eexists; reflexivity.
    - cbn [filter_loop]. inversion Hn as [|? ? Hw Hn']; subst.
      replace (Qlt_bool w 0) with false by (symmetry; apply Qlt_bool_false; lra).
      injection Hl as Hl. destruct (IH _ Hl Hn') as [r ->]. cbn [bind].
      destruct (Qlt_bool 0 w); eexists; reflexivity.
  Qed.

  Lemma filter_loop_rejects ws : forall vs e,
    length ws = length vs -> filter_loop ws vs = Err e ->
    e = ValueError "weight cannot be negative" /\ ~ nonneg ws.
  Proof.
    induction ws as [|w ws IH]; intros [|v vs] e Hl H; cbn in Hl; try discriminate.
    cbn [filter_loop] in H. destruct (Qlt_bool w 0) eqn:E0.
    - injection H as <-. apply Qlt_bool_iff in E0. split; [reflexivity|].
      intros C. inversion C; subst. lra.
    - injection Hl as Hl. destruct (filter_loop ws vs) as [r|e'] eqn:Er; cbn [bind] in H.
      + destruct (Qlt_bool 0 w); discriminate.
      + injection H as ->. destruct (IH _ _ Hl Er) as [-> Hn]. split; [reflexivity|].
        intros C. inversion C; subst. contradiction.
  Qed.
End Loop.

(* ---------- cells ---------- *)
Lemma any_na_num l : any_na (map Num l) = Ok false.
Proof.
  unfold any_na. replace (mapM is_na_cell (map Num l)) with (Ok (map (fun _ : Q => false) l)).
  - cbn [bind]. f_equal. induction l; cbn; auto.
  - induction l as [|x l IH]; [reflexivity|]. cbn [map mapM is_na_cell bind]. rewrite <- IH. reflexivity.
Qed.

Lemma any_na_false l : any_na l = Ok false -> l = map Num (map cell_q l).
Proof.
  unfold any_na. intros H.
  assert (forall bs, mapM is_na_cell l = Ok bs -> existsb (fun b => b) bs = false ->
                     l = map Num (map cell_q l)) as K.
  { clear H. induction l as [|c l IH]; intros bs H1 H2; [reflexivity|].
    cbn [mapM] in H1. destruct c; cbn [is_na_cell bind] in H1; try discriminate;
    destruct (mapM is_na_cell l) as [bs'|]; try discriminate; cbn [bind] in H1; injection H1 as <-;
    cbn [existsb orb] in H2; try discriminate.
    cbn [map cell_q]. f_equal. eapply IH; eauto. }
  destruct (mapM is_na_cell l) as [bs|e] eqn:E; cbn [bind] in H; [|discriminate].
  injection H as H. eapply K; eauto.
Qed.

Lemma cell_q_num l : map cell_q (map Num l) = l.
Proof. rewrite map_map. cbn. apply map_id. Qed.

(* ---------- finish ---------- *)
Definition range_ok (s : Q) : Prop := 99#100 < s /\ s < 101#100.

Section Finish.
  Context {A : Type}.
  Implicit Types (vs : list A).

  Definition zero_numpy (rel : bool) (p : prov) (qs : list Q) : Prop :=
    rel = true /\ p = PNumpy /\ Forall (fun w => w == 0) qs.

  Lemma finish_ok rel ws p vs ws' vs' post :
    finish rel ws p vs = (Ok (ws', vs'), post) ->
    exists qs, ws = map Num qs /\
      ((zero_numpy rel p qs /\ qs <> [] /\ ws' = [] /\ vs' = []) \/
       exists fw,
         (if rel then length qs = length vs /\ (qs <> [] -> ~ qsum qs == 0) /\
                      fw = map (fun x => x / qsum qs) qs /\ post = ws
          else (length qs = length vs /\ range_ok (total qs) /\ fw = qs /\ post = ws) \/
               (S (length qs) = length vs /\ total qs < 1 /\ p <> PTuple /\
                fw = qs ++ [1 - qsum qs] /\ post = ws ++ [Num (1 - qsum qs)])) /\
         length fw = length vs /\ filter_loop fw vs = Ok (ws', vs')).
  Proof.
    unfold finish. intros H.
    destruct (any_na ws) as [[|]|e] eqn:Ena; try discriminate.
    pose proof (any_na_false _ Ena) as Hws.
    set (qs := map cell_q ws) in *. exists qs. split; [exact Hws|].
    destruct rel.
    - assert (forall Hd : (match normalize qs with
               | Ok ns => if negb (Nat.eqb (length ns) (length vs))
                          then (Err (ValueError "weights and values not same length"), ws)
                          else (filter_loop ns vs, ws)
               | Err e => (Err e, ws) end) = (Ok (ws', vs'), post),
               exists fw, (length qs = length vs /\ (qs <> [] -> ~ qsum qs == 0) /\
                      fw = map (fun x => x / qsum qs) qs /\ post = ws) /\
                 length fw = length vs /\ filter_loop fw vs = Ok (ws', vs')) as K.
      { intros Hd. unfold normalize in Hd.
        destruct qs as [|q0 qs0] eqn:Eqs.
        - destruct vs; cbn in Hd; [|discriminate]. injection Hd as <- <- <-.
          exists []. repeat split; congruence.
        - rewrite <- Eqs in *. clearbody qs. clear Eqs q0 qs0.
          destruct (Qeq_bool (qsum qs) 0) eqn:Ez; [discriminate|].
          apply Qeq_bool_false in Ez.
          rewrite map_length in Hd. destruct (Nat.eqb_spec (length qs) (length vs)) as [El|]; [|discriminate].
          cbn [negb] in Hd. injection Hd as Hd <-.
          exists (map (fun x => x / qsum qs) qs). rewrite map_length. repeat split; auto. }
      destruct p; cbv beta iota zeta in H; try (right; apply K; exact H).
      destruct qs as [|q0 qs0] eqn:Eqs; [right; apply K; exact H|].
      destruct (Qeq_bool (qsum (q0 :: qs0)) 0) eqn:Ez; [|right; apply K; exact H].
      injection H as H <-. unfold numpy_zero_sum in H.
      destruct (negb (Nat.eqb (length (q0 :: qs0)) (length vs))); [discriminate|].
      destruct (forallb (fun w => Qeq_bool w 0) (q0 :: qs0)) eqn:Ef; [|discriminate].
      injection H as <- <-. left. repeat split; auto; try congruence.
      rewrite forallb_forall in Ef. apply Forall_forall. intros x Hx.
      apply Qeq_bool_iff. auto.
    - right. destruct (Nat.eqb_spec (S (length qs)) (length vs)) as [El|El];
        [destruct (Qlt_bool (qsum qs) 1) eqn:Es|]; cbn [andb] in H.
      + apply Qlt_bool_iff in Es. rewrite qsum_total in Es.
        destruct p; try discriminate; injection H as H <-;
        (exists (qs ++ [1 - qsum qs]); split; [right; repeat split; auto; congruence|];
         split; [rewrite app_length; cbn; lia | exact H]).
      + destruct (Qle_bool (qsum qs) (99#100) || Qle_bool (101#100) (qsum qs)); [discriminate|].
        destruct (Nat.eqb_spec (length qs) (length vs)); [lia|discriminate].
      + destruct (Qle_bool (qsum qs) (99#100)) eqn:E1; [discriminate|].
        destruct (Qle_bool (101#100) (qsum qs)) eqn:E2; [discriminate|]. cbn [orb] in H.
        destruct (Nat.eqb_spec (length qs) (length vs)) as [El'|]; [|discriminate].
        cbn [negb] in H. injection H as H <-.
        exists qs. apply Qle_bool_false in E1, E2. rewrite qsum_total in E1, E2.
        repeat split; auto. left. repeat split; auto.
  Qed.
End Finish.

(* ---------- C01 ---------- *)
Section Pwv.
  Context {A : Type}.
  Variable as_pair : A -> option (cell * A).
  Variable is_na : A -> bool.
  Implicit Types (v : varg A).

  Definition effq (k : kind) (n : nat) (given fw : list Q) : Prop :=
    exists fw', effective k n given fw' /\ qlist_eq fw fw'.

  Lemma qlist_eq_refl l : qlist_eq l l.
  Proof. induction l; constructor; auto; reflexivity. Qed.

  Lemma effq_exact rel qs (vs : list A) (fw : list Q) (p : prov) (post : list cell) ws :
    vs <> [] ->
    (if rel : bool then length qs = length vs /\ (qs <> [] -> ~ qsum qs == 0) /\
                      fw = map (fun x => x / qsum qs) qs /\ post = ws
          else (length qs = length vs /\ range_ok (total qs) /\ fw = qs /\ post = ws) \/
               (S (length qs) = length vs /\ total qs < 1 /\ p <> PTuple /\
                fw = qs ++ [1 - qsum qs] /\ post = ws ++ [Num (1 - qsum qs)])) ->
    effq (if rel then Relative else Explicit) (length vs) qs fw /\ range_ok (total fw) /\
    (rel = true \/ length qs <> length vs -> total fw == 1).
  Proof.
    intros Hne H. destruct rel.
    - destruct H as (Hl & Hz & -> & _).
      assert (qs <> []) as Hq by (intros ->; destruct vs; cbn in Hl; congruence).
      specialize (Hz Hq). pose proof (qsum_total qs) as Hs.
      assert (total (map (fun x => x / qsum qs) qs) == 1) as T.
      { rewrite total_map_div by assumption. rewrite <- Hs. field. assumption. }
      split; [|split; [split; lra|auto]].
      exists (map (fun x => x / total qs) qs). split.
      + constructor; auto. rewrite <- Hs; assumption.
      + clear - Hs. revert Hs. generalize (qsum qs) (total qs). intros a b Hs.
        unfold qlist_eq. induction qs; cbn; constructor; auto. rewrite Hs; reflexivity.
    - destruct H as [(Hl & [Hr1 Hr2] & -> & _)|(Hl & Hlt & _ & -> & _)].
      + split; [|split; [split; assumption|]].
        * exists qs. split; [constructor; auto|apply qlist_eq_refl].
        * intros [|]; congruence.
      + pose proof (qsum_total qs) as Hs.
        assert (total (qs ++ [1 - qsum qs]) == 1) as T.
        { rewrite total_app. cbn [total]. rewrite Hs. ring. }
        split; [|split; [split; lra|auto]].
        exists (qs ++ [1 - total qs]). split; [constructor; auto|].
        unfold qlist_eq. apply Forall2_app; [apply qlist_eq_refl|].
        constructor; [|constructor]. rewrite Hs; reflexivity.
  Qed.

  Lemma pairs_mapM (l : list A) ps :
    mapM (fun e => match as_pair e with Some wx => Ok wx | None => Err TypeError end) l = Ok ps ->
    Forall2 (fun e wx => as_pair e = Some wx) l ps.
  Proof.
    revert ps; induction l as [|x l IH]; intros ps H; cbn [mapM] in H.
    - injection H as <-. constructor.
    - destruct (as_pair x) as [wx|] eqn:E; [|discriminate]. cbn [bind] in H.
      destruct (mapM _ l) as [ps'|] eqn:E'; [|discriminate]. cbn [bind] in H. injection H as <-.
      constructor; auto.
  Qed.

  (** Common shape of every acceptance. *)
  Definition usable (drop : bool) w rw v (ws : list Q) (vs : list A) : Prop :=
    exists k gw vals fw,
      given as_pair is_na drop w rw v k gw vals /\
      effq k (length vals) gw fw /\
      nonzero_part fw vals ws vs /\
      total ws == total fw /\
      positive ws /\ range_ok (total ws) /\
      (k = Omitted \/ k = Relative \/ length gw <> length vals -> total ws == 1).

  Lemma seq_fill drop w rw v l :
    seq_values v l -> values_missing v = false ->
    negb (wnone w) && negb (wnone rw) = false ->
    forall ws, weights_of_warg (if negb (wnone rw) then rw else w) = Ok ws ->
    fst (pwv as_pair is_na w rw v drop) = fst (fill_weights as_pair is_na drop (negb (wnone rw)) ws l).
  Proof.
    intros Hs Hm Hb ws Hw. unfold pwv. rewrite Hb, Hm, Hw. destruct Hs; reflexivity.
  Qed.

  (** Relative weights that are all zero (or absent altogether). *)
  Definition all_zero rw := exists l, weight_vector rw l /\ Forall (fun q => q == 0) l.

  Lemma weight_vector_of w l p :
    weights_of_warg w = Ok (Some (map Num l, p)) -> weight_vector w l.
  Proof.
    destruct w; cbn; intros H; try discriminate; injection H as H <-.
    - destruct l as [|q [|? ?]]; cbn in H; try discriminate. injection H as ->. constructor.
    - subst. constructor.
    - subst. constructor.
    - subst. constructor.
  Qed.

  Lemma fw_ok_usable drop w rw v k gw vals fw ws vs :
    given as_pair is_na drop w rw v k gw vals ->
    effq k (length vals) gw fw -> range_ok (total fw) ->
    (k = Omitted \/ k = Relative \/ length gw <> length vals -> total fw == 1) ->
    length fw = length vals -> filter_loop fw vals = Ok (ws, vs) ->
    usable drop w rw v ws vs.
  Proof.
    intros Hg He Hr H1 Hl Hf. destruct (filter_loop_ok _ _ _ _ Hl Hf) as (Hn & Hp & Hz & Ht).
    exists k, gw, vals, fw. repeat (split; [assumption|]).
    split; [|].
    - unfold range_ok in *. rewrite Ht. assumption.
    - intros Hk. rewrite Ht. auto.
  Qed.

  Lemma pwv_usable w rw v drop ws vs after :
    pwv as_pair is_na w rw v drop = (Ok (ws, vs), after) -> ~ all_zero rw ->
    usable drop w rw v ws vs.
  Proof.
    intros H Hza. unfold pwv in H.
    destruct (negb (wnone w) && negb (wnone rw)) eqn:Eboth; [discriminate|].
    destruct (values_missing v) eqn:Emiss; [discriminate|].
    destruct (weights_of_warg (if negb (wnone rw) then rw else w)) as [ows|e] eqn:Ew; [|discriminate].
    assert (forall l, seq_values v l ->
       fst (fill_weights as_pair is_na drop (negb (wnone rw)) ows l) = Ok (ws, vs) ->
       usable drop w rw v ws vs) as Kseq.
    { intros l Hs Hf. unfold fill_weights in Hf.
      destruct ows as [[cw p]|].
      - destruct (drop && existsb is_na l); [discriminate|].
        destruct (finish (negb (wnone rw)) cw p l) as [r post] eqn:Ef. cbn [fst] in Hf. subst r.
        destruct (finish_ok _ _ _ _ _ _ _ Ef) as (qs & -> & [(Hz & Hne & _ & _)|(fw & Hcase & Hl & Hloop)]).
        + exfalso. destruct Hz as (Hr & -> & Hz). apply Hza. exists qs.
          rewrite Hr in Ew. split; [|assumption]. eapply weight_vector_of; eauto.
        + assert (l <> []) as Hlne.
          { intros ->. destruct (negb (wnone rw)) eqn:Erel.
            - destruct Hcase as (Hlq & _). destruct qs; [|discriminate].
              apply Hza. exists []. split; [|constructor]. eapply weight_vector_of; eauto.
            - destruct Hcase as [(Hlq & [Hr _] & _)|(Hlq & _)]; [|discriminate].
              destruct qs; [|discriminate]. cbn in Hr. lra. }
          destruct (effq_exact _ _ _ _ _ _ _ Hlne Hcase) as (He & Hr & H1).
          apply weight_vector_of in Ew.
          destruct (wnone rw) eqn:Erw; cbn [negb] in *.
          * destruct rw; try discriminate.
            eapply fw_ok_usable; [apply g_explicit; eassumption|eassumption..| |eassumption|eassumption].
            intros [|[|Hk]]; try discriminate. apply H1. auto.
          * destruct w; try discriminate.
            eapply fw_ok_usable; [apply g_relative; eassumption|eassumption..| |eassumption|eassumption].
            intros _. apply H1. auto.
      - destruct (wnone rw) eqn:Erw; cbn [negb] in *; [|destruct rw; discriminate].
        destruct rw; try discriminate. destruct w; try discriminate.
        destruct l as [|x0 l0] eqn:El; [discriminate|]. rewrite <- El in *.
        assert (hd_error l = Some x0) as Hhd by (rewrite El; reflexivity).
        destruct (as_pair x0) as [wx|] eqn:Ep.
        + destruct (mapM _ l) as [ps|] eqn:Em; [|discriminate].
          apply pairs_mapM in Em.
          destruct (drop && existsb is_na (map snd ps)); [discriminate|]. cbn [fst] in Hf.
          destruct (finish false (map fst ps) PFresh (map snd ps)) as [r post] eqn:Ef. cbn [fst] in Hf. subst r.
          destruct (finish_ok _ _ _ _ _ _ _ Ef) as (qs & Hqs & [((Hr & _) & _)|(fw & Hcase & Hl & Hloop)]); [discriminate|].
          assert (map snd ps <> []) as Hlne.
          { rewrite El in Em. inversion Em; subst. discriminate. }
          destruct (effq_exact false _ _ _ _ _ _ Hlne Hcase) as (He & Hr & H1).
          assert (length qs = length (map snd ps)) as Hqlen.
          { rewrite map_length. rewrite <- (map_length fst ps), Hqs, map_length. reflexivity. }
          eapply fw_ok_usable; [eapply (g_pairs _ _ _ _ l qs (map snd ps)); try eassumption|eassumption..| |eassumption|eassumption].
          * clear - Em Hqs. revert qs Hqs. induction Em as [|e [c x] l ps He Hf IH]; intros qs Hqs.
            -- destruct qs; [constructor|discriminate].
            -- destruct qs as [|q qs]; [discriminate|]. cbn in Hqs. injection Hqs as -> Hqs.
               cbn. constructor; auto.
          * intros [|[|Hk]]; try discriminate. congruence.
        + set (kept := if drop then filter (fun y => negb (is_na y)) l else l) in *.
          cbn [fst] in Hf.
          destruct (finish false (equal_weights (length kept)) PFresh kept) as [r post] eqn:Ef. cbn [fst] in Hf. subst r.
          destruct (finish_ok _ _ _ _ _ _ _ Ef) as (qs & Hqs & [((Hr & _) & _)|(fw & Hcase & Hl & Hloop)]); [discriminate|].
          set (q := 1 / inject_Z (Z.of_nat (length kept))) in *.
          assert (qs = repeat q (length kept)) as ->.
          { unfold equal_weights in Hqs. apply (f_equal (map cell_q)) in Hqs. rewrite cell_q_num in Hqs.
            rewrite <- Hqs. fold q. clearbody q. generalize (length kept). clear. intros n; induction n; cbn; congruence. }
          assert (kept <> []) as Hlne.
          { intros C. destruct Hcase as [(_ & [Hr _] & _)|(Hc & _)]; [|rewrite repeat_length in Hc; lia].
            rewrite total_repeat, C in Hr. change (inject_Z (Z.of_nat (@length A []))) with 0 in Hr. rewrite Qmult_0_l in Hr. lra. }
          destruct (effq_exact false _ _ _ _ _ _ Hlne Hcase) as (He & Hr & H1).
          destruct Hcase as [(Hlen & _ & -> & _)|(Hlen & _)]; [|rewrite repeat_length in Hlen; lia].
          assert (total (repeat q (length kept)) == 1) as T.
          { rewrite total_repeat. unfold q.
            assert (~ inject_Z (Z.of_nat (length kept)) == 0) as Hnz.
            { intros C. unfold Qeq, inject_Z in C. cbn [Qnum Qden] in C.
              apply Hlne, length_zero_iff_nil. lia. }
            clear - Hnz. revert Hnz. generalize (inject_Z (Z.of_nat (length kept))).
            intros a Ha. field. exact Ha. }
          eapply fw_ok_usable; [eapply (g_omitted _ _ _ v l x0); eassumption| | | |eassumption|eassumption].
          * eexists. split; [|apply qlist_eq_refl]. constructor. exact Hlen.
          * exact Hr.
          * intros _. exact T. }
    destruct v as [| |l|l|l|l|l]; try discriminate;
      try (eapply (Kseq l); [constructor|]; injection H as H _; exact H).
    destruct ows as [?|]; [discriminate|].
    destruct (wnone rw) eqn:Erw; cbn [negb] in *; [|destruct rw; discriminate].
    destruct rw; try discriminate. destruct w; try discriminate.
    injection H as H _. clear Kseq. unfold fill_weights in H. cbn [fst] in H.
    destruct (drop && existsb is_na (map fst l)); [discriminate|].
    destruct (finish false (map snd l) PFresh (map fst l)) as [r post] eqn:Ef. cbn [fst] in H. subst r.
    destruct (finish_ok _ _ _ _ _ _ _ Ef) as (qs & Hqs & [((Hr & _) & _)|(fw & Hcase & Hl & Hloop)]); [discriminate|].
    assert (length qs = length (map fst l)) as Hqlen.
    { rewrite map_length, <- (map_length snd l), Hqs, map_length. reflexivity. }
    assert (l = map (fun xw => (fst xw, Num (snd xw))) (combine (map fst l) qs)) as El.
    { clear - Hqs. revert qs Hqs. induction l as [|[x c] l IH]; intros [|q qs] Hqs; try discriminate; [reflexivity|].
      cbn in Hqs. injection Hqs as -> Hqs. cbn. f_equal. auto. }
    assert (map snd (combine (map fst l) qs) = qs) as Esnd.
    { clear - Hqlen. revert Hqlen. generalize (map fst l). intros a. revert qs.
      induction a as [|y a IH]; intros [|q qs] Hq; cbn in *; try discriminate; auto. f_equal. apply IH. lia. }
    assert (map fst (combine (map fst l) qs) = map fst l) as Efst.
    { clear - Hqlen. revert Hqlen. generalize (map fst l). intros a. revert qs.
      induction a as [|y a IH]; intros [|q qs] Hq; cbn in *; try discriminate; auto. f_equal. apply IH. lia. }
    assert (map fst l <> []) as Hlne.
    { intros C. destruct l; [|discriminate]. destruct qs; [|discriminate].
      destruct Hcase as [(_ & [Hr _] & _)|(Hc & _)]; [cbn in Hr; lra|discriminate]. }
    destruct (effq_exact false _ _ _ _ _ _ Hlne Hcase) as (He & Hr & H1).
    pose proof (g_dict as_pair is_na drop (combine (map fst l) qs)) as Hg.
    rewrite <- El, Esnd, Efst in Hg.
    eapply fw_ok_usable; [exact Hg|exact He|exact Hr| |exact Hl|exact Hloop].
    intros [|[|Hk]]; try discriminate. congruence.
  Qed.
End Pwv.
