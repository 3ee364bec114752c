From Coq Require Import Lia ZArith.
From Verif Require Import Base M_Weights M_Pick M_Values M_Sampler M_Ctor M_Ops SpecSampler P_Sampler P_Ops SpecCtor M_Shared SpecShared P_Dice P_Weights2.
Open Scope Q_scope.

Section Held.
  Context {T : Type}.
  Section HeldInd.
    Variable P : held T -> Prop.
    Hypothesis Ho : forall o, P (HObj o).
    Hypothesis Hc : forall l, P (HCat l).
    Hypothesis Hd : forall l, P (HDict l).
    Hypothesis Hr : forall n l, P (HDie n l).
    Hypothesis Hm : forall ws ds lc rc, Forall P ds -> P (HMix ws ds lc rc).
    Fixpoint held_ind' (r : held T) : P r :=
      match r with
      | HObj o => Ho o
      | HCat l => Hc l
      | HDict l => Hd l
      | HDie n l => Hr n l
      | HMix ws ds lc rc => Hm ws ds lc rc
          ((fix go l : Forall P l := match l with [] => Forall_nil P | d :: l' => Forall_cons d (held_ind' d) (go l') end) ds)
      end.
  End HeldInd.

  Lemma view_frame (h h' : heap T) r : (forall p, refers r p -> unchanged h h' p) -> view h' r = view h r.
  Proof.
    induction r as [o|l|l|n l|ws ds lc rc IH] using held_ind'; intros H; simpl; auto.
    - specialize (H _ (ref_cat l)). simpl in H. now rewrite H.
    - specialize (H _ (ref_dict l)). simpl in H. now rewrite H.
    - specialize (H _ (ref_die n l)). simpl in H. now rewrite H.
    - f_equal. f_equal. apply map_ext_in. intros d Hd. rewrite Forall_forall in IH. apply IH; auto.
      intros p Hp. apply H. econstructor; eauto.
  Qed.

  (* ---------------------------------------------------------------- *)
  (** Weights do not look at the values. *)
  Section Nat.
    Context {A B : Type} (f : A -> B) (pa : A -> option (cell * A)) (pb : B -> option (cell * B)).
    Hypothesis Hp : forall x, pb (f x) = match pa x with Some (w, y) => Some (w, f y) | None => None end.
    Definition mapr (r : res (list Q * list A)) : res (list Q * list B) :=
      match r with Ok (ws, vs) => Ok (ws, map f vs) | Err e => Err e end.
    Lemma filter_loop_map ws : forall vs, filter_loop ws (map f vs) = mapr (filter_loop ws vs).
    Proof.
      induction ws as [|w ws IH]; intros [|v vs]; simpl; auto.
      destruct (Qlt_bool w 0); auto. rewrite IH. destruct (filter_loop ws vs) as [[a b]|e]; simpl; auto.
      destruct (Qlt_bool 0 w); auto.
    Qed.
    Lemma finish_map rel ws p vs : finish rel ws p (map f vs) = (mapr (fst (finish rel ws p vs)), snd (finish rel ws p vs)).
    Proof.
      unfold finish, numpy_zero_sum. rewrite !map_length.
      destruct (any_na ws) as [[|]|e]; auto. cbv zeta.
      destruct rel.
      - set (tail := match normalize (map cell_q ws) with
          | Ok ns => if negb (length ns =? length vs)%nat then (Err (ValueError "weights and values not same length"), ws)
                     else (filter_loop ns (map f vs), ws)
          | Err e => (Err e, ws) end).
        assert (E : tail = (mapr (fst (match normalize (map cell_q ws) with
          | Ok ns => if negb (length ns =? length vs)%nat then (Err (ValueError "weights and values not same length"), ws)
                     else (filter_loop ns vs, ws)
          | Err e => (Err e, ws) end)), snd (match normalize (map cell_q ws) with
          | Ok ns => if negb (length ns =? length vs)%nat then (Err (ValueError "weights and values not same length"), ws)
                     else (filter_loop ns vs, ws)
          | Err e => (Err e, ws) end))).
        { unfold tail. destruct (normalize (map cell_q ws)); auto. destruct (negb _); auto. simpl. now rewrite filter_loop_map. }
        destruct p; auto. destruct (map cell_q ws) eqn:E'; auto.
        destruct (Qeq_bool _ 0); auto.
        destruct (negb _); auto. destruct (forallb _ _); auto.
      - destruct (_ && _).
        + destruct p; auto; simpl; now rewrite filter_loop_map.
        + destruct (_ || _); auto. destruct (negb _); auto. simpl. now rewrite filter_loop_map.
    Qed.
    Lemma pairs_map vs :
      mapM (fun v => match pb v with Some wx => Ok wx | None => Err TypeError end) (map f vs) =
      match mapM (fun v => match pa v with Some wx => Ok wx | None => Err TypeError end) vs with
      | Ok ps => Ok (map (fun wx => (fst wx, f (snd wx))) ps) | Err e => Err e end.
    Proof.
      induction vs as [|v vs IH]; simpl; auto. rewrite Hp. destruct (pa v) as [[w x]|]; simpl; auto.
      rewrite IH. destruct (mapM _ vs); auto.
    Qed.
    Lemma fill_map rel ws vs :
      fill_weights pb (fun _ => false) false rel ws (map f vs) =
      (mapr (fst (fill_weights pa (fun _ => false) false rel ws vs)), snd (fill_weights pa (fun _ => false) false rel ws vs)).
    Proof.
      unfold fill_weights. destruct ws as [[l p]|].
      - simpl. now rewrite finish_map.
      - destruct vs as [|v vs]; auto. change (map f (v :: vs)) with (f v :: map f vs). cbv iota. rewrite Hp.
        destruct (pa v) as [[w x]|].
        + change (f v :: map f vs) with (map f (v :: vs)). rewrite pairs_map.
          destruct (mapM _ (v :: vs)) as [ps|e]; auto. simpl andb. cbv iota.
          rewrite !map_map. simpl. rewrite <- (map_map snd f ps). now rewrite finish_map.
        + change (f v :: map f vs) with (map f (v :: vs)). rewrite map_length. now rewrite finish_map.
    Qed.
    Lemma pwv_map w rw vs :
      pwv pb (fun _ => false) w rw (VList (map f vs)) false =
      (mapr (fst (pwv pa (fun _ => false) w rw (VList vs) false)), snd (pwv pa (fun _ => false) w rw (VList vs) false)).
    Proof.
      unfold pwv. destruct (_ && _); auto.
      assert (E : values_missing (VList (map f vs)) = values_missing (VList vs)) by (destruct vs; auto).
      rewrite E. clear E. destruct (values_missing (VList vs)); auto. cbv zeta.
      destruct (weights_of_warg _); auto. rewrite fill_map. reflexivity.
    Qed.
  End Nat.

  Lemma filter_loop_incl {A} ws : forall (vs : list A) r x, filter_loop ws vs = Ok r -> In x (snd r) -> In x vs.
  Proof.
    induction ws as [|w ws IH]; intros [|v vs] r x H I; simpl in H.
    - inversion H; subst; auto.
    - inversion H; subst. destruct I.
    - discriminate.
    - destruct (Qlt_bool w 0); [discriminate|]. destruct (filter_loop ws vs) as [q|] eqn:E; [|discriminate]. simpl in H.
      destruct (Qlt_bool 0 w); inversion H; subst; clear H.
      + destruct I as [<-|I]; [left; auto|right]. eapply IH; eauto.
      + right. eapply IH; eauto.
  Qed.
  Lemma finish_incl {A} rel ws p (vs : list A) r x : fst (finish rel ws p vs) = Ok r -> In x (snd r) -> In x vs.
  Proof.
    unfold finish, numpy_zero_sum. destruct (any_na ws) as [[|]|]; try discriminate. cbv zeta.
    destruct rel.
    - assert (D : fst (match normalize (map cell_q ws) with
          | Ok ns => if negb (length ns =? length vs)%nat then (Err (ValueError "weights and values not same length"), ws)
                     else (filter_loop ns vs, ws)
          | Err e => (Err e, ws) end) = Ok r -> In x (snd r) -> In x vs).
      { destruct (normalize (map cell_q ws)); [|discriminate]. destruct (negb _); [discriminate|]. apply filter_loop_incl. }
      destruct p; auto. destruct (map cell_q ws); auto. destruct (Qeq_bool _ 0); auto.
      destruct (negb _); [discriminate|]. destruct (forallb _ _); [|discriminate]. simpl. intros H I. inversion H; subst. destruct I.
    - destruct (_ && _).
      + destruct p; try discriminate; apply filter_loop_incl.
      + destruct (_ || _); [discriminate|]. destruct (negb _); [discriminate|]. apply filter_loop_incl.
  Qed.

  Lemma face_int v z : py_isint v = Some z -> face_of v = [z].
  Proof.
    unfold face_of. destruct v; simpl; try discriminate; intros H; inversion H; subst;
      rewrite Qfloor_Z; rewrite (proj2 (Qeq_bool_iff _ _) (Qeq_refl _)); auto.
  Qed.
  Lemma faces_values n l : forall zs, explode_values n l = Ok zs -> faces l = zs.
  Proof.
    induction l as [|v l IH]; simpl; intros zs H; [inversion H; auto|].
    destruct (py_isint v) as [z|] eqn:E; [|discriminate]. destruct (_ || _); [discriminate|].
    destruct (explode_values n l) as [r|]; [|discriminate]. simpl in H. inversion H; subst.
    unfold faces in *. simpl. rewrite (face_int _ _ E). simpl. f_equal. auto.
  Qed.

  Lemma discrete_now (h : heap T) a r : new_discrete h a = Ok r ->
    exists k, categorical (cat_items h a) = Ok k /\ view h r = ODist (DLeaf k None None).
  Proof.
    unfold new_discrete. destruct (categorical (cat_items h a)) as [k|] eqn:E; [|discriminate]. simpl. intros H.
    inversion H; subst; clear H. exists k. split; auto.
    destruct a as [l|l|l|]; simpl in *; try reflexivity.
    - destruct (h_items h l); inversion E; auto.
    - destruct (h_dicts h l); inversion E; auto.
  Qed.
  Lemma die_now (h : heap T) sides a r : new_die h sides a = Ok r ->
    exists k, die_of sides (die_explode h a) = Ok k /\ view h r = ODist (DLeaf k None None).
  Proof.
    unfold new_die. destruct (die_of sides (die_explode h a)) as [k|] eqn:E; [|discriminate]. simpl. intros H.
    inversion H; subst; clear H. exists k. split; auto.
    destruct a as [|l|v]; try reflexivity. simpl in E. unfold die_of in E. simpl in E.
    assert (D : exists n, (if (n <? 2)%Z then Err (ValueError "cannot roll less than a 2-sided die.")
      else if (n <=? Z.of_nat (length (h_faces h l)))%Z then Err (ValueError "cannot explode on every value")
            else do zs <- explode_values n (h_faces h l); Ok (LDie n (Some zs))) = Ok k).
    { destruct sides; try discriminate; destruct (py_isint _) as [n|]; try discriminate; exists n; exact E. }
    destruct D as (n & D). destruct (n <? 2)%Z; [discriminate|]. destruct (n <=? _)%Z; [discriminate|].
    destruct (explode_values n (h_faces h l)) as [zs|] eqn:V; [|discriminate]. simpl in D. inversion D; subst.
    simpl. now rewrite (faces_values _ _ _ V).
  Qed.

  Lemma item_pairs (h : heap T) x :
    mitem_pair T (item_now h x) = match hitem_pair x with Some (w, y) => Some (w, item_now h y) | None => None end.
  Proof. destruct x; reflexivity. Qed.
  Lemma mixture_now (h h' : heap T) ds w rw lc rc r : new_mixture h ds w rw lc rc = (Ok r, h') ->
    exists d, mixture (VList (map (item_now h) (h_dists h ds))) (w_now h w) (w_now h rw) lc rc = Ok d /\
      view h r = ODist d.
  Proof.
    unfold new_mixture, mixture. intros H. inversion H as [[H1 H2]]; clear H H2.
    rewrite (pwv_map (item_now h) hitem_pair (mitem_pair T) (item_pairs h)).
    destruct (fst (pwv hitem_pair _ _ _ _ _)) as [[ws vs]|]; [|discriminate]. simpl in *. inversion H1; subst.
    eexists. split; [reflexivity|]. simpl. rewrite !map_map. f_equal. f_equal. apply map_ext. intros []; reflexivity.
  Qed.
  Lemma mixture_refs (h h' : heap T) ds w rw lc rc r p : new_mixture h ds w rw lc rc = (Ok r, h') -> refers r p ->
    exists i, In i (h_dists h ds) /\ refers (item_held i) p.
  Proof.
    unfold new_mixture. intros H R. inversion H as [[H1 H2]]; clear H H2.
    destruct (fst (pwv hitem_pair _ _ _ _ _)) as [[ws vs]|] eqn:E; [|discriminate]. simpl in *. inversion H1; subst; clear H1.
    inversion R as [| | |? ? ? ? d ? I R']; subst. apply in_map_iff in I as (x & <- & I).
    assert (K : exists i, In i (h_dists h ds) /\ item_held i = item_held x).
    { unfold pwv in E. destruct (_ && _); [discriminate|]. destruct (values_missing _); [discriminate|]. cbv zeta in E.
      destruct (weights_of_warg _) as [o|]; [|discriminate]. cbv iota in E. cbn [fst] in E. unfold fill_weights in E.
      destruct o as [[l pr]|].
      - simpl in E. exists x. split; auto. apply (finish_incl _ _ _ _ _ x E). exact I.
      - destruct (h_dists h ds) as [|v0 vs0] eqn:Dd; [discriminate|]. destruct (hitem_pair v0) as [q|].
        + set (l := v0 :: vs0) in *. destruct (mapM _ l) as [ps|] eqn:M; [|discriminate]. simpl andb in E. cbv iota in E. cbn [fst] in E.
          apply (finish_incl _ _ _ _ _ x) in E; [|exact I].
          clear - M E. revert ps M E. induction l as [|y l IH]; intros ps M E; simpl in M; [inversion M; subst; destruct E|].
          destruct (hitem_pair y) as [wx|] eqn:Hy; [|discriminate]. simpl in M.
          destruct (mapM _ l) as [ps'|]; [|discriminate]. simpl in M. inversion M; subst. destruct E as [<-|E].
          * exists y. split; [left; auto|]. destruct y; inversion Hy; subst; reflexivity.
          * destruct (IH _ eq_refl E) as (i & Ii & Hi). exists i. split; [right|]; auto.
        + simpl in E. exists x. split; auto. apply (finish_incl _ _ _ _ _ x E). exact I. }
    destruct K as (i & Ii & Hi). exists i. split; auto. rewrite Hi.
    destruct x; simpl in *; auto. inversion R'.
  Qed.
End Held.

(* ------------------------------------------------------------------ *)
(** A die whose explode list covers every face never comes to rest. *)
Section Forever.
  Variable Or : oracle.
  Hypothesis Sup : in_support Or.
  Lemma no_throw sides l bound s z s' : (forall f, 1 <= f <= sides -> In f l)%Z ->
    throw Or sides (Some l) bound s z s' -> False.
  Proof.
    intros C (bangs & final & R & _ & (_ & N) & _).
    apply (rolled_range Or Sup) in R. apply Forall_app in R as [_ R]. inversion R; subst. apply N, C. auto.
  Qed.
  Lemma never_rests sides l n s v s' : (forall f, 1 <= f <= sides -> In f l)%Z -> (1 <= n)%nat ->
    leaf_sample Or (LDie sides (Some l)) n s <> (Ok v, s').
  Proof.
    intros C N H. simpl in H. unfold die_sample in H.
    destruct n as [|[|n]]; [lia| |].
    - apply P_Sampler.bindS_ok in H as (z & s1 & A & H). apply single_roll_throw in A. eapply no_throw; eauto.
    - apply P_Sampler.bindS_ok in H as (zs & s1 & A & H). apply throws_run in A as [A L].
      destruct zs as [|z zs]; [discriminate|]. inversion A; subst. eapply no_throw; eauto.
  Qed.
  Lemma bare_never_rests sides l n s v s' : (forall f, 1 <= f <= sides -> In f l)%Z -> (1 <= n)%nat ->
    smp Or (ODist (DLeaf (LDie sides (Some l)) None None)) n None None s <> (Ok v, s').
  Proof.
    intros C N H. rewrite smp_odist, smp_leaf, wrap_none in H by assumption.
    destruct (leaf_sample Or (LDie sides (Some l)) n s) as [[u|e] s1] eqn:E; [|discriminate].
    eapply never_rests; eauto.
  Qed.
End Forever.

(** What the call of [mixture] does to the lists. *)
Lemma set_same {T} (h h0 : heap T) a i : (forall l, h_weights h0 l = h_weights h l) -> h_weights (set_weights h a (w_now h0 a)) i = h_weights h i.
Proof.
  intros E. destruct a as [l|w]; simpl; [|destruct w; reflexivity]. destruct (Nat.eqb_spec i l) as [->|]; auto.
Qed.
Lemma set_rest {T} (h : heap T) a w : h_items (set_weights h a w) = h_items h /\ h_dicts (set_weights h a w) = h_dicts h /\
  h_faces (set_weights h a w) = h_faces h /\ h_dists (set_weights h a w) = h_dists h.
Proof. destruct a, w; simpl; auto. Qed.
Lemma mixture_effect {T} (h h1 : heap T) ds w rw lc rc r : new_mixture h ds w rw lc rc = (r, h1) ->
  h_items h1 = h_items h /\ h_dicts h1 = h_dicts h /\ h_faces h1 = h_faces h /\ h_dists h1 = h_dists h /\
  forall i, h_weights h1 i = h_weights h i \/
    (w = WaList i /\ rw = WaOther WNone /\ exists qs, h_weights h i = map Num qs /\ S (length qs) = length (h_dists h ds) /\
       SpecWeights.total qs < 1 /\ h_weights h1 i = map Num (qs ++ [1 - qsum qs])).
Proof.
  unfold new_mixture. set (p := pwv _ _ _ _ _ _). destruct p as [r0 [w' rw']] eqn:E. subst p. cbn [fst snd]. intros H. injection H as _ <-.
  destruct (set_rest (set_weights h w w') rw rw') as (A1 & A2 & A3 & A4), (set_rest h w w') as (B1 & B2 & B3 & B4).
  split; [congruence|]. split; [congruence|]. split; [congruence|]. split; [congruence|]. intros i.
  apply caller_after in E as [[-> ->]|(-> & RW & l & qs & Sv & W & L & Tt & ->)].
  - left. rewrite set_same by (intros; symmetry; now apply set_same). now apply set_same.
  - destruct rw as [?|rw]; [discriminate|]. simpl in RW. subst rw. cbn [set_weights].
    destruct w as [j|w]; [|left; reflexivity]. simpl in W. injection W as W. cbn [set_weights h_weights].
    destruct (Nat.eqb_spec i j) as [->|]; [|now left]. right. split; auto. split; auto. exists qs. split; auto. split; auto.
    inversion Sv; subst; auto.
Qed.
