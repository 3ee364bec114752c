(** Weight processing does not look inside the values. *)
From Verif Require Import Base M_Weights SpecWeights P_Weights P_Weights2 P_Sampler.
Open Scope Q_scope.

Definition vmap {A B} (f : A -> B) (v : varg A) : varg B :=
  match v with
  | VNone => VNone
  | VNonIter => VNonIter
  | VList l => VList (map f l)
  | VArray l => VArray (map f l)
  | VSeries l => VSeries (map f l)
  | VTuple l => VTuple (map f l)
  | VDict l => VDict (map (fun iw => (f (fst iw), snd iw)) l)
  end.
Definition rmap {A B} (f : A -> B) (r : res A) : res B :=
  match r with Ok a => Ok (f a) | Err e => Err e end.

Section Map.
  Context {A B : Type}.
  Variable f : A -> B.
  Variables (pa : A -> option (cell * A)) (pb : B -> option (cell * B)) (na : A -> bool) (nb : B -> bool).
  Hypothesis P : forall x, pb (f x) = option_map (fun wx => (fst wx, f (snd wx))) (pa x).
  Hypothesis N : forall x, nb (f x) = na x.
  Notation on2 := (fun wv : list Q * list A => (fst wv, map f (snd wv))).

  Lemma filter_loop_map ws : forall vs, filter_loop ws (map f vs) = rmap on2 (filter_loop ws vs).
  Proof.
    induction ws as [|w ws IH]; intros [|v vs]; simpl; auto. destruct (Qlt_bool w 0); auto.
    rewrite IH. destruct (filter_loop ws vs) as [[a b]|e]; simpl; auto. destruct (Qlt_bool 0 w); reflexivity.
  Qed.
  Lemma finish_map rel ws p vs :
    finish rel ws p (map f vs) = (rmap on2 (fst (finish rel ws p vs)), snd (finish rel ws p vs)).
  Proof.
    unfold finish, numpy_zero_sum. rewrite map_length.
    repeat (match goal with
            | |- context [match ?x with _ => _ end] => destruct x
            | |- _ => progress (rewrite ?filter_loop_map; cbn [fst snd rmap])
            end; auto).
  Qed.
  Lemma existsb_map' l : existsb nb (map f l) = existsb na l.
  Proof. induction l; simpl; auto. now rewrite N, IHl. Qed.
  Lemma filter_map' l : filter (fun v => negb (nb v)) (map f l) = map f (filter (fun v => negb (na v)) l).
  Proof. induction l; simpl; auto. rewrite N. destruct (na a); simpl; now rewrite IHl. Qed.
  Lemma pairs_map l :
    mapM (fun v => match pb v with Some wx => Ok wx | None => Err TypeError end) (map f l) =
    rmap (map (fun wx => (fst wx, f (snd wx)))) (mapM (fun v => match pa v with Some wx => Ok wx | None => Err TypeError end) l).
  Proof.
    induction l; simpl; auto. rewrite P. destruct (pa a) as [[w x]|]; simpl; auto. rewrite IHl.
    destruct (mapM _ l); reflexivity.
  Qed.
  Lemma fill_map d rel ws vs :
    fill_weights pb nb d rel ws (map f vs) =
    (rmap on2 (fst (fill_weights pa na d rel ws vs)), snd (fill_weights pa na d rel ws vs)).
  Proof.
    unfold fill_weights. destruct ws as [[l p]|].
    - rewrite existsb_map', finish_map. destruct (d && existsb na vs); reflexivity.
    - destruct vs as [|v0 vs]; [reflexivity|]. cbn [map].
      change (f v0 :: map f vs) with (map f (v0 :: vs)). set (L := v0 :: vs).
      rewrite P. destruct (pa v0) as [wx|]; cbn [option_map].
      + rewrite pairs_map. destruct (mapM _ L) as [ps|e]; cbn [rmap]; auto.
        rewrite !map_map. cbn [fst snd].
        replace (map (fun x : cell * A => f (snd x)) ps) with (map f (map snd ps)) by now rewrite map_map.
        rewrite existsb_map'. destruct (d && _); auto. rewrite finish_map. reflexivity.
      + destruct d; [rewrite filter_map'|]; rewrite map_length, finish_map; reflexivity.
  Qed.
  Lemma pwv_map w rw v d : fst (pwv pb nb w rw (vmap f v) d) = rmap on2 (fst (pwv pa na w rw v d)).
  Proof.
    unfold pwv. destruct (negb (wnone w) && negb (wnone rw)); auto.
    assert (values_missing (vmap f v) = values_missing v) as -> by (destruct v as [| | [|? ?] | [|? ?] | | |]; reflexivity).
    destruct (values_missing v); auto.
    destruct (weights_of_warg _) as [ws|e]; auto.
    destruct v as [| |l|l|l|l|l]; cbn [vmap fst]; auto; try (rewrite fill_map; reflexivity).
    destruct ws; auto. cbn [fst]. rewrite !map_map. cbn [fst snd].
    replace (map (fun x : A * cell => f (fst x)) l) with (map f (map fst l)) by now rewrite map_map.
    rewrite fill_map. reflexivity.
  Qed.
End Map.

(** Nothing is made up: every value that comes out went in. *)
Section Subset.
  Context {A : Type}.
  Variables (pa : A -> option (cell * A)) (na : A -> bool).
  Inductive went_in (x : A) : varg A -> Prop :=
  | wi_plain v l : seq_values v l -> In x l -> went_in x v
  | wi_pair v l e w : seq_values v l -> In e l -> pa e = Some (w, x) -> went_in x v
  | wi_dict l w : In (x, w) l -> went_in x (VDict l).

  Lemma filter_loop_in ws : forall (vs : list A) a b x, filter_loop ws vs = Ok (a, b) -> In x b -> In x vs.
  Proof.
    induction ws as [|w ws IH]; intros [|v vs] a b x H I; simpl in H; try discriminate;
      try (inversion H; subst; destruct I; fail).
    destruct (Qlt_bool w 0); [discriminate|]. apply bind_ok in H as ([a' b'] & H & E).
    destruct (Qlt_bool 0 w); inversion E; subst.
    - destruct I as [<-|I]; [now left|right; eauto].
    - right; eauto.
  Qed.
  Lemma finish_in rel ws p (vs : list A) a b x : fst (finish rel ws p vs) = Ok (a, b) -> In x b -> In x vs.
  Proof.
    unfold finish, numpy_zero_sum. intros H I.
    repeat (match goal with
            | K : context [match ?y with _ => _ end] |- _ => destruct y
            end; cbn [fst] in H; try discriminate; try (inversion H; subst; now destruct I);
            try (eapply filter_loop_in; eassumption)).
  Qed.
  Lemma pwv_in w rw v d a b x : fst (pwv pa na w rw v d) = Ok (a, b) -> In x b -> went_in x v.
  Proof.
    unfold pwv. destruct (negb (wnone w) && negb (wnone rw)); [discriminate|].
    destruct (values_missing v); [discriminate|].
    destruct (weights_of_warg _) as [ws|e]; [|discriminate].
    assert (FI : forall l, seq_values v l -> fst (fill_weights pa na d (negb (wnone rw)) ws l) = Ok (a, b) -> In x b -> went_in x v).
    { intros l SV H I. unfold fill_weights in H. destruct ws as [[cs p]|].
      - destruct (d && _); [discriminate|]. cbn [fst] in H. eapply wi_plain; eauto using finish_in.
      - destruct l as [|v0 l]; [discriminate|]. destruct (pa v0).
        + destruct (mapM _ _) as [ps|e] eqn:E; [|discriminate]. destruct (d && _); [discriminate|].
          cbn [fst] in H. pose proof (finish_in _ _ _ _ _ _ _ H I) as J.
          apply in_map_iff in J as ([w' x'] & <- & J).
          assert (K : forall l ps, mapM (fun v => match pa v with Some wx => Ok wx | None => Err TypeError end) l = Ok ps ->
                    forall wx, In wx ps -> exists e, In e l /\ pa e = Some wx).
          { clear. induction l; simpl; intros ps H wx I; [inversion H; subst; destruct I|].
            destruct (pa a) eqn:E; [|discriminate]. simpl in H. apply bind_ok in H as (y & H & G). inversion G; subst.
            destruct I as [<-|I]; [eauto|]. destruct (IHl _ H _ I) as (e & ? & ?). eauto. }
          destruct (K _ _ E _ J) as (e & Ie & Pe). eapply wi_pair; eauto.
        + cbn [fst] in H. pose proof (finish_in _ _ _ _ _ _ _ H I) as J. eapply wi_plain; eauto.
          destruct d; auto. apply filter_In in J. tauto. }
    destruct v as [| |l|l|l|l|l]; cbn [fst]; intros H I; try discriminate; try (eapply FI; eauto; constructor).
    destruct ws; [discriminate|]. unfold fill_weights in H. cbn [fst] in H. destruct (d && _); [discriminate|].
    cbn [fst] in H. pose proof (finish_in _ _ _ _ _ _ _ H I) as J.
    apply in_map_iff in J as ([y w'] & <- & J). eapply wi_dict; eauto.
  Qed.

  (** Nothing NA-like comes out when NA-like values are to be dropped. *)
  Lemma fill_no_na rel ws l a b x : fst (fill_weights pa na true rel ws l) = Ok (a, b) -> In x b -> na x = false.
  Proof.
    assert (K : forall l : list A, existsb na l = false -> forall x, In x l -> na x = false).
    { clear. intros l E x I. destruct (na x) eqn:N; [|reflexivity]. rewrite <- E. symmetry. apply existsb_exists. eauto. }
    unfold fill_weights. destruct ws as [[cs p]|]; cbn [andb].
    - destruct (existsb na l) eqn:E; [discriminate|]. cbn [fst]. intros H I. eapply K; eauto using finish_in.
    - destruct l as [|v0 l]; [discriminate|]. destruct (pa v0).
      + destruct (mapM _ _) as [ps|e]; [|discriminate]. destruct (existsb na (map snd ps)) eqn:E; [discriminate|].
        cbn [fst]. intros H I. eapply K; eauto using finish_in.
      + cbn [fst]. intros H I. pose proof (finish_in _ _ _ _ _ _ _ H I) as J. apply filter_In in J as (_ & J).
        now apply negb_true_iff in J.
  Qed.
  Lemma pwv_no_na w rw v a b x : fst (pwv pa na w rw v true) = Ok (a, b) -> In x b -> na x = false.
  Proof.
    unfold pwv. destruct (negb (wnone w) && negb (wnone rw)); [discriminate|].
    destruct (values_missing v); [discriminate|].
    destruct (weights_of_warg _) as [ws|e]; [|discriminate].
    destruct v as [| |l|l|l|l|l]; cbn [fst]; intros H I; try discriminate; try (eapply fill_no_na; eassumption).
    destruct ws; [discriminate|]. cbn [fst] in H. eapply fill_no_na; eassumption.
  Qed.
End Subset.

(** NA-like values cannot be dropped when weights are given. *)
Lemma pwv_refuses_na {A} (pa : A -> option (cell * A)) (na : A -> bool) w rw v k gw vals :
  given pa na true w rw v k gw vals -> k <> Omitted -> Exists (fun x => na x = true) vals ->
  fst (pwv pa na w rw v true) = Err (ValueError "cannot drop NA and process weights").
Proof.
  intros G K E.
  assert (X : existsb na vals = true).
  { apply existsb_exists. apply Exists_exists in E as (x & I & N). eauto. }
  assert (NE : vals <> []) by (intros ->; inversion E).
  assert (F : forall rel cs p, fst (fill_weights pa na true rel (Some (cs, p)) vals) = Err (ValueError "cannot drop NA and process weights")).
  { intros. unfold fill_weights. cbn [andb]. rewrite X. reflexivity. }
  destruct G as [v l x SV HD AP kept|v l ws xs SV F2 L|l|w v ws l WV SV|w v ws l WV SV]; [congruence| | | |].
  - assert (EQ : mapM (fun v => match pa v with Some wx => Ok wx | None => Err TypeError end) l =
                 Ok (map (fun wx => (Num (fst wx), snd wx)) (combine ws xs))).
    { clear - F2. induction F2 as [|e [q x] l ps H F2 IH]; [reflexivity|]. cbn [mapM map]. rewrite H. cbn [bind]. now rewrite IH. }
    assert (SN : map snd (map (fun wx : Q * A => (Num (fst wx), snd wx)) (combine ws xs)) = xs).
    { rewrite map_map. cbn [snd]. clear - L. revert xs L. induction ws as [|q ws IH]; intros [|x xs] L; cbn in *; try discriminate; auto.
      f_equal. apply IH. lia. }
    assert (fst (fill_weights pa na true false None l) = Err (ValueError "cannot drop NA and process weights")) as FL.
    { unfold fill_weights. destruct l as [|e l].
      - inversion F2. destruct ws, xs; try discriminate; congruence.
      - destruct (pa e) eqn:P.
        + rewrite EQ, SN. cbn [andb]. rewrite X. reflexivity.
        + inversion F2; congruence. }
    unfold pwv. destruct SV; cbn [wnone negb andb values_missing weights_of_warg fst]; try (destruct l as [|e l]; [exfalso|]);
      try (cbn [fst]; exact FL); inversion F2; destruct ws, xs; try discriminate; congruence.
  - unfold pwv. cbn [wnone negb andb values_missing weights_of_warg fst]. rewrite !map_map. cbn [fst snd]. apply F.
  - unfold pwv. destruct WV, SV; cbn [wnone negb andb values_missing weights_of_warg fst];
      try (destruct l; [congruence|]); cbn [fst]; apply F.
  - unfold pwv. destruct WV, SV; cbn [wnone negb andb values_missing weights_of_warg fst];
      try (destruct l; [congruence|]); cbn [fst]; apply F.
Qed.
