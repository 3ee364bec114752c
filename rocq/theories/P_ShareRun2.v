(** Shares of draws for discrete distributions and for mixtures of mixtures. *)
From Coq Require Import Qabs ZArith Lia Lqa.
From Verif Require Import Base M_Weights M_Values M_Sampler M_Ops SpecWeights SpecSampler SpecMixture SpecCtor
  SpecOps SpecDiscrete SpecShare P_Pick P_Mixture P_Share P_Ops P_Build P_Discrete P_Discrete2 P_ShareRun P_Support.
Open Scope Q_scope.

Lemma some_falls ws u : positive ws -> ws <> [] -> exists j, falls ws u j.
Proof.
  intros P N. destruct (small_pick_total ws u N) as (j & J & _). exists j. now apply (falls_small ws u j (positive_nn _ P)).
Qed.
Lemma pairs_kept l : positive (map fst l) -> filter (fun e : Q * pv => Qlt_bool 0 (fst e)) l = l.
Proof.
  unfold positive. induction l as [|e l IH]; simpl; intros P; auto. inversion P; subst.
  assert (Qlt_bool 0 (fst e) = true) as -> by now apply qlt_true. now rewrite IH.
Qed.
Lemma discrete_counted Or : right_length Or -> forall l k N s i p v,
  k = LCatList (map (fun e => IPair (Num (fst e)) (snd e)) l) \/ k = LCatDict (map (fun e => (snd e, Num (fst e))) l) ->
  (2 <= length l)%nat -> positive (map fst l) -> total (map fst l) == 1 -> NoDup (map snd l) ->
  (0 < N)%nat -> each_draw Or N s -> nth_error l i = Some (p, v) ->
  exists c, counted (fun k' => (k' < N)%nat /\ fst (smp Or (ODist (DLeaf k None None)) 1 None None (s k')) = Ok (Scalar v)) c /\
    Qabs (qnat c - p * qnat N) <= 1.
Proof.
  intros RL l k N s i p v K L P T U NP D I. set (ws := map fst l) in *. set (its := map (fun e : Q * pv => IPlain (snd e)) l).
  assert (Ln : length ws = length l) by (unfold ws; apply map_length).
  assert (Wn : ws <> []) by (intros E; rewrite E in Ln; simpl in Ln; lia).
  assert (B : l <> [] /\ nonneg ws /\ 99#100 < total ws /\ total ws < 101#100).
  { split; [intros ->; simpl in L; lia|]. split; [now apply positive_nn|]. split; lra. }
  destruct B as (B1 & B2 & B3 & B4).
  assert (KK : (exists items, k = LCatList items /\ cat_list items = Ok (ws, its)) \/
               (exists items, k = LCatDict items /\ cat_dict items = Ok (ws, its))).
  { destruct K as [->| ->]; [left|right]; eexists; (split; [reflexivity|]).
    - pose proof (pairs_processed l B1 B2 B3 B4) as X. change (positive_entries l) with (filter (fun e : Q * pv => Qlt_bool 0 (fst e)) l) in X. rewrite (pairs_kept l P) in X. exact X.
    - pose proof (dict_processed l B1 B2 B3 B4) as X. change (positive_entries l) with (filter (fun e : Q * pv => Qlt_bool 0 (fst e)) l) in X. rewrite (pairs_kept l P) in X. exact X. }
  assert (Hi : (i < length ws)%nat) by (rewrite Ln; apply nth_error_Some; congruence).
  assert (Pi : nth i ws 0 = p). { unfold ws. apply nth_error_nth. now rewrite nth_error_map, I. }
  assert (Li : (2 <= length its)%nat) by (unfold its; now rewrite map_length).
  destruct (share ws N B2 T NP i Hi) as (c & C & B). exists c. rewrite Pi in B. split; auto.
  assert (R : forall k', (k' < N)%nat -> forall x, fst (smp Or (ODist (DLeaf k None None)) 1 None None (s k')) = Ok (Scalar x) <->
            exists j q, falls ws (grid N k') j /\ nth_error l j = Some (q, x)).
  { intros k' Lk x. destruct (D k' Lk) as (u & g & Du & E).
    assert (F : forall v' s', smp Or (ODist (DLeaf k None None)) 1 None None (s k') = (Ok v', s') <->
              exists us xs, uniform_draws Or 1 (s k') us s' /\ Forall2 (SpecDiscrete.selects 1 ws its) us xs /\
                v' = simplify (np_array (fmt Or) xs)) by (intros v' s'; now apply discrete_values).
    split.
    - intros S. destruct (smp Or (ODist (DLeaf k None None)) 1 None None (s k')) as [r s'] eqn:Es. cbn [fst] in S. subst r.
      destruct (proj1 (F (Scalar x) s') eq_refl) as (us & xs & Dr & Se & V).
      assert (us = [u]).
      { unfold uniform_draws in Dr. cbn [Nat.leb] in Dr. inversion Dr as [|? ? u1 g1 us1 ? D1 D2]; subst. inversion D2; subst.
        rewrite Du in D1. injection D1 as <- <-. reflexivity. }
      subst us. inversion Se as [|? x0 ? ? S0 S1]; subst. inversion S1; subst. rewrite one_array in V. cbn [simplify] in V. injection V as ->.
      destruct S0 as (j & it & Fj & _ & Nj & ->). unfold its in Nj. rewrite nth_error_map in Nj.
      destruct (nth_error l j) as [[q y]|] eqn:Ej; [|discriminate]. cbn in Nj. injection Nj as <-.
      exists j, q. split; [now apply (falls_compat ws u)|exact Ej].
    - intros (j & q & Fj & Ej). assert (Fu : falls ws u j) by (apply (falls_compat ws (grid N k')); [lra|exact Fj]).
      assert (S : smp Or (ODist (DLeaf k None None)) 1 None None (s k') = (Ok (Scalar x), mkState g (corr (s k')))).
      { apply F. exists [u], [x]. split; [|split].
        - unfold uniform_draws. cbn [Nat.leb]. econstructor; [exact Du|constructor].
        - constructor; [|constructor]. exists j, (IPlain x). split; auto. split; [lia|]. split; [|reflexivity].
          unfold its. now rewrite nth_error_map, Ej.
        - now rewrite one_array. }
      now rewrite S. }
  eapply counted_iff; [|exact C]. intros k'. cbn beta. unfold SpecShare.selects. split; intros [Lk H]; split; auto.
  - apply (R k' Lk). exists i, p. auto.
  - apply (R k' Lk) in H. destruct H as (j & q & Fj & Ej).
    assert (j = i) as -> by (eapply (proj1 (NoDup_nth_error (map snd l)) U);
      [rewrite map_length; apply nth_error_Some; congruence|now rewrite !nth_error_map, Ej, I]). exact Fj.
Qed.

Lemma nested_counted Or : right_length Or -> forall ws ds vs cs N s i j v, ready ws ds -> total ws == 1 -> (2 <= length ds)%nat ->
  ready vs cs -> total vs == 1 -> (2 <= length cs)%nat -> NoDup cs -> (0 < N)%nat -> each_pair Or N s ->
  nth_error ds i = Some (ODist (DMixture vs (map OLit cs) None None)) -> nth_error cs j = Some v ->
  (forall i' o, nth_error ds i' = Some o -> i' <> i -> forall t, fst (smp Or o 1 None None t) <> Ok (Scalar v)) ->
  exists c, counted (fun p => (fst p < N)%nat /\ (snd p < N)%nat /\
                       fst (smp Or (ODist (DMixture ws ds None None)) 1 None None (s (fst p) (snd p))) = Ok (Scalar v)) c /\
    Qabs (qnat c - nth i ws 0 * nth j vs 0 * (qnat N * qnat N)) <= 2 * qnat N.
Proof.
  intros RL ws ds vs cs N s i j v R T L R' T' L' U NP D I J O.
  pose proof R as (Ln & Pw & _). pose proof R' as (Ln' & Pv & Q1 & Q2).
  assert (Hi : (i < length ws)%nat) by (rewrite Ln; apply nth_error_Some; congruence).
  assert (Hj : (j < length vs)%nat) by (rewrite Ln'; apply nth_error_Some; congruence).
  assert (Wn : ws <> []) by (intros ->; simpl in *; lia). assert (Vn : vs <> []) by (intros ->; simpl in *; lia).
  assert (Rm : ready vs (map (@OLit (G Or)) cs)) by (split; [now rewrite map_length|auto]).
  assert (Lm : (2 <= length (map (@OLit (G Or)) cs))%nat) by now rewrite map_length.
  destruct (pairs ws vs N i j (positive_nn _ Pw) T (positive_nn _ Pv) T' NP Hi Hj) as (c & C & B). exists c. split; auto.
  eapply counted_iff; [|exact C]. intros [k l]. cbn [fst snd]. unfold SpecShare.selects. split.
  - intros [[Lk F] [Ll F']]. split; auto. split; auto. destruct (D k l Lk Ll) as (u & g & u' & g' & Du & Du' & E & E').
    assert (S := proj2 (nested_sample Or RL ws ds vs (map OLit cs) (s k l) u g u' g' i j (OLit v) v (mkState g' (corr (s k l))) R L Rm Lm Du Du'
      (falls_compat ws (grid N k) u i (Qeq_sym _ _ E) F) I (falls_compat vs (grid N l) u' j (Qeq_sym _ _ E') F')
      ltac:(now rewrite nth_error_map, J)) (lit_one Or v _)). now rewrite S.
  - intros (Lk & Ll & S). destruct (D k l Lk Ll) as (u & g & u' & g' & Du & Du' & E & E').
    destruct (smp Or (ODist (DMixture ws ds None None)) 1 None None (s k l)) as [r s'] eqn:Es. cbn [fst] in S. subst r.
    destruct (some_falls ws u Pw Wn) as (i' & Fi). assert (Hi' : (i' < length ds)%nat) by (rewrite <- Ln; apply Fi).
    destruct (nth_error ds i') as [o|] eqn:No; [|apply nth_error_None in No; lia].
    apply (one_sample Or RL ws ds (s k l) u g i' o v s' R L Du Fi No) in Es.
    destruct (Nat.eq_dec i' i) as [->|Ne]; [|exfalso; eapply (O i' o No Ne); now rewrite Es].
    rewrite I in No. injection No as <-.
    destruct (some_falls vs u' Pv Vn) as (j' & Fj). assert (Hj' : (j' < length cs)%nat) by (rewrite <- Ln'; apply Fj).
    destruct (nth_error cs j') as [w|] eqn:Nw; [|apply nth_error_None in Nw; lia].
    apply (one_sample Or RL vs (map OLit cs) (mkState g (corr (s k l))) u' g' j' (OLit w) v s' Rm Lm Du' Fj ltac:(now rewrite nth_error_map, Nw)) in Es.
    rewrite lit_one in Es. injection Es as -> _.
    assert (j' = j) as -> by (eapply (proj1 (NoDup_nth_error cs) U); [apply nth_error_Some; congruence|congruence]).
    split; (split; [assumption|]); eapply falls_compat; eauto.
Qed.
