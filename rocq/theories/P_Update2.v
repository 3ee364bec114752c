(** Evidence weights in gamma updates (C49). *)
From Coq Require Import Reals Lra.
From Verif Require Import Base M_Dists SpecDists P_Dists P_Update.
Open Scope R_scope.

Lemma gamma_zero_scale ppf k l r k' th' l' r' w :
  update ppf (DGamma k 0 l r) (DGamma k' th' l' r') w = Err ZeroDivisionError /\
  update ppf (DGamma k' th' l' r') (DGamma k 0 l r) w = Err ZeroDivisionError.
Proof.
  unfold update. destruct (Req_EM_T 0 0) as [_|C]; [|lra]. split; auto. now destruct (Req_EM_T th' 0).
Qed.
Lemma gamma_weight_zero ppf k th l r k' th' l' r' : 0 < k -> 0 < th -> 0 < k' -> 0 < th' ->
  update ppf (DGamma k th l r) (DGamma k' th' l' r') 0 = Ok (DGamma k th None None).
Proof.
  intros A B C D.
  destruct (gamma_update_spec ppf k th l r k' th' l' r' 0) as (K & Th & U & EK & P & E); auto; try lra.
  rewrite U. assert (K = k) by lra. subst K. replace (k + 0 * k') with k in * by lra.
  assert (F : / Th = / th) by (apply (Rmult_eq_reg_l k); lra).
  apply (f_equal Rinv) in F. rewrite !Rinv_inv in F. now subst.
Qed.
Lemma gamma_weights_add ppf k th l r k' th' l' r' w1 w2 : 0 < k -> 0 < th -> 0 < k' -> 0 < th' -> 0 <= w1 -> 0 <= w2 ->
  bind (update ppf (DGamma k th l r) (DGamma k' th' l' r') w1) (fun d => update ppf d (DGamma k' th' l' r') w2) =
  update ppf (DGamma k th l r) (DGamma k' th' l' r') (w1 + w2).
Proof.
  intros A B C D W1 W2.
  destruct (gamma_update_spec ppf k th l r k' th' l' r' w1) as (K & Th & U & EK & P & E); auto.
  destruct (gamma_update_spec ppf k th l r k' th' l' r' (w1 + w2)) as (K3 & Th3 & U3 & EK3 & P3 & E3); auto; try lra.
  rewrite U, U3. cbn [bind].
  assert (0 <= w1 * k') by (apply Rmult_le_pos; lra). assert (0 <= w2 * k') by (apply Rmult_le_pos; lra).
  assert (0 < K) by lra.
  destruct (gamma_update_spec ppf K Th None None k' th' l' r' w2) as (K2 & Th2 & U2 & EK2 & P2 & E2); auto.
  rewrite U2. assert (EK4 : K2 = K3) by lra. assert (0 < K2) by lra. rewrite EK4 in *.
  assert (F : / Th2 = / Th3) by (apply (Rmult_eq_reg_l K3); lra).
  apply (f_equal Rinv) in F. rewrite !Rinv_inv in F. now subst.
Qed.
Lemma update_ignores_clips ppf p e w :
  update ppf p e w = update ppf (without_clips p) (without_clips e) w /\
  forall d, update ppf p e w = Ok d -> d = without_clips d.
Proof.
  split; [destruct p, e; reflexivity|]. intros d H.
  destruct p as [p|p|a b|k th lc rc|k], e as [e|e|a' b'|k' th' lc' rc'|k']; cbn [update] in H; try discriminate.
  - destruct (need (n_sd p)); [|discriminate]. destruct (need (n_sd e)); [|discriminate].
    destruct (need (n_mean p)); [|discriminate]. destruct (need (n_mean e)); [|discriminate]. cbn [bind] in H.
    destruct (combine _ _ _ _ _); [|discriminate]. cbn [bind] in H. destruct (norm _ _ _ _ _ _ _ _) eqn:N; [|discriminate].
    cbn [bind] in H. inversion H; subst. destruct (clips_kept ppf None None (Some (fst a3)) (Some (snd a3)) None None 90 None None) as [C _].
    destruct (C _ N) as [C1 C2]. destruct a4; cbn in *. now subst.
  - destruct (need (l_sd p)); [|discriminate]. destruct (need (l_sd e)); [|discriminate].
    destruct (need (l_mean p)); [|discriminate]. destruct (need (l_mean e)); [|discriminate]. cbn [bind] in H.
    destruct (combine _ _ _ _ _); [|discriminate]. cbn [bind] in H. destruct (lognorm _ _ _ _ _ _ _ _ _ _) eqn:N; [|discriminate].
    cbn [bind] in H. inversion H; subst. destruct (clips_kept ppf None None (Some (fst a3)) (Some (snd a3)) None None 90 None None) as [_ [C _]].
    destruct (C _ N) as [C1 C2]. destruct a4; cbn in *. now subst.
  - now inversion H.
  - destruct (Req_EM_T th 0); [discriminate|]. destruct (Req_EM_T th' 0); [discriminate|]. destruct (Req_EM_T _ 0); [discriminate|].
    cbv zeta in H. destruct (Req_EM_T _ 0); [discriminate|]. now inversion H.
  - destruct (Nat.eqb k k'); discriminate.
Qed.

(** What the results of updates say. *)
Lemma normal_update_shrinks ppf p e pm ps em es w m s : normal_of p pm ps -> normal_of e em es -> 0 < ps -> 0 < es -> 0 <= w ->
  update ppf p e w = Ok (DNorm (mkNormal (Some m) (Some s) None None)) -> s <= ps.
Proof.
  intros P E A B W U. destruct (normal_update_spec ppf p e pm ps em es w P E A B W) as (M & S & U' & C & D & _).
  rewrite U in U'. inversion U'; subst. apply (update_sd_le S ps es w); auto.
Qed.
Lemma normal_update_between ppf p e pm ps em es w m s : normal_of p pm ps -> normal_of e em es -> 0 < ps -> 0 < es -> 0 <= w ->
  update ppf p e w = Ok (DNorm (mkNormal (Some m) (Some s) None None)) -> Rmin pm em <= m <= Rmax pm em.
Proof.
  intros P E A B W U. destruct (normal_update_spec ppf p e pm ps em es w P E A B W) as (M & S & U' & C & D & F).
  rewrite U in U'. inversion U'; subst. apply (update_mean_between M S pm ps em es w); auto.
Qed.
Lemma beta_update_between ppf a b a' b' w A B : 0 < a -> 0 < b -> 0 < a' -> 0 < b' -> update ppf (DBeta a b) (DBeta a' b') w = Ok (DBeta A B) ->
  Rmin (beta_mean a b) (beta_mean a' b') <= beta_mean A B <= Rmax (beta_mean a b) (beta_mean a' b').
Proof. intros. rewrite beta_update in *. match goal with H : Ok _ = Ok _ |- _ => inversion H; subst end. now apply beta_mean_between. Qed.
Lemma gamma_update_between ppf k th l r k' th' l' r' w K Th L R : 0 < k -> 0 < th -> 0 < k' -> 0 < th' -> 0 <= w ->
  update ppf (DGamma k th l r) (DGamma k' th' l' r') w = Ok (DGamma K Th L R) -> Rmin th th' <= Th <= Rmax th th'.
Proof.
  intros A B C D W U. destruct (gamma_update_spec ppf k th l r k' th' l' r' w A B C D W) as (K' & T' & U' & E & F & G).
  rewrite U in U'. inversion U'; subst. exact (gamma_scale_between k th k' th' w _ _ A B C D W eq_refl F G).
Qed.
