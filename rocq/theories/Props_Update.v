(** Properties of [update] and [average] (C46-C51, C94, C95). *)
From Coq Require Import Reals Lra.
From Verif Require Import Base M_Weights M_Pick M_Values M_Sampler M_Ops M_Average M_Dists SpecDists
  P_Dists P_Update P_Update2 P_Average.
Open Scope R_scope.

(* ---------------------------------------------------------------- C46 *)
Theorem C46_precision_weighting :
  forall ppf p e pm ps em es w, normal_of p pm ps -> normal_of e em es -> 0 < ps -> 0 < es -> 0 <= w ->
  exists m s, update ppf p e w = Ok (DNorm (mkNormal (Some m) (Some s) None None)) /\ 0 < s /\
    precision s = precision ps + w * precision es /\
    m * precision s = pm * precision ps + w * (em * precision es).
Proof. exact normal_update_spec. Qed.
Print Assumptions C46_precision_weighting.

Theorem C46_sd_shrinks :
  forall ppf p e pm ps em es w m s, normal_of p pm ps -> normal_of e em es -> 0 < ps -> 0 < es -> 0 <= w ->
  update ppf p e w = Ok (DNorm (mkNormal (Some m) (Some s) None None)) -> s <= ps.
Proof. exact normal_update_shrinks. Qed.
Print Assumptions C46_sd_shrinks.

Theorem C46_mean_between :
  forall ppf p e pm ps em es w m s, normal_of p pm ps -> normal_of e em es -> 0 < ps -> 0 < es -> 0 <= w ->
  update ppf p e w = Ok (DNorm (mkNormal (Some m) (Some s) None None)) -> Rmin pm em <= m <= Rmax pm em.
Proof. exact normal_update_between. Qed.
Print Assumptions C46_mean_between.

Theorem C46_weight_zero :
  forall ppf p e pm ps em es m s, normal_of p pm ps -> normal_of e em es -> 0 < ps -> 0 < es ->
  update ppf p e 0 = Ok (DNorm (mkNormal (Some m) (Some s) None None)) -> m = pm /\ s = ps.
Proof. exact normal_update_zero. Qed.
Print Assumptions C46_weight_zero.

Theorem C46_commutative :
  forall ppf p e pm ps em es, normal_of p pm ps -> normal_of e em es -> 0 < ps -> 0 < es ->
  update ppf p e 1 = update ppf e p 1.
Proof. exact normal_update_comm. Qed.
Print Assumptions C46_commutative.

Theorem C46_associative :
  forall ppf a b c am as_ bm bs cm cs, normal_of a am as_ -> normal_of b bm bs -> normal_of c cm cs ->
  0 < as_ -> 0 < bs -> 0 < cs ->
  bind (update ppf a b 1) (fun d => update ppf d c 1) = bind (update ppf b c 1) (fun d => update ppf a d 1).
Proof. exact normal_update_assoc. Qed.
Print Assumptions C46_associative.

Theorem C46_weights_add :
  forall ppf p e pm ps em es v w, normal_of p pm ps -> normal_of e em es -> 0 < ps -> 0 < es -> 0 <= v -> 0 <= w ->
  bind (update ppf p e v) (fun d => update ppf d e w) = update ppf p e (v + w).
Proof. exact normal_update_weights_add. Qed.
Print Assumptions C46_weights_add.

Example C46_sat : forall ppf,
  let p := DNorm (mkNormal (Some 1) (Some 2) None None) in
  normal_of p 1 2 /\
  exists m s, update ppf p (DNorm (mkNormal (Some 3) (Some 2) (Some 0) None)) 1 =
    Ok (DNorm (mkNormal (Some m) (Some s) None None)) /\ m = 2.
Proof.
  intros ppf p. split; [split; reflexivity|].
  destruct (normal_update_spec ppf p (DNorm (mkNormal (Some 3) (Some 2) (Some 0) None)) 1 2 3 2 1)
    as (m & s & U & S & Q1 & Q2); try (split; reflexivity); try lra.
  exists m, s. split; [exact U|]. unfold precision in *.
  replace (/ (2 * 2)) with (1 / 4) in * by lra. rewrite Q1 in Q2. lra.
Qed.

(* ---------------------------------------------------------------- C47 *)
(** The posterior's underlying parameters are those of the normal update of the
    underlying parameters; its lognormal parameters follow from them. *)
Theorem C47_lognormal_is_normal_in_log_space :
  forall ppf p e pm ps em es w,
  lognormal_of p pm ps -> lognormal_of e em es -> 0 < ps -> 0 < es -> 0 <= w ->
  exists m s,
    update ppf (DNorm (mkNormal (Some pm) (Some ps) None None)) (DNorm (mkNormal (Some em) (Some es) None None)) w
      = Ok (DNorm (mkNormal (Some m) (Some s) None None)) /\
    update ppf p e w =
      Ok (DLognorm (mkLognormal (Some m) (Some s) (Some (fst (to_moments m s))) (Some (snd (to_moments m s))) None None)).
Proof. exact lognormal_update_spec. Qed.
Print Assumptions C47_lognormal_is_normal_in_log_space.

Example C47_sat : forall ppf, exists d, lognorm ppf None None (Some 1) (Some 2) None None 90 None None = Ok d /\
  lognormal_of (DLognorm d) 1 2.
Proof. intros. eexists. split; [reflexivity|]. split; reflexivity. Qed.

(* ---------------------------------------------------------------- C48 *)
Theorem C48_adds_counts :
  forall ppf a b a' b' w, update ppf (DBeta a b) (DBeta a' b') w = Ok (DBeta (a + a') (b + b')).
Proof. exact beta_update. Qed.
Print Assumptions C48_adds_counts.
Theorem C48_commutative :
  forall ppf a b a' b' w, update ppf (DBeta a b) (DBeta a' b') w = update ppf (DBeta a' b') (DBeta a b) w.
Proof. exact beta_update_comm. Qed.
Print Assumptions C48_commutative.
Theorem C48_associative :
  forall ppf a b a' b' a'' b'' w,
  bind (update ppf (DBeta a b) (DBeta a' b') w) (fun d => update ppf d (DBeta a'' b'') w) =
  bind (update ppf (DBeta a' b') (DBeta a'' b'') w) (fun d => update ppf (DBeta a b) d w).
Proof. exact beta_update_assoc. Qed.
Print Assumptions C48_associative.
Theorem C48_mean_between :
  forall ppf a b a' b' w A B, 0 < a -> 0 < b -> 0 < a' -> 0 < b' -> update ppf (DBeta a b) (DBeta a' b') w = Ok (DBeta A B) ->
  Rmin (beta_mean a b) (beta_mean a' b') <= beta_mean A B <= Rmax (beta_mean a b) (beta_mean a' b').
Proof. exact beta_update_between. Qed.
Print Assumptions C48_mean_between.

Example C48_sat : forall ppf, exists a b, update ppf (DBeta 1 2) (DBeta 3 4) 1 = Ok (DBeta a b) /\ a = 4 /\ b = 6.
Proof. intros. do 2 eexists. split; [reflexivity|]. split; lra. Qed.

(* ---------------------------------------------------------------- C49 *)
Theorem C49_shapes_and_rates :
  forall ppf k th l r k' th' l' r' w, 0 < k -> 0 < th -> 0 < k' -> 0 < th' -> 0 <= w ->
  exists K Th, update ppf (DGamma k th l r) (DGamma k' th' l' r') w = Ok (DGamma K Th None None) /\
    K = k + w * k' /\ 0 < Th /\ K * / Th = k * / th + w * k' * / th'.
Proof. exact gamma_update_spec. Qed.
Print Assumptions C49_shapes_and_rates.
Theorem C49_commutative :
  forall ppf k th l r k' th' l' r', 0 < k -> 0 < th -> 0 < k' -> 0 < th' ->
  update ppf (DGamma k th l r) (DGamma k' th' l' r') 1 = update ppf (DGamma k' th' l' r') (DGamma k th l r) 1.
Proof. exact gamma_update_comm. Qed.
Print Assumptions C49_commutative.
Theorem C49_associative :
  forall ppf a ta la ra b tb lb rb c tc lc rc, 0 < a -> 0 < ta -> 0 < b -> 0 < tb -> 0 < c -> 0 < tc ->
  bind (update ppf (DGamma a ta la ra) (DGamma b tb lb rb) 1) (fun d => update ppf d (DGamma c tc lc rc) 1) =
  bind (update ppf (DGamma b tb lb rb) (DGamma c tc lc rc) 1) (fun d => update ppf (DGamma a ta la ra) d 1).
Proof. exact gamma_update_assoc. Qed.
Print Assumptions C49_associative.
Theorem C49_scale_between :
  forall ppf k th l r k' th' l' r' w K Th L R, 0 < k -> 0 < th -> 0 < k' -> 0 < th' -> 0 <= w ->
  update ppf (DGamma k th l r) (DGamma k' th' l' r') w = Ok (DGamma K Th L R) -> Rmin th th' <= Th <= Rmax th th'.
Proof. exact gamma_update_between. Qed.
Print Assumptions C49_scale_between.

Theorem C49_weight_zero :
  forall ppf k th l r k' th' l' r', 0 < k -> 0 < th -> 0 < k' -> 0 < th' ->
  update ppf (DGamma k th l r) (DGamma k' th' l' r') 0 = Ok (DGamma k th None None).
Proof. exact gamma_weight_zero. Qed.
Print Assumptions C49_weight_zero.
(** Updating twice on the same evidence adds the evidence weights. *)
Theorem C49_weights_add :
  forall ppf k th l r k' th' l' r' w1 w2, 0 < k -> 0 < th -> 0 < k' -> 0 < th' -> 0 <= w1 -> 0 <= w2 ->
  bind (update ppf (DGamma k th l r) (DGamma k' th' l' r') w1) (fun d => update ppf d (DGamma k' th' l' r') w2) =
  update ppf (DGamma k th l r) (DGamma k' th' l' r') (w1 + w2).
Proof. exact gamma_weights_add. Qed.
Print Assumptions C49_weights_add.

(** A zero scale has no rate. *)
Theorem C49_zero_scale :
  forall ppf k l r k' th' l' r' w,
  update ppf (DGamma k 0 l r) (DGamma k' th' l' r') w = Err ZeroDivisionError /\
  update ppf (DGamma k' th' l' r') (DGamma k 0 l r) w = Err ZeroDivisionError.
Proof. exact gamma_zero_scale. Qed.
Print Assumptions C49_zero_scale.

Example C49_sat : forall ppf, exists K Th,
  update ppf (DGamma 2 1 None None) (DGamma 2 3 None None) 1 = Ok (DGamma K Th None None) /\ K = 4 /\ Th = 3 / 2.
Proof.
  intros. destruct (gamma_update_spec ppf 2 1 None None 2 3 None None 1) as (K & Th & U & EK & P & Q); try lra.
  exists K, Th. split; [exact U|]. split; [lra|]. subst K.
  assert (E : / Th = 2 / 3) by lra. apply (f_equal Rinv) in E. rewrite Rinv_inv in E. lra.
Qed.

(* ---------------------------------------------------------------- C50 *)
Theorem C50_other_types_rejected :
  forall ppf p e w, ~ same_supported p e -> exists s, update ppf p e w = Err (ValueError s).
Proof. exact update_type_error. Qed.
Print Assumptions C50_other_types_rejected.

(** Supported pairs with positive parameters and weight are accepted. *)
Theorem C50_supported_types_accepted :
  forall ppf w, 0 <= w ->
  (forall p e pm ps em es, normal_of p pm ps -> normal_of e em es -> 0 < ps -> 0 < es -> exists d, update ppf p e w = Ok d) /\
  (forall p e pm ps em es, lognormal_of p pm ps -> lognormal_of e em es -> 0 < ps -> 0 < es -> exists d, update ppf p e w = Ok d) /\
  (forall a b a' b', exists d, update ppf (DBeta a b) (DBeta a' b') w = Ok d) /\
  (forall k th l r k' th' l' r', 0 < k -> 0 < th -> 0 < k' -> 0 < th' ->
   exists d, update ppf (DGamma k th l r) (DGamma k' th' l' r') w = Ok d).
Proof. exact update_accepts. Qed.
Print Assumptions C50_supported_types_accepted.

Example C50_sat : forall ppf,
  update ppf (DBeta 1 1) (DGamma 1 1 None None) 1 = Err (ValueError "can only update distributions of the same type.") /\
  update ppf (DOther 3) (DOther 3) 1 = Err (ValueError "type not supported.").
Proof. intros. split; reflexivity. Qed.

(* ---------------------------------------------------------------- C51 *)
Open Scope Q_scope.
Theorem C51_is_mixture :
  forall (T : Type) w rw (p e : obj T) d,
  fst (average (Some w) rw p e d) = mixture (VList [MPlain p; MPlain e]) w rw None None.
Proof. exact @average_is_mixture. Qed.
Print Assumptions C51_is_mixture.

Theorem C51_default_in_every_history :
  forall (T : Type) (h : list (@avg_call T)) (p e : obj T),
  fst (average None WNone p e (default_after h)) = Ok (DMixture [1 # 2; 1 # 2] [p; e] None None).
Proof. exact @average_default. Qed.
Print Assumptions C51_default_in_every_history.

Theorem C51_single_weight :
  forall (T : Type) q (p e : obj T) d, 0 < q -> q < 1 ->
  exists a b, fst (average (Some (WScalar (Num q))) WNone p e d) = Ok (DMixture [a; b] [p; e] None None) /\
    a == q /\ b == 1 - q.
Proof. exact @average_one_weight. Qed.
Print Assumptions C51_single_weight.

Theorem C51_two_weights :
  forall (T : Type) a b (p e : obj T) d, 0 < a -> 0 < b -> 99 # 100 < a + b -> a + b < 101 # 100 ->
  fst (average (Some (WList [Num a; Num b])) WNone p e d) = Ok (DMixture [a; b] [p; e] None None).
Proof. exact @average_two_weights. Qed.
Print Assumptions C51_two_weights.

Theorem C51_weights_must_sum_to_one :
  forall (T : Type) a b (p e : obj T) d, a + b <= 99 # 100 \/ 101 # 100 <= a + b ->
  fst (average (Some (WList [Num a; Num b])) WNone p e d) = Err (ValueError "weights don't sum to 1").
Proof. exact @average_bad_sum. Qed.
Print Assumptions C51_weights_must_sum_to_one.

Example C51_sat :
  let p := OLit (PInt 1) : obj nat in let e := OLit (PInt 2) in
  fst (average (Some (WScalar (Num (1 # 4)))) WNone p e initial_default) = Ok (DMixture [1 # 4; 3 # 4] [p; e] None None) /\
  default_after [mkAvg (Some (WList [Num (1 # 4)])) WNone p e; mkAvg None WNone e p] = initial_default.
Proof. split; reflexivity. Qed.

(* ---------------------------------------------------------------- C94 *)
(** The posterior of a clipped prior is not clipped, even with no evidence at all. *)
Theorem C94_refuted :
  forall ppf, exists p e d, normal_of p 1%R 1%R /\ normal_of e 2%R 1%R /\
    (match p with DNorm n => n_lclip n = Some 0%R | _ => False end) /\
    update ppf p e 0%R = Ok (DNorm d) /\ n_lclip d = None.
Proof.
  intros. exists (DNorm (mkNormal (Some 1%R) (Some 1%R) (Some 0%R) None)), (DNorm (mkNormal (Some 2%R) (Some 1%R) None None)).
  destruct (normal_update_spec ppf (DNorm (mkNormal (Some 1%R) (Some 1%R) (Some 0%R) None))
              (DNorm (mkNormal (Some 2%R) (Some 1%R) None None)) 1 1 2 1 0) as (m & s & U & _);
    try (split; reflexivity); try lra.
  exists (mkNormal (Some m) (Some s) None None). repeat split. exact U.
Qed.
Print Assumptions C94_refuted.
(** Clips play no part at all: the posterior has none, and is the posterior of the two
    distributions without their clips. *)
Theorem C94_clips_ignored :
  forall ppf p e w,
  update ppf p e w = update ppf (without_clips p) (without_clips e) w /\
  forall d, update ppf p e w = Ok d -> d = without_clips d.
Proof. exact update_ignores_clips. Qed.
Print Assumptions C94_clips_ignored.

(* ---------------------------------------------------------------- C95 *)
(** [relative_weights] never works unless [weights=None] is passed as well. *)
Theorem C95_refuted :
  exists (p e : obj nat) rw,
    fst (average None rw p e initial_default) = Err (ValueError "can only pass either") /\
    fst (average (Some WNone) rw p e initial_default) = Ok (DMixture [1 # 4; 3 # 4] [p; e] None None).
Proof. exists (OLit (PInt 1)), (OLit (PInt 2)), (WList [Num 1; Num 3]). split; reflexivity. Qed.
Print Assumptions C95_refuted.

Theorem C95_always_raises :
  forall (T : Type) (h : list (@avg_call T)) rw (p e : obj T), rw <> WNone ->
  fst (average None rw p e (default_after h)) = Err (ValueError "can only pass either").
Proof. exact @relative_refused. Qed.
Print Assumptions C95_always_raises.
