(** Lemmas about [update]. *)
From Coq Require Import Reals Lra Psatz.
From Verif Require Import Base M_Dists SpecDists P_Dists.
Open Scope R_scope.

Lemma precision_pos s : 0 < s -> 0 < precision s.
Proof. intros. apply Rinv_0_lt_compat. nra. Qed.
Lemma precision_inj s t : 0 < s -> 0 < t -> precision s = precision t -> s = t.
Proof.
  intros Hs Ht H. assert (E : s * s = t * t).
  { apply (f_equal Rinv) in H. unfold precision in H. rewrite !Rinv_inv in H. exact H. }
  nra.
Qed.

Lemma combine_spec pm ps em es w : 0 < ps -> 0 < es -> 0 <= w ->
  exists m s, combine pm (Rsqr ps) em (Rsqr es) w = Ok (m, s) /\ 0 < s /\
    precision s = precision ps + w * precision es /\
    m * precision s = pm * precision ps + w * (em * precision es).
Proof.
  intros P E W. pose proof (sqr_pos ps P) as P2. pose proof (sqr_pos es E) as E2.
  assert (D : 0 < w * Rsqr ps + Rsqr es) by (pose proof (Rmult_le_pos w (Rsqr ps)); lra).
  assert (V : 0 < Rsqr es * Rsqr ps / (w * Rsqr ps + Rsqr es)) by (apply Rdiv_lt_0_compat; auto; now apply Rmult_lt_0_compat).
  unfold combine. destruct (Req_EM_T _ 0); [lra|]. destruct (Rlt_dec _ 0); [lra|].
  do 2 eexists. split; [reflexivity|]. split; [now apply sqrt_lt_R0|].
  assert (Q : precision (sqrt (Rsqr es * Rsqr ps / (w * Rsqr ps + Rsqr es))) = precision ps + w * precision es).
  { unfold precision. rewrite sqrt_sqrt by lra. unfold Rsqr in *. field. repeat split; nra. }
  split; [exact Q|]. rewrite Q. unfold precision, Rsqr in *. field. repeat split; nra.
Qed.

Lemma normal_update_spec ppf p e pm ps em es w : normal_of p pm ps -> normal_of e em es -> 0 < ps -> 0 < es -> 0 <= w ->
  exists m s, update ppf p e w = Ok (DNorm (mkNormal (Some m) (Some s) None None)) /\ 0 < s /\
    precision s = precision ps + w * precision es /\
    m * precision s = pm * precision ps + w * (em * precision es).
Proof.
  intros A B P E W. destruct p as [p| | | |]; try contradiction. destruct e as [e| | | |]; try contradiction.
  destruct A as [A1 A2], B as [B1 B2]. destruct (combine_spec pm ps em es w P E W) as (m & s & C & S & Q1 & Q2).
  exists m, s. split; [|auto]. unfold update. rewrite A1, A2, B1, B2. cbn [need bind]. rewrite C. reflexivity.
Qed.

Lemma update_sd_le s ps es w : 0 < ps -> 0 < es -> 0 <= w -> 0 < s ->
  precision s = precision ps + w * precision es -> s <= ps.
Proof.
  intros P E W S Q. destruct (Rle_dec s ps) as [|N]; auto. exfalso.
  assert (precision s < precision ps). { unfold precision. apply Rinv_lt_contravar; [apply Rmult_lt_0_compat|]; nra. }
  pose proof (precision_pos es E). pose proof (Rmult_le_pos w (precision es) W ltac:(lra)). lra.
Qed.

Lemma update_mean_between m s pm ps em es w : 0 < ps -> 0 < es -> 0 <= w -> 0 < s ->
  precision s = precision ps + w * precision es -> m * precision s = pm * precision ps + w * (em * precision es) ->
  Rmin pm em <= m <= Rmax pm em.
Proof.
  intros P E W S Q1 Q2. pose proof (precision_pos ps P) as Pp. pose proof (precision_pos es E) as Ep.
  pose proof (precision_pos s S) as Sp. rewrite Q1 in Q2, Sp. 
  set (u := precision ps) in *. set (v := w * precision es) in *.
  assert (V : 0 <= v) by (unfold v; apply Rmult_le_pos; lra).
  replace (w * (em * precision es)) with (v * em) in Q2 by (unfold v; ring).
  unfold Rmin, Rmax. destruct (Rle_dec pm em); split; nra.
Qed.

Lemma normal_update_zero ppf p e pm ps em es m s : normal_of p pm ps -> normal_of e em es -> 0 < ps -> 0 < es ->
  update ppf p e 0 = Ok (DNorm (mkNormal (Some m) (Some s) None None)) -> m = pm /\ s = ps.
Proof.
  intros A B P E H. destruct (normal_update_spec ppf p e pm ps em es 0 A B P E (Rle_refl 0)) as (m' & s' & U & S & Q1 & Q2).
  rewrite U in H. inversion H; subst. assert (s = ps) by (apply precision_inj; auto; lra). subst s. split; auto.
  pose proof (precision_pos ps P). nra.
Qed.

Lemma normal_unique m s m' s' : 0 < s -> 0 < s' -> precision s = precision s' -> m * precision s = m' * precision s' ->
  m = m' /\ s = s'.
Proof.
  intros S S' Q1 Q2. assert (E : s = s') by (now apply precision_inj). subst s'. split; auto.
  pose proof (precision_pos s S). nra.
Qed.

Lemma normal_update_comm ppf p e pm ps em es : normal_of p pm ps -> normal_of e em es -> 0 < ps -> 0 < es ->
  update ppf p e 1 = update ppf e p 1.
Proof.
  intros A B P E.
  destruct (normal_update_spec ppf p e pm ps em es 1 A B P E) as (m & s & U & S & Q1 & Q2); [lra|].
  destruct (normal_update_spec ppf e p em es pm ps 1 B A E P) as (m' & s' & U' & S' & Q1' & Q2'); [lra|].
  rewrite U, U'. destruct (normal_unique m s m' s' S S') as [-> ->]; [lra|lra|]. reflexivity.
Qed.

Lemma normal_update_assoc ppf a b c am as_ bm bs cm cs : normal_of a am as_ -> normal_of b bm bs -> normal_of c cm cs ->
  0 < as_ -> 0 < bs -> 0 < cs ->
  bind (update ppf a b 1) (fun d => update ppf d c 1) = bind (update ppf b c 1) (fun d => update ppf a d 1).
Proof.
  intros A B C SA SB SC.
  destruct (normal_update_spec ppf a b am as_ bm bs 1 A B SA SB) as (m & s & U & S & Q1 & Q2); [lra|].
  destruct (normal_update_spec ppf b c bm bs cm cs 1 B C SB SC) as (m' & s' & U' & S' & Q1' & Q2'); [lra|].
  rewrite U, U'. cbn [bind].
  destruct (normal_update_spec ppf (DNorm (mkNormal (Some m) (Some s) None None)) c m s cm cs 1) as (k & t & V & T & R1 & R2);
    try (split; reflexivity); auto; [lra|].
  destruct (normal_update_spec ppf a (DNorm (mkNormal (Some m') (Some s') None None)) am as_ m' s' 1) as (k' & t' & V' & T' & R1' & R2');
    try (split; reflexivity); auto; [lra|].
  rewrite V, V'. destruct (normal_unique k t k' t' T T') as [-> ->]; [lra|lra|]. reflexivity.
Qed.

(** Updating twice with weights v and w is updating once with weight v + w. *)
Lemma normal_update_weights_add ppf p e pm ps em es v w : normal_of p pm ps -> normal_of e em es -> 0 < ps -> 0 < es ->
  0 <= v -> 0 <= w ->
  bind (update ppf p e v) (fun d => update ppf d e w) = update ppf p e (v + w).
Proof.
  intros A B P E V W.
  destruct (normal_update_spec ppf p e pm ps em es v A B P E V) as (m & s & U & S & Q1 & Q2).
  destruct (normal_update_spec ppf p e pm ps em es (v + w) A B P E) as (m' & s' & U' & S' & Q1' & Q2'); [lra|].
  rewrite U, U'. cbn [bind].
  destruct (normal_update_spec ppf (DNorm (mkNormal (Some m) (Some s) None None)) e m s em es w) as (k & t & V' & T & R1 & R2);
    try (split; reflexivity); auto.
  rewrite V'. destruct (normal_unique k t m' s' T S') as [-> ->]; [lra|lra|]. reflexivity.
Qed.

(** * Lognormal *)
Lemma lognormal_update_spec ppf p e pm ps em es w :
  lognormal_of p pm ps -> lognormal_of e em es -> 0 < ps -> 0 < es -> 0 <= w ->
  exists m s, 
    update ppf (DNorm (mkNormal (Some pm) (Some ps) None None)) (DNorm (mkNormal (Some em) (Some es) None None)) w
      = Ok (DNorm (mkNormal (Some m) (Some s) None None)) /\
    update ppf p e w = Ok (DLognorm (mkLognormal (Some m) (Some s) (Some (fst (to_moments m s))) (Some (snd (to_moments m s))) None None)).
Proof.
  intros A B P E W. destruct p as [|p| | |]; try contradiction. destruct e as [|e| | |]; try contradiction.
  destruct A as [A1 A2], B as [B1 B2]. destruct (combine_spec pm ps em es w P E W) as (m & s & C & S & _).
  exists m, s. unfold update. cbn [n_mean n_sd]. rewrite A1, A2, B1, B2. cbn [need bind]. rewrite C. split; reflexivity.
Qed.

(** * Beta *)
Lemma beta_update ppf a b a' b' w : update ppf (DBeta a b) (DBeta a' b') w = Ok (DBeta (a + a') (b + b')).
Proof. reflexivity. Qed.
Lemma beta_update_comm ppf a b a' b' w : update ppf (DBeta a b) (DBeta a' b') w = update ppf (DBeta a' b') (DBeta a b) w.
Proof. simpl. do 2 f_equal; lra. Qed.
Lemma beta_update_assoc ppf a b a' b' a'' b'' w :
  bind (update ppf (DBeta a b) (DBeta a' b') w) (fun d => update ppf d (DBeta a'' b'') w) =
  bind (update ppf (DBeta a' b') (DBeta a'' b'') w) (fun d => update ppf (DBeta a b) d w).
Proof. simpl. do 2 f_equal; lra. Qed.
Lemma beta_mean_between a b a' b' : 0 < a -> 0 < b -> 0 < a' -> 0 < b' ->
  Rmin (beta_mean a b) (beta_mean a' b') <= beta_mean (a + a') (b + b') <= Rmax (beta_mean a b) (beta_mean a' b').
Proof.
  intros. set (x := beta_mean a b). set (y := beta_mean a' b'). set (z := beta_mean (a + a') (b + b')).
  assert (X : x * (a + b) = a) by (unfold x, beta_mean; field; lra).
  assert (Y : y * (a' + b') = a') by (unfold y, beta_mean; field; lra).
  assert (Z : z * (a + b + (a' + b')) = a + a') by (unfold z, beta_mean; field; lra).
  unfold Rmin, Rmax. destruct (Rle_dec x y); split; nra.
Qed.

(** * Gamma *)
Lemma gamma_update_spec ppf k th l r k' th' l' r' w : 0 < k -> 0 < th -> 0 < k' -> 0 < th' -> 0 <= w ->
  exists K Th, update ppf (DGamma k th l r) (DGamma k' th' l' r') w = Ok (DGamma K Th None None) /\
    K = k + w * k' /\ 0 < Th /\ K * / Th = k * / th + w * k' * / th'.
Proof.
  intros. pose proof (Rinv_0_lt_compat th) as I. pose proof (Rinv_0_lt_compat th') as I'.
  assert (N : 0 <= k' * w) by (apply Rmult_le_pos; lra).
  assert (X : 0 < (k * (1 / th) + k' * w * (1 / th')) / (k + k' * w)).
  { apply Rdiv_lt_0_compat; [|lra]. unfold Rdiv. rewrite !Rmult_1_l.
    pose proof (Rmult_lt_0_compat k (/ th)). pose proof (Rmult_le_pos (k' * w) (/ th')). lra. }
  unfold update. destruct (Req_EM_T th 0); [lra|]. destruct (Req_EM_T th' 0); [lra|].
  destruct (Req_EM_T (k + k' * w) 0); [lra|]. destruct (Req_EM_T _ 0); [lra|].
  do 2 eexists. split; [reflexivity|]. split; [ring|]. split; [apply Rdiv_lt_0_compat; lra|].
  unfold Rdiv in *. rewrite !Rmult_1_l in *. rewrite Rinv_inv. field. repeat split; lra.
Qed.

Lemma gamma_unique K T T' : 0 < K -> 0 < T -> 0 < T' -> K * / T = K * / T' -> T = T'.
Proof.
  intros HK HT HT' H. apply Rmult_eq_reg_l in H; [|lra]. apply (f_equal Rinv) in H. now rewrite !Rinv_inv in H.
Qed.

Lemma gamma_update_comm ppf k th l r k' th' l' r' : 0 < k -> 0 < th -> 0 < k' -> 0 < th' ->
  update ppf (DGamma k th l r) (DGamma k' th' l' r') 1 = update ppf (DGamma k' th' l' r') (DGamma k th l r) 1.
Proof.
  intros. destruct (gamma_update_spec ppf k th l r k' th' l' r' 1) as (K & T & U & EK & PT & Q); auto; [lra|].
  destruct (gamma_update_spec ppf k' th' l' r' k th l r 1) as (K' & T' & U' & EK' & PT' & Q'); auto; [lra|].
  rewrite U, U'. assert (X : K = K') by lra. rewrite <- X in *. rewrite (gamma_unique K T T'); auto; lra.
Qed.

Lemma gamma_update_assoc ppf a ta la ra b tb lb rb c tc lc rc : 0 < a -> 0 < ta -> 0 < b -> 0 < tb -> 0 < c -> 0 < tc ->
  bind (update ppf (DGamma a ta la ra) (DGamma b tb lb rb) 1) (fun d => update ppf d (DGamma c tc lc rc) 1) =
  bind (update ppf (DGamma b tb lb rb) (DGamma c tc lc rc) 1) (fun d => update ppf (DGamma a ta la ra) d 1).
Proof.
  intros. destruct (gamma_update_spec ppf a ta la ra b tb lb rb 1) as (K & T & U & EK & PT & Q); auto; [lra|].
  destruct (gamma_update_spec ppf b tb lb rb c tc lc rc 1) as (K' & T' & U' & EK' & PT' & Q'); auto; [lra|].
  rewrite U, U'. cbn [bind].
  destruct (gamma_update_spec ppf K T None None c tc lc rc 1) as (K2 & T2 & V & EK2 & PT2 & Q2); auto; [lra|lra|].
  destruct (gamma_update_spec ppf a ta la ra K' T' None None 1) as (K3 & T3 & V' & EK3 & PT3 & Q3); auto; [lra|lra|].
  rewrite V, V'. assert (X : K2 = K3) by lra. rewrite <- X in *. rewrite (gamma_unique K2 T2 T3); auto; lra.
Qed.

Lemma gamma_scale_between k th k' th' w K Th : 0 < k -> 0 < th -> 0 < k' -> 0 < th' -> 0 <= w ->
  K = k + w * k' -> 0 < Th -> K * / Th = k * / th + w * k' * / th' -> Rmin th th' <= Th <= Rmax th th'.
Proof.
  intros Hk Ht Hk' Ht' W EK PT Q. 
  assert (N : 0 <= w * k') by (apply Rmult_le_pos; lra).
  set (x := / th) in *. set (y := / th') in *. set (z := / Th) in *. subst K.
  set (n := w * k') in *. clearbody n.
  assert (X : 0 < x) by (now apply Rinv_0_lt_compat). assert (Y : 0 < y) by (now apply Rinv_0_lt_compat).
  assert (Z : 0 < z) by (now apply Rinv_0_lt_compat).
  assert (Mono : forall u v, 0 < u -> 0 < v -> / u <= / v -> v <= u).
  { intros u v Hu Hv L. destruct (Rle_dec v u); auto. exfalso.
    assert (/ v < / u) by (apply Rinv_lt_contravar; [nra|lra]). lra. }
  assert (Anti : forall u v, 0 < u -> u <= v -> / v <= / u) by (intros; apply Rinv_le_contravar; auto).
  unfold Rmin, Rmax. destruct (Rle_dec th th') as [L|L].
  - assert (y <= x) by (apply Anti; auto). split; apply Mono; auto; fold x y z; clear Mono Anti; clearbody x y z; nra.
  - assert (x <= y) by (apply Anti; lra). split; apply Mono; auto; fold x y z; clear Mono Anti; clearbody x y z; nra.
Qed.

(** * Other types *)
Lemma update_type_error ppf p e w : ~ same_supported p e -> exists s, update ppf p e w = Err (ValueError s).
Proof.
  intros H. destruct p, e; simpl in H; try (exfalso; exact (H I)); simpl; try (eexists; reflexivity).
  destruct (Nat.eqb k k0); eexists; reflexivity.
Qed.

Lemma update_accepts ppf w : 0 <= w ->
  (forall p e pm ps em es, normal_of p pm ps -> normal_of e em es -> 0 < ps -> 0 < es -> exists d, update ppf p e w = Ok d) /\
  (forall p e pm ps em es, lognormal_of p pm ps -> lognormal_of e em es -> 0 < ps -> 0 < es -> exists d, update ppf p e w = Ok d) /\
  (forall a b a' b', exists d, update ppf (DBeta a b) (DBeta a' b') w = Ok d) /\
  (forall k th l r k' th' l' r', 0 < k -> 0 < th -> 0 < k' -> 0 < th' ->
   exists d, update ppf (DGamma k th l r) (DGamma k' th' l' r') w = Ok d).
Proof.
  intros W. split; [|split; [|split]]; intros.
  - destruct (normal_update_spec ppf p e pm ps em es w) as (m & s & U & _); eauto.
  - destruct (lognormal_update_spec ppf p e pm ps em es w) as (m & s & _ & U); eauto.
  - eexists; reflexivity.
  - destruct (gamma_update_spec ppf k th l r k' th' l' r' w) as (K & T & U & _); eauto.
Qed.
