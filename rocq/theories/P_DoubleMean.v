From Coq Require Import Permutation Qabs Lqa Qround Setoid Morphisms.
From Verif Require Import Base M_Ops M_Float M_Double M_DoubleProb M_DoubleMean SpecFloat SpecDouble SpecDoubleMean P_Float P_Double P_DoubleProb.
Open Scope Q_scope.

Lemma terms_pos t : (1 <= length (terms t))%nat.
Proof. induction t; cbn; [lia|]. rewrite app_length. lia. Qed.
Lemma Zq_le a b : (a <= b)%Z -> inject_Z a <= inject_Z b.
Proof. intros. unfold Qle; cbn. lia. Qed.
Lemma Zq_lt a b : (a < b)%Z -> inject_Z a < inject_Z b.
Proof. intros. unfold Qlt; cbn. lia. Qed.
Lemma pos_neq x : 0 < x -> ~ x == 0.
Proof. intros H E. rewrite E in H. discriminate H. Qed.
Lemma ddiv_rnd a b : ddiv a b == rnd (a / b).
Proof. apply Qred_correct. Qed.
Lemma dadd_rnd a b : dadd a b == rnd (a + b).
Proof. apply Qred_correct. Qed.
Lemma dmul_rnd a b : dmul a b == rnd (a * b).
Proof. apply Qred_correct. Qed.

(** Whole numbers add up exactly. *)
Definition ones (l : list Q) : Z := fold_right (fun x s => ((if Qeq_bool x 0 then 0 else 1) + s)%Z) 0%Z l.
Lemma ones_cons x l : ones (x :: l) = ((if Qeq_bool x 0 then 0 else 1) + ones l)%Z.
Proof. reflexivity. Qed.
Lemma ones_app a b : ones (a ++ b) = (ones a + ones b)%Z.
Proof. induction a as [|x a IH]; [reflexivity|]. cbn [app]. rewrite !ones_cons, IH. lia. Qed.
Lemma ones_range l : (0 <= ones l <= Z.of_nat (length l))%Z.
Proof. induction l as [|x l IH]; [cbn; lia|]. rewrite ones_cons. cbn [length]. destruct (Qeq_bool x 0); lia. Qed.
Lemma ones_bools bs : ones (map fl_bool bs) = occurrences bs.
Proof. induction bs as [|b bs IH]; [reflexivity|]. unfold occurrences in *. cbn [map]. rewrite ones_cons, IH. destruct b; cbn [filter length fl_bool]; [change (Qeq_bool 1 0) with false | change (Qeq_bool 0 0) with true]; cbv iota; lia. Qed.
Lemma ones_perm a b : Permutation a b -> ones a = ones b.
Proof. induction 1; rewrite ?ones_cons; lia. Qed.
Definition zero_one (x : Q) : Prop := x = 0 \/ x = 1.
Lemma sum_counts t : Forall zero_one (terms t) -> (Z.of_nat (length (terms t)) <= 2 ^ 53)%Z ->
  fl_sum t == inject_Z (ones (terms t)).
Proof.
  induction t as [x|a IHa b IHb]; cbn [terms fl_sum].
  - intros H _. inversion H; subst. destruct H2; subst; reflexivity.
  - intros H L. apply Forall_app in H. destruct H as [Ha Hb]. rewrite app_length in L.
    rewrite dadd_rnd, ones_app. etransitivity; [apply rnd_compat; rewrite IHa, IHb; [reflexivity|auto|lia|auto|lia]|].
    rewrite <- inject_Z_plus. apply rnd_exact. apply is_double_int.
    pose proof (ones_range (terms a)). pose proof (ones_range (terms b)). lia.
Qed.
Lemma bools_zero_one bs : Forall zero_one (map fl_bool bs).
Proof. induction bs as [|[] bs IH]; constructor; auto; [right|left]; reflexivity. Qed.

Definition share (bs : list bool) : Q := inject_Z (occurrences bs) / inject_Z (cases bs).
Lemma reported_rnd bs p : (cases bs <= 2 ^ 53)%Z -> reported bs p -> p == rnd (share bs).
Proof.
  intros L (t & P & E). rewrite E. unfold fl_mean. rewrite ddiv_rnd. apply rnd_compat. unfold share.
  assert (N : length (terms t) = length bs) by (rewrite (Permutation_length P); apply map_length).
  rewrite sum_counts.
  - rewrite (ones_perm _ _ P), ones_bools, N. reflexivity.
  - eapply Permutation_Forall; [apply Permutation_sym; exact P | apply bools_zero_one].
  - rewrite N. exact L.
Qed.
Lemma occ_range bs : (0 <= occurrences bs <= cases bs)%Z.
Proof. unfold occurrences, cases. induction bs as [|[] bs IH]; cbn [filter length]; lia. Qed.
Lemma reported_pos bs p : reported bs p -> (0 < cases bs)%Z.
Proof. intros (t & P & _). unfold cases. pose proof (terms_pos t). rewrite (Permutation_length P), map_length in H. lia. Qed.

Lemma report_nearest bs p : (cases bs <= 2 ^ 53)%Z -> reported bs p ->
  exists e, nearest_double (share bs) e /\ p == e.
Proof. intros L R. exists (rnd (share bs)). split; [apply rnd_nearest | apply reported_rnd; auto]. Qed.
Lemma report_exists bs : bs <> [] -> exists p, reported bs p.
Proof.
  intros H. assert (X : forall l : list Q, l <> [] -> exists t, terms t = l).
  { induction l as [|x l IH]; [congruence|]. intros _. destruct l as [|y l]; [exists (Term x); reflexivity|].
    destruct IH as [t T]; [discriminate|]. exists (Plus (Term x) t). cbn. rewrite T. reflexivity. }
  destruct (X (map fl_bool bs)) as [t T]; [destruct bs; cbn; congruence|].
  exists (fl_mean t), t. split; [rewrite T; apply Permutation_refl | reflexivity].
Qed.
Lemma share_mul bs : (0 < cases bs)%Z -> share bs * inject_Z (cases bs) == inject_Z (occurrences bs).
Proof. intros H. unfold share. field. apply Zq_lt in H. intros E. rewrite E in H. cbn in H. discriminate H. Qed.
Lemma share_range bs : (0 < cases bs)%Z -> 0 <= share bs <= 1.
Proof.
  intros H. pose proof (occ_range bs) as [A B]. apply Zq_le in A, B. apply Zq_lt in H. change (inject_Z 0) with 0 in *.
  split; [apply div_nonneg | apply div_le_1]; auto.
Qed.
Lemma report_range bs p : (cases bs <= 2 ^ 53)%Z -> reported bs p -> 0 <= p <= 1.
Proof.
  intros L R. pose proof (share_range bs (reported_pos _ _ R)) as [A B]. rewrite (reported_rnd bs p L R).
  split; [apply rnd_sign; auto | apply rnd_le_1; auto].
Qed.
(** A count can be read off again. *)
Lemma report_recovers bs p : (cases bs <= 2 ^ 51)%Z -> reported bs p ->
  Qabs (p * inject_Z (cases bs) - inject_Z (occurrences bs)) <= 1 # 4.
Proof.
  intros L R. pose proof (reported_pos _ _ R) as N.
  pose proof (share_range bs N) as [S0 S1].
  pose proof (rnd_error (share bs)) as E. rewrite <- (reported_rnd bs p ltac:(lia) R) in E.
  rewrite (Qabs_pos (share bs)) in E by auto. apply qabs_range in E. destruct E as [E1 E2].
  pose proof (share_mul bs N) as M. set (n := inject_Z (cases bs)) in *.
  assert (N0 : 0 < n) by (apply (Zq_lt 0); auto).
  assert (N1 : n <= inject_Z (2 ^ 51)) by (apply Zq_le; auto).
  assert (U : double_u * n <= 1 # 4).
  { unfold double_u. eapply Qle_trans; [apply Qmult_le_l; [reflexivity|exact N1]|]. vm_compute. discriminate. }
  assert (V : double_u * share bs * n <= 1 # 4).
  { setoid_replace (double_u * share bs * n) with (share bs * (double_u * n)) by ring.
    assert (0 <= double_u * n) by (apply Qmult_le_0_compat; [apply Qlt_le_weak, u_val | lra]). nra. }
  rewrite <- M. apply Qabs_Qle_condition. split; nra.
Qed.
(** More cases give a larger share. *)
Lemma report_order bs cs p q : (cases bs <= 2 ^ 51)%Z -> cases bs = cases cs -> reported bs p -> reported cs q ->
  ((occurrences bs < occurrences cs)%Z <-> p < q) /\ (occurrences bs = occurrences cs <-> p == q).
Proof.
  intros L C Rp Rq. pose proof (reported_pos _ _ Rp) as N. 
  assert (S : (occurrences bs < occurrences cs)%Z -> p < q).
  { intros H. pose proof (report_recovers bs p L Rp) as A. pose proof (report_recovers cs q ltac:(lia) Rq) as B.
    rewrite <- C in B. apply qabs_range in A, B. apply Zlt_le_succ in H. apply Zq_le in H. unfold Z.succ in H.
    rewrite inject_Z_plus in H. change (inject_Z 1) with 1 in H. apply (Zq_lt 0) in N. change (inject_Z 0) with 0 in N.
    set (n := inject_Z (cases bs)) in *. destruct (Qlt_le_dec p q); auto. exfalso. assert (q * n <= p * n) by (apply Qmult_le_compat_r; lra). lra. }
  assert (T : (occurrences cs < occurrences bs)%Z -> q < p).
  { intros H. pose proof (report_recovers bs p L Rp) as A. pose proof (report_recovers cs q ltac:(lia) Rq) as B.
    rewrite <- C in B. apply qabs_range in A, B. apply Zlt_le_succ in H. apply Zq_le in H. unfold Z.succ in H.
    rewrite inject_Z_plus in H. change (inject_Z 1) with 1 in H. apply (Zq_lt 0) in N. change (inject_Z 0) with 0 in N.
    set (n := inject_Z (cases bs)) in *. destruct (Qlt_le_dec q p); auto. exfalso. assert (p * n <= q * n) by (apply Qmult_le_compat_r; lra). lra. }
  assert (Q : occurrences bs = occurrences cs -> p == q).
  { intros E. rewrite (reported_rnd bs p), (reported_rnd cs q) by (auto; lia). apply rnd_compat. unfold share. rewrite E, C. reflexivity. }
  split; split; auto; intros H; destruct (Ztrichotomy (occurrences bs) (occurrences cs)) as [X|[X|X]]; auto; exfalso.
  - apply Q in X. lra.
  - apply Z.gt_lt, T in X. lra.
  - apply S in X. lra.
  - apply Z.gt_lt, T in X. lra.
Qed.
Lemma report_certain bs p : (cases bs <= 2 ^ 53)%Z -> reported bs p ->
  (p == 1 <-> Forall (fun b => b = true) bs) /\ (p == 0 <-> Forall (fun b => b = false) bs).
Proof.
  intros L R. pose proof (reported_pos _ _ R) as N. pose proof (share_range bs N) as [S0 S1].
  pose proof (reported_rnd bs p L R) as E. pose proof (share_mul bs N) as M. apply (Zq_lt 0) in N. change (inject_Z 0) with 0 in N.
  assert (A1 : Forall (fun b => b = true) bs <-> occurrences bs = cases bs).
  { clear. unfold occurrences, cases. induction bs as [|b bs IH]; [split; auto|].
    pose proof (occ_range bs) as O. unfold occurrences, cases in O.
    split; [intros H; inversion H; subst; cbn [filter length]; apply IH in H3; lia|].
    intros H. destruct b; cbn [filter length] in H; [constructor; [reflexivity|apply IH; lia] | lia]. }
  assert (A0 : Forall (fun b => b = false) bs <-> occurrences bs = 0%Z).
  { clear. unfold occurrences. induction bs as [|b bs IH]; [split; auto|].
    split; [intros H; inversion H; subst; cbn [filter length]; apply IH in H3; auto|].
    intros H. destruct b; cbn [filter length] in H; [lia | constructor; [reflexivity|apply IH; auto]]. }
  rewrite A1, A0. split; split.
  - intros P. destruct (Z.eq_dec (occurrences bs) (cases bs)) as [X|X]; auto. exfalso.
    pose proof (occ_range bs) as O. assert (O' : (occurrences bs <= cases bs - 1)%Z) by lia. apply Zq_le in O'.
    unfold Zminus in O'. rewrite inject_Z_plus in O'. change (inject_Z (Z.opp 1)) with (-1) in O'.
    apply Zq_le in L. set (n := inject_Z (cases bs)) in *. rewrite <- M in O'.
    assert (B : share bs <= inject_Z (2 ^ 53 - 1) * pow2 (-53)).
    { change (inject_Z (2 ^ 53 - 1) * pow2 (-53)) with (9007199254740991 # 9007199254740992).
      change (inject_Z (2 ^ 53)) with (9007199254740992 # 1) in L. clearbody n. generalize (share bs) S0 S1 O'. intros s X0 X1 X2.
      destruct (Qlt_le_dec (9007199254740991 # 9007199254740992) s) as [W|W]; auto. exfalso.
      assert (Y : (1 - s) * n <= (1 - s) * (9007199254740992 # 1)) by (rewrite !(Qmult_comm (1 - s)); apply Qmult_le_compat_r; [exact L|lra]).
      assert (Z0 : (1 - s) * n == n - s * n) by ring. lra. }
    apply rnd_mono in B. rewrite <- E, P in B.
    rewrite rnd_exact in B.
    + vm_compute in B. apply B. reflexivity.
    + exists (2 ^ 53 - 1)%Z, (-53)%Z. split; [vm_compute; discriminate|reflexivity].
  - intros X. rewrite E. rewrite (rnd_compat _ 1); [apply rnd_exact, one_double|]. rewrite X in M. set (n := inject_Z (cases bs)) in *. unfold share. rewrite X. fold n. field. apply pos_neq; auto.
  - intros P. destruct (Z.eq_dec (occurrences bs) 0) as [X|X]; auto. exfalso.
    pose proof (occ_range bs) as O. assert (O' : (0 < occurrences bs)%Z) by lia. apply (Zq_lt 0) in O'. change (inject_Z 0) with 0 in O'.
    pose proof (rnd_pos_lt (share bs) (div_pos _ _ O' N)). lra.
  - intros X. rewrite E. rewrite (rnd_compat _ 0); [reflexivity|]. unfold share. rewrite X. change (inject_Z 0) with 0. unfold Qdiv. ring.
Qed.
Lemma report_complement bs p q : (cases bs <= 2 ^ 53)%Z -> reported bs p -> reported (map negb bs) q ->
  Qabs (p + q - 1) <= double_u.
Proof.
  intros L Rp Rq. pose proof (reported_pos _ _ Rp) as N.
  assert (C : cases (map negb bs) = cases bs) by (unfold cases; rewrite map_length; reflexivity).
  assert (O : (occurrences (map negb bs) + occurrences bs = cases bs)%Z).
  { clear. unfold occurrences, cases. induction bs as [|[] bs IH]; [reflexivity| |]; cbn [map negb filter length]; lia. }
  pose proof (share_range bs N) as [S0 S1]. pose proof (share_range (map negb bs) ltac:(lia)) as [T0 T1].
  pose proof (rnd_error (share bs)) as E. rewrite <- (reported_rnd bs p L Rp) in E.
  pose proof (rnd_error (share (map negb bs))) as G. rewrite <- (reported_rnd (map negb bs) q ltac:(lia) Rq) in G.
  assert (T : share bs + share (map negb bs) == 1).
  { unfold share. rewrite C. apply (Zq_lt 0) in N. change (inject_Z 0) with 0 in N.
    assert (inject_Z (cases bs) == inject_Z (occurrences (map negb bs)) + inject_Z (occurrences bs)) by (rewrite <- inject_Z_plus, O; reflexivity).
    field_simplify_eq; [rewrite H; ring | apply pos_neq; auto]. }
  rewrite (Qabs_pos (share bs)) in E by auto. rewrite (Qabs_pos (share (map negb bs))) in G by auto. apply qabs_range in E, G. apply Qabs_Qle_condition.
  pose proof u_val as [U _]. assert (double_u * share bs + double_u * share (map negb bs) == double_u) by (rewrite <- Qmult_plus_distr_r, T; ring).
  split; lra.
Qed.
(** Conditional shares multiply, up to rounding. *)
Lemma report_chain given both_ all p q r :
  (0 <= both_ <= given)%Z -> (0 < given <= all)%Z -> (all <= 2 ^ 53)%Z ->
  p == rnd (inject_Z both_ / inject_Z given) -> q == rnd (inject_Z given / inject_Z all) -> r == rnd (inject_Z both_ / inject_Z all) ->
  Qabs (dmul p q - r) <= 5 * double_u * r.
Proof.
  intros [B0 B1] [G0 G1] _ Ep Eq Er. apply Zq_le in B0, B1, G1. apply (Zq_lt 0) in G0. change (inject_Z 0) with 0 in *.
  set (b := inject_Z both_) in *. set (g := inject_Z given) in *. set (n := inject_Z all) in *. clearbody b g n.
  assert (N0 : 0 < n) by lra.
  assert (M : b / g * (g / n) == b / n) by (field; split; apply pos_neq; auto).
  pose proof (rnd_range (b / g) (div_nonneg _ _ B0 G0)) as P. rewrite <- Ep in P.
  pose proof (rnd_range (g / n) (div_nonneg _ _ (Qlt_le_weak _ _ G0) N0)) as Q. rewrite <- Eq in Q.
  pose proof (rnd_range (b / n) (div_nonneg _ _ B0 N0)) as R. rewrite <- Er in R.
  assert (X0 : 0 <= b / g) by (apply div_nonneg; auto). assert (Y0 : 0 <= g / n) by (apply div_nonneg; auto; lra).
  assert (Z0 : 0 <= b / n) by (apply div_nonneg; auto).
  pose proof u_val as [U0 U1]. set (u := double_u) in *.
  assert (P0 : 0 <= p) by (eapply Qle_trans; [|apply P]; apply Qmult_le_0_compat; lra).
  assert (Q0 : 0 <= q) by (eapply Qle_trans; [|apply Q]; apply Qmult_le_0_compat; lra).
  set (s := b / n) in *. set (x := b / g) in *. set (y := g / n) in *. clearbody s x y.
  assert (L : (1 - u) * (1 - u) * s <= p * q).
  { apply Qle_trans with (((1 - u) * x) * q); [apply Qle_trans with (((1 - u) * x) * ((1 - u) * y))|apply Qmult_le_compat_r; tauto].
    - rewrite <- M. apply Qle_lteq. right. ring.
    - rewrite (Qmult_comm ((1 - u) * x)), (Qmult_comm ((1 - u) * x) q). apply Qmult_le_compat_r; [tauto|]. apply Qmult_le_0_compat; lra. }
  assert (H : p * q <= (1 + u) * (1 + u) * s).
  { apply Qle_trans with (((1 + u) * x) * q); [apply Qmult_le_compat_r; tauto|apply Qle_trans with (((1 + u) * x) * ((1 + u) * y))].
    - rewrite (Qmult_comm ((1 + u) * x)), (Qmult_comm ((1 + u) * x) ((1 + u) * y)). apply Qmult_le_compat_r; [tauto|]. apply Qmult_le_0_compat; lra.
    - rewrite <- M. apply Qle_lteq. right. ring. }
  pose proof (rnd_range (p * q) (Qmult_le_0_compat _ _ P0 Q0)) as D. rewrite <- dmul_rnd in D. fold u in D.
  assert (D1 : (1 - u) * ((1 - u) * (1 - u) * s) <= dmul p q).
  { eapply Qle_trans; [|apply D]. rewrite !(Qmult_comm (1 - u) (_ * s)), !(Qmult_comm (1 - u) (p * q)). apply Qmult_le_compat_r; lra. }
  assert (D2 : dmul p q <= (1 + u) * ((1 + u) * (1 + u) * s)).
  { eapply Qle_trans; [apply D|]. rewrite !(Qmult_comm (1 + u) (_ * s)), !(Qmult_comm (1 + u) (p * q)). apply Qmult_le_compat_r; lra. }
  set (d := dmul p q) in *. clearbody d. clearbody u.
  assert (K : 5 * u * ((1 - u) * s) <= 5 * u * r).
  { rewrite !(Qmult_comm (5 * u)). apply Qmult_le_compat_r; [tauto|lra]. }
  assert (F : 0 <= u * s * (1 - 8 * u - u * u)).
  { apply Qmult_le_0_compat; [apply Qmult_le_0_compat; lra|]. nra. }
  assert (F' : 0 <= u * s * (1 - 2 * u - u * u)).
  { apply Qmult_le_0_compat; [apply Qmult_le_0_compat; lra|]. nra. }
  assert (I1 : (1 + u) * ((1 + u) * (1 + u) * s) - (1 - u) * s == 5 * u * ((1 - u) * s) - u * s * (1 - 8 * u - u * u)) by ring.
  assert (I2 : (1 + u) * s - (1 - u) * ((1 - u) * (1 - u) * s) == 5 * u * ((1 - u) * s) - u * s * (1 - 2 * u - u * u)) by ring.
  apply Qabs_Qle_condition. split; lra.
Qed.

(** Sums of any doubles. *)
Lemma magnitude_cons x a : magnitude (x :: a) = Qabs x + magnitude a.
Proof. reflexivity. Qed.
Lemma exactly_cons x a : exactly (x :: a) = x + exactly a.
Proof. reflexivity. Qed.
Lemma magnitude_app a b : magnitude (a ++ b) == magnitude a + magnitude b.
Proof. induction a as [|x a IH]; cbn [app]; [change (magnitude []) with 0; ring|]. rewrite !magnitude_cons, IH. ring. Qed.
Lemma exactly_app a b : exactly (a ++ b) == exactly a + exactly b.
Proof. induction a as [|x a IH]; cbn [app]; [change (exactly []) with 0; ring|]. rewrite !exactly_cons, IH. ring. Qed.
Lemma magnitude_nonneg a : 0 <= magnitude a.
Proof. induction a as [|x a IH]; [apply Qle_refl|]. rewrite magnitude_cons. pose proof (Qabs_nonneg x). lra. Qed.
Lemma exactly_abs a : Qabs (exactly a) <= magnitude a.
Proof. induction a as [|x a IH]; [apply Qle_refl|]. rewrite magnitude_cons, exactly_cons. pose proof (Qabs_triangle x (exactly a)). lra. Qed.
Lemma magnitude_perm a b : Permutation a b -> magnitude a == magnitude b.
Proof. induction 1; rewrite ?magnitude_cons; try reflexivity; lra. Qed.
Lemma exactly_perm a b : Permutation a b -> exactly a == exactly b.
Proof. induction 1; rewrite ?exactly_cons; try reflexivity; lra. Qed.
Lemma qpow_le x a b : 1 <= x -> (a <= b)%nat -> qpow x a <= qpow x b.
Proof.
  intros X. induction 1 as [|b H IH]; [lra|]. cbn [qpow]. pose proof (qpow_nonneg x b ltac:(lra)).
  eapply Qle_trans; [exact IH|]. setoid_replace (qpow x b) with (1 * qpow x b) at 1 by ring. apply Qmult_le_compat_r; auto.
Qed.
Notation grow n := (qpow (1 + double_u) n).
Lemma sum_error t : Qabs (fl_sum t - exactly (terms t)) <= (grow (length (terms t) - 1) - 1) * magnitude (terms t).
Proof.
  induction t as [x|a IHa b IHb].
  - cbn [fl_sum terms length Nat.sub qpow]. assert (E : x - exactly [x] == 0) by (unfold exactly; cbn [fold_right]; ring). rewrite E. change (Qabs 0) with 0. apply Qle_lteq. right. change (length [x] - 1)%nat with 0%nat. cbn [qpow]. ring.
  - cbn [fl_sum terms]. rewrite app_length, exactly_app, magnitude_app, dadd_rnd.
    pose proof (terms_pos a) as Pa. pose proof (terms_pos b) as Pb.
    set (na := length (terms a)) in *. set (nb := length (terms b)) in *.
    pose proof (rnd_error (fl_sum a + fl_sum b)) as R.
    pose proof (exactly_abs (terms a)) as Ea. pose proof (exactly_abs (terms b)) as Eb.
    pose proof (magnitude_nonneg (terms a)) as Ma. pose proof (magnitude_nonneg (terms b)) as Mb.
    pose proof u_val as [U0 U1].
    assert (Ga : grow na == (1 + double_u) * grow (na - 1)) by (destruct na; [lia|]; cbn [Nat.sub qpow]; rewrite Nat.sub_0_r; reflexivity).
    assert (Gb : grow nb == (1 + double_u) * grow (nb - 1)) by (destruct nb; [lia|]; cbn [Nat.sub qpow]; rewrite Nat.sub_0_r; reflexivity).
    pose proof (qpow_le (1 + double_u) na (na + nb - 1) ltac:(lra) ltac:(lia)) as La.
    pose proof (qpow_le (1 + double_u) nb (na + nb - 1) ltac:(lra) ltac:(lia)) as Lb.
    rewrite Ga in La. rewrite Gb in Lb.
    set (ga := grow (na - 1)) in *. set (gb := grow (nb - 1)) in *. set (g := grow (na + nb - 1)) in *. clearbody ga gb g.
    set (A := magnitude (terms a)) in *. set (B := magnitude (terms b)) in *. set (xa := exactly (terms a)) in *. set (xb := exactly (terms b)) in *.
    set (sa := fl_sum a) in *. set (sb := fl_sum b) in *. set (u := double_u) in *. set (r := rnd (sa + sb)) in *. clearbody A B xa xb sa sb u r.
    assert (T : Qabs (sa + sb) <= ga * A + gb * B).
    { eapply Qle_trans; [apply Qabs_triangle|].
      assert (Qabs sa <= Qabs (sa - xa) + Qabs xa) by (eapply Qle_trans; [|apply Qabs_triangle]; apply Qle_lteq; right; apply Qabs_wd; ring).
      assert (Qabs sb <= Qabs (sb - xb) + Qabs xb) by (eapply Qle_trans; [|apply Qabs_triangle]; apply Qle_lteq; right; apply Qabs_wd; ring).
      lra. }
    assert (V : u * Qabs (sa + sb) <= u * (ga * A + gb * B)) by (rewrite !(Qmult_comm u); apply Qmult_le_compat_r; lra).
    assert (W : Qabs (r - (xa + xb)) <= Qabs (r - (sa + sb)) + (Qabs (sa - xa) + Qabs (sb - xb))).
    { setoid_replace (r - (xa + xb)) with ((r - (sa + sb)) + ((sa - xa) + (sb - xb))) by ring.
      eapply Qle_trans; [apply Qabs_triangle|]. pose proof (Qabs_triangle (sa - xa) (sb - xb)). lra. }
    assert (XA : (1 + u) * ga * A <= g * A) by (apply Qmult_le_compat_r; auto).
    assert (XB : (1 + u) * gb * B <= g * B) by (apply Qmult_le_compat_r; auto).
    lra.
Qed.
Lemma grow_small n : short_for double_u n -> grow n - 1 <= (1002 # 1000) * (inject_Z (Z.of_nat n) * double_u).
Proof.
  intros S. unfold short_for in S. rewrite nat_S_q in S. pose proof u_val as [U0 U1]. pose proof (nat_q_nonneg n) as N.
  pose proof (pow_high double_u n ltac:(lra) ltac:(lra)) as H.
  set (k := inject_Z (Z.of_nat n)) in *. assert (K : 0 <= k * double_u) by (apply Qmult_le_0_compat; lra).
  assert (K1 : k * double_u <= 1 # 1000) by lra. set (x := k * double_u) in *. clearbody x. clear S N.
  set (g := grow n) in *. clearbody g.
  assert (X : 1 <= (1 + (1002 # 1000) * x) * (1 - x)) by nra.
  destruct (Qlt_le_dec (1 + (1002 # 1000) * x) g) as [L|L]; [|lra]. exfalso.
  assert (Y : (1 + (1002 # 1000) * x) * (1 - x) < g * (1 - x)) by (apply Qmult_lt_compat_r; lra). lra.
Qed.
Lemma mean_error l m : short_for double_u (length l) -> averages_to l m ->
  Qabs (m - exactly l / inject_Z (Z.of_nat (length l))) <= (1002 # 1000) * double_u * magnitude l.
Proof.
  intros S (t & P & E). pose proof (terms_pos t) as N. pose proof (sum_error t) as H.
  rewrite (exactly_perm _ _ P), (magnitude_perm _ _ P), (Permutation_length P) in H. rewrite (Permutation_length P) in N.
  rewrite E. unfold fl_mean. rewrite (Permutation_length P), ddiv_rnd.
  pose proof (grow_small _ S) as G. pose proof (exactly_abs l) as X. pose proof (magnitude_nonneg l) as M. pose proof u_val as [U0 U1].
  assert (N0 : 0 < inject_Z (Z.of_nat (length l))) by (apply (Zq_lt 0); lia).
  pose proof (rnd_error (fl_sum t / inject_Z (Z.of_nat (length l)))) as R.
  assert (Gn : grow (length l) == (1 + double_u) * grow (length l - 1)) by (destruct (length l); [lia|]; cbn [Nat.sub qpow]; rewrite Nat.sub_0_r; reflexivity).
  rewrite Gn in G. set (n := inject_Z (Z.of_nat (length l))) in *. set (g := grow (length l - 1)) in *.
  set (r := rnd (fl_sum t / n)) in *. set (s := fl_sum t) in *. set (x := exactly l) in *. set (A := magnitude l) in *. set (u := double_u) in *. clearbody r s x A u n g.
  clear S Gn E P.
  assert (SA : Qabs s <= g * A).
  { assert (Qabs s <= Qabs (s - x) + Qabs x) by (eapply Qle_trans; [|apply Qabs_triangle]; apply Qle_lteq; right; apply Qabs_wd; ring). lra. }
  assert (DV : forall q, Qabs (q / n) == Qabs q / n).
  { intros q. unfold Qdiv. rewrite Qabs_Qmult. rewrite (Qabs_pos (/ n)); [reflexivity|]. apply Qlt_le_weak, Qinv_lt_0_compat; auto. }
  rewrite DV in R.
  assert (T : Qabs (r - x / n) <= Qabs (r - s / n) + Qabs (s - x) / n).
  { rewrite <- DV. eapply Qle_trans; [|apply Qabs_triangle]. apply Qle_lteq; right; apply Qabs_wd. field. apply pos_neq; auto. }
  assert (I : 0 < / n) by (apply Qinv_lt_0_compat; auto).
  assert (B : u * (Qabs s / n) + Qabs (s - x) / n <= (((1 + u) * g - 1) * A) / n).
  { unfold Qdiv. setoid_replace (u * (Qabs s * / n) + Qabs (s - x) * / n) with ((u * Qabs s + Qabs (s - x)) * / n) by ring.
    apply Qmult_le_compat_r; [|lra]. assert (u * Qabs s <= u * (g * A)) by (rewrite !(Qmult_comm u); apply Qmult_le_compat_r; lra). lra. }
  assert (C : (((1 + u) * g - 1) * A) / n <= (1002 # 1000) * u * A).
  { apply Qle_shift_div_r; auto. eapply Qle_trans; [apply Qmult_le_compat_r; [exact G|auto]|]. apply Qle_lteq. right. ring. }
  lra.
Qed.
(** The mean of three equal numbers need not be that number. *)
Lemma mean_outside : exists x m, is_double x /\ averages_to [x; x; x] m /\ x < m.
Proof.
  exists (Qred (rnd (1 # 10))), (fl_mean (Plus (Plus (Term (Qred (rnd (1 # 10)))) (Term (Qred (rnd (1 # 10))))) (Term (Qred (rnd (1 # 10)))))).
  split; [apply dred_double|]. split.
  - eexists. split; [|reflexivity]. apply Permutation_refl.
  - vm_compute. reflexivity.
Qed.
(** The order of additions matters. *)
Lemma order_matters : exists l m m', Forall is_double l /\ averages_to l m /\ averages_to l m' /\ ~ m == m'.
Proof.
  set (a := Qred (rnd (1 # 10))). set (b := Qred (rnd (2 # 10))). set (c := Qred (rnd (3 # 10))).
  exists [a; b; c], (fl_mean (Plus (Plus (Term a) (Term b)) (Term c))), (fl_mean (Plus (Term a) (Plus (Term b) (Term c)))).
  split; [repeat (apply Forall_cons; [apply dred_double|]); apply Forall_nil|].
  split; [eexists; split; [|reflexivity]; apply Permutation_refl|].
  split; [eexists; split; [|reflexivity]; apply Permutation_refl|].
  vm_compute. discriminate.
Qed.
Lemma rnd_dadd_mono a b a' b' : a <= a' -> b <= b' -> dadd a b <= dadd a' b'.
Proof. intros. rewrite !dadd_rnd. apply rnd_mono. lra. Qed.
Lemma mean_mono s t : no_larger s t -> fl_mean s <= fl_mean t.
Proof.
  intros H. assert (L : length (terms s) = length (terms t)) by (induction H; cbn [terms]; rewrite ?app_length; auto).
  assert (S : fl_sum s <= fl_sum t) by (induction H; cbn [fl_sum]; auto; apply rnd_dadd_mono; [apply IHno_larger1|apply IHno_larger2]; cbn [terms] in L; auto;
    clear - H H0; [induction H | induction H0]; cbn [terms]; rewrite ?app_length; auto).
  unfold fl_mean. rewrite L, !ddiv_rnd. apply rnd_mono. unfold Qdiv. apply Qmult_le_compat_r; auto.
  pose proof (terms_pos t). apply Qlt_le_weak, Qinv_lt_0_compat. apply (Zq_lt 0). lia.
Qed.
Lemma report_close bs p : (cases bs <= 2 ^ 53)%Z -> reported bs p ->
  (exists e, nearest_double (inject_Z (occurrences bs) / inject_Z (cases bs)) e /\ p == e) /\ 0 <= p <= 1.
Proof. intros L R. split; [exact (report_nearest bs p L R) | exact (report_range bs p L R)]. Qed.
Lemma report_both (E : Type) (a b : E -> bool) es p q r : (cases (map b es) <= 2 ^ 53)%Z ->
  reported (map a (filter b es)) p -> reported (map b es) q -> reported (map (fun e => a e && b e) es) r ->
  Qabs (dmul p q - r) <= 5 * double_u * r.
Proof.
  intros L Rp Rq Rr.
  assert (A : occurrences (map b es) = cases (map a (filter b es))).
  { clear. unfold occurrences, cases. rewrite map_length. f_equal. induction es as [|e es IH]; [reflexivity|]. cbn [map filter]. destruct (b e); cbn [length]; rewrite ?IH; reflexivity. }
  assert (B : occurrences (map (fun e => a e && b e) es) = occurrences (map a (filter b es))).
  { clear. unfold occurrences. f_equal. induction es as [|e es IH]; [reflexivity|]. cbn [map filter]. destruct (b e); cbn [map filter length].
    - rewrite andb_true_r. destruct (a e); cbn [length]; rewrite ?IH; reflexivity.
    - rewrite andb_false_r. exact IH. }
  assert (C : cases (map (fun e => a e && b e) es) = cases (map b es)) by (unfold cases; rewrite !map_length; reflexivity).
  pose proof (occ_range (map a (filter b es))) as O1. pose proof (occ_range (map b es)) as O2. pose proof (reported_pos _ _ Rp) as N.
  pose proof (reported_rnd (map a (filter b es)) p ltac:(lia) Rp) as Ep. pose proof (reported_rnd (map b es) q L Rq) as Eq.
  pose proof (reported_rnd (map (fun e => a e && b e) es) r ltac:(lia) Rr) as Er. unfold share in *.
  rewrite B, C in Er. rewrite A in Eq.
  apply (report_chain (cases (map a (filter b es))) (occurrences (map a (filter b es))) (cases (map b es))); auto; lia.
Qed.
