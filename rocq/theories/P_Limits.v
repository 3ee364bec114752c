(** Extended arithmetic and limits. *)
From Coq Require Import Qabs Lqa.
From Verif Require Import Base M_Values SpecLimits.
Open Scope Q_scope.

Lemma ev_and (P R : nat -> Prop) : eventually P -> eventually R -> eventually (fun n => P n /\ R n).
Proof. intros [a A] [b B]. exists (Nat.max a b). intros n H. split; [apply A|apply B]; lia. Qed.
Lemma ev_imp (P R : nat -> Prop) : (forall n, P n -> R n) -> eventually P -> eventually R.
Proof. intros H [a A]. exists a. auto. Qed.
Lemma ev_and3 (P R T : nat -> Prop) : eventually P -> eventually R -> eventually T -> eventually (fun n => P n /\ R n /\ T n).
Proof. intros A B C. exact (ev_and _ _ A (ev_and _ _ B C)). Qed.
Lemma ev_false (P : nat -> Prop) : eventually P -> (forall n, ~ P n) -> False.
Proof. intros [a A] N. exact (N a (A a ltac:(lia))). Qed.

Lemma qabs_lt x e : Qabs x < e <-> - e < x /\ x < e.
Proof. apply Qabs_Qlt_condition. Qed.

Lemma tends_ext f g a : (forall n, f n == g n) -> tends f a -> tends g a.
Proof.
  intros E. destruct a as [q| | |]; cbn [tends xneg]; auto; intros H.
  - intros e P. apply (ev_imp _ _) with (2 := H e P). intros n. cbv beta. rewrite (E n). auto.
  - intros B. apply (ev_imp _ _) with (2 := H B). intros n. cbv beta. rewrite (E n). auto.
  - intros B. apply (ev_imp _ _) with (2 := H B). intros n. cbv beta. rewrite (E n). auto.
Qed.
Lemma tends_fin f q q' : q == q' -> tends f (Fin q) -> tends f (Fin q').
Proof. intros E H e P. apply (ev_imp _ _) with (2 := H e P). intros n. cbv beta. rewrite E. auto. Qed.
Lemma tends_neg f a : tends f a -> tends (fun n => - f n) (xneg a).
Proof.
  destruct a as [q| | |]; cbn [tends xneg]; auto; intros H.
  - intros e P. apply (ev_imp _ _) with (2 := H e P). intros n. rewrite !qabs_lt. lra.
  - intros B. apply (ev_imp _ _) with (2 := H (- B)). intros n. lra.
  - intros B. apply (ev_imp _ _) with (2 := H (- B)). intros n. lra.
Qed.
Lemma tends_neg' f a : tends (fun n => - f n) (xneg a) -> tends f a.
Proof.
  intros H. apply tends_neg in H. assert (K : tends f (xneg (xneg a))).
  { apply (tends_ext _ _ _) with (2 := H). intros n. lra. }
  destruct a as [q| | |]; auto. simpl in K. apply (tends_fin _ (- - q)); [lra|exact K].
Qed.

(* ---------------------------------------------------------------- sums *)
Lemma add_fin_fin f g p q : tends f (Fin p) -> tends g (Fin q) -> tends (fun n => f n + g n) (Fin (p + q)).
Proof.
  intros F G e P. apply (ev_imp _ _) with (2 := ev_and _ _ (F (e * (1#2)) ltac:(lra)) (G (e * (1#2)) ltac:(lra))).
  intros n. rewrite !qabs_lt. lra.
Qed.
Lemma add_fin_inf f g p : tends f (Fin p) -> tends g PInf -> tends (fun n => f n + g n) PInf.
Proof.
  intros F G B. apply (ev_imp _ _) with (2 := ev_and _ _ (F 1 ltac:(lra)) (G (B - p + 1))).
  intros n. rewrite !qabs_lt. lra.
Qed.
Lemma add_inf_inf f g : tends f PInf -> tends g PInf -> tends (fun n => f n + g n) PInf.
Proof. intros F G B. apply (ev_imp _ _) with (2 := ev_and _ _ (F 0) (G B)). intros n. lra. Qed.

Lemma sum_limit a b : xadd a b <> NaN -> determined Qplus a b (xadd a b).
Proof.
  intros N f g F G. destruct a as [p| | |], b as [q| | |]; simpl xadd in *; try congruence; try contradiction.
  - now apply add_fin_fin.
  - now apply (add_fin_inf _ _ p).
  - apply tends_neg'. apply tends_neg in F. apply tends_neg in G.
    apply (tends_ext (fun n => - f n + - g n)); [intros; lra|]. now apply (add_fin_inf _ _ (- p)).
  - apply (tends_ext (fun n => g n + f n)); [intros; lra|]. now apply (add_fin_inf _ _ q).
  - now apply add_inf_inf.
  - apply tends_neg'. apply tends_neg in F. apply tends_neg in G.
    apply (tends_ext (fun n => - g n + - f n)); [intros; lra|]. now apply (add_fin_inf _ _ (- q)).
  - apply tends_neg'. apply tends_neg in F. apply tends_neg in G.
    apply (tends_ext (fun n => - f n + - g n)); [intros; lra|]. now apply add_inf_inf.
Qed.

Definition up (n : nat) : Q := inject_Z (Z.of_nat n) + 1.
Lemma up_pos n : 1 <= up n.
Proof. unfold up. assert (0 <= inject_Z (Z.of_nat n)) by (change 0 with (inject_Z 0); rewrite <- Zle_Qle; lia). lra. Qed.
Lemma up_tends : tends up PInf.
Proof.
  intros B. exists (Z.to_nat (Qceiling B)). intros n H. pose proof (Qle_ceiling B).
  assert (inject_Z (Qceiling B) <= inject_Z (Z.of_nat n)) by (rewrite <- Zle_Qle; lia). unfold up. lra.
Qed.
Lemma const_tends q : tends (fun _ => q) (Fin q).
Proof. intros e P. exists O. intros n _. rewrite qabs_lt. lra. Qed.

Lemma sum_no_limit a b : finite_or_infinite a -> finite_or_infinite b -> xadd a b = NaN -> undetermined Qplus a b.
Proof.
  intros A B E. unfold finite_or_infinite in *.
  assert (U : undetermined Qplus PInf NInf).
  { exists up, (fun n => - up n), (Fin 0), (fun n => up n + up n), (fun n => - up n), PInf.
    assert (D := tends_neg _ _ up_tends). assert (T := up_tends).
    repeat split; auto.
    - apply (tends_ext (fun _ => 0)); [intros; lra|apply const_tends].
    - now apply add_inf_inf.
    - apply (tends_ext up); [intros; lra|auto]. }
  destruct a, b; try discriminate E; try congruence; auto.
  destruct U as (f & g & r & f' & g' & r' & H1 & H2 & H3 & H4 & H5 & H6 & H7).
  exists g, f, r, g', f', r'. repeat split; auto; [apply (tends_ext (fun n => f n + g n))|apply (tends_ext (fun n => f' n + g' n))]; auto; intros; lra.
Qed.

(* ---------------------------------------------------------------- products *)
Lemma tends_bounded f q : tends f (Fin q) -> eventually (fun n => Qabs (f n) < Qabs q + 1).
Proof.
  intros F. apply (ev_imp _ _) with (2 := F 1 ltac:(lra)). intros n H.
  pose proof (Qabs_triangle (f n - q) q) as T. setoid_replace (f n - q + q) with (f n) in T by ring. lra.
Qed.
Lemma mul_fin_fin f g p q : tends f (Fin p) -> tends g (Fin q) -> tends (fun n => f n * g n) (Fin (p * q)).
Proof.
  intros F G e P.
  assert (Mp : 0 < Qabs p + 1) by (pose proof (Qabs_nonneg p); lra).
  assert (Mq : 0 < Qabs q + 1) by (pose proof (Qabs_nonneg q); lra).
  assert (E1 : 0 < e * (1#2) / (Qabs q + 1)) by (apply Qlt_shift_div_l; lra).
  assert (E2 : 0 < e * (1#2) / (Qabs p + 1)) by (apply Qlt_shift_div_l; lra).
  apply (ev_imp _ _) with (2 := ev_and3 _ _ _ (F _ E1) (G _ E2) (tends_bounded _ _ F)).
  intros n (A & B & C).
  setoid_replace (f n * g n - p * q) with (f n * (g n - q) + q * (f n - p)) by ring.
  eapply Qle_lt_trans; [apply Qabs_triangle|]. rewrite !Qabs_Qmult.
  set (x := Qabs (f n)) in *. set (y := Qabs (g n - q)) in *. set (z := Qabs (f n - p)) in *.
  assert (0 <= x) by apply Qabs_nonneg. assert (0 <= y) by apply Qabs_nonneg. assert (0 <= z) by apply Qabs_nonneg.
  assert (X1 : x * y <= (Qabs p + 1) * y) by (apply Qmult_le_compat_r; lra).
  assert (X2 : (Qabs p + 1) * y < e * (1#2)).
  { apply Qlt_le_trans with ((Qabs p + 1) * (e * (1#2) / (Qabs p + 1))); [apply Qmult_lt_l; auto|]. apply Qle_lteq. right. field. lra. }
  assert (X3 : Qabs q * z <= (Qabs q + 1) * z) by (apply Qmult_le_compat_r; lra).
  assert (X4 : (Qabs q + 1) * z < e * (1#2)).
  { apply Qlt_le_trans with ((Qabs q + 1) * (e * (1#2) / (Qabs q + 1))); [apply Qmult_lt_l; auto|]. apply Qle_lteq. right. field. lra. }
  lra.
Qed.
Lemma mul_pos_inf f g c : 0 < c -> eventually (fun n => c < f n) -> tends g PInf -> tends (fun n => f n * g n) PInf.
Proof.
  intros C F G B.
  apply (ev_imp _ _) with (2 := ev_and3 _ _ _ F (G (B / c)) (G 0)). intros n (A & D & E).
  apply Qle_lt_trans with (c * (B / c)); [apply Qle_lteq; right; field; lra|].
  apply Qlt_trans with (c * g n); [apply Qmult_lt_l; auto|]. apply Qmult_lt_r; auto.
Qed.
Lemma fin_pos f p : 0 < p -> tends f (Fin p) -> eventually (fun n => p * (1#2) < f n).
Proof. intros P F. apply (ev_imp _ _) with (2 := F (p * (1#2)) ltac:(lra)). intros n. rewrite qabs_lt. lra. Qed.
Lemma mul_fin_inf f g p : 0 < p -> tends f (Fin p) -> tends g PInf -> tends (fun n => f n * g n) PInf.
Proof. intros P F G. apply (mul_pos_inf _ _ (p * (1#2))); auto; [lra|now apply fin_pos]. Qed.

(** [f * g] against [(-f) * g] and [f * (-g)]. *)
Lemma neg_left f g a : tends (fun n => - f n * g n) (xneg a) -> tends (fun n => f n * g n) a.
Proof. intros H. apply tends_neg'. apply (tends_ext _ _ _) with (2 := H). intros; ring. Qed.
Lemma neg_right f g a : tends (fun n => f n * - g n) (xneg a) -> tends (fun n => f n * g n) a.
Proof. intros H. apply tends_neg'. apply (tends_ext _ _ _) with (2 := H). intros; ring. Qed.
Lemma swap f g a : tends (fun n => g n * f n) a -> tends (fun n => f n * g n) a.
Proof. apply tends_ext. intros; ring. Qed.

Lemma prod_fin_any p b f g : (b = PInf \/ b = NInf) -> ~ p == 0 -> tends f (Fin p) -> tends g b ->
  tends (fun n => f n * g n) (xscale_inf b (qsign p)).
Proof.
  intros Hb Hp F G. unfold qsign. destruct (Qcompare_spec p 0) as [E|L|L]; [contradiction| |]; simpl xscale_inf.
  - apply tends_neg in F. simpl in F. apply neg_left. assert (P : 0 < - p) by lra.
    destruct Hb as [-> | ->]; simpl xneg.
    + now apply (mul_fin_inf _ _ (- p)).
    + apply neg_right. apply tends_neg in G. now apply (mul_fin_inf _ _ (- p)).
  - destruct Hb as [-> | ->]; [now apply (mul_fin_inf _ _ p)|].
    apply neg_right. apply tends_neg in G. now apply (mul_fin_inf _ _ p).
Qed.
Lemma scale_nan b p : b <> NaN -> xscale_inf b (qsign p) <> NaN -> ~ p == 0.
Proof. intros _ H E. apply H. unfold qsign. apply Qeq_alt in E. now rewrite E. Qed.
Lemma mul_inf_inf f g : tends f PInf -> tends g PInf -> tends (fun n => f n * g n) PInf.
Proof. intros F G. apply (mul_pos_inf _ _ 1); auto; lra. Qed.

Lemma product_limit a b : xmul a b <> NaN -> determined Qmult a b (xmul a b).
Proof.
  intros N f g F G.
  destruct a as [p| | |], b as [q| | |]; simpl xmul in *; try congruence; try contradiction.
  - now apply mul_fin_fin.
  - apply prod_fin_any; auto. apply (scale_nan PInf); congruence.
  - apply prod_fin_any; auto. apply (scale_nan NInf); congruence.
  - apply swap. apply prod_fin_any; auto. apply (scale_nan PInf); congruence.
  - now apply mul_inf_inf.
  - apply neg_right. apply tends_neg in G. now apply mul_inf_inf.
  - apply swap. apply prod_fin_any; auto. apply (scale_nan NInf); congruence.
  - apply neg_left. apply tends_neg in F. now apply mul_inf_inf.
  - apply neg_left. apply neg_right. apply tends_neg in F. apply tends_neg in G. now apply mul_inf_inf.
Qed.

Lemma inv_lt a b : 0 < a -> a < b -> / b < / a.
Proof.
  intros A L. apply Qmult_lt_l with (z := a); auto. apply Qmult_lt_r with (z := b); [lra|].
  setoid_replace (a * / b * b) with a by (field; lra). setoid_replace (a * / a * b) with b by (field; lra). exact L.
Qed.
Definition down (n : nat) : Q := / up n.
Lemma down_tends : tends down (Fin 0).
Proof.
  intros e P. apply (ev_imp _ _) with (2 := up_tends (/ e)). intros n H. pose proof (up_pos n). unfold down.
  rewrite Qabs_pos.
  - setoid_replace (/ up n - 0) with (/ up n) by ring. rewrite <- (Qinv_involutive e). apply inv_lt; auto.
    apply Qinv_lt_0_compat; auto.
  - setoid_replace (/ up n - 0) with (/ up n) by ring. apply Qinv_le_0_compat. lra.
Qed.
Lemma up_down n : up n * down n == 1.
Proof. unfold down. pose proof (up_pos n). field. lra. Qed.
Lemma zero_times_inf p b : p == 0 -> b = PInf \/ b = NInf -> undetermined Qmult (Fin p) b.
Proof.
  intros E Hb.
  exists (fun _ => 0), (match b with NInf => fun n => - up n | _ => up end), (Fin 0),
         down, (match b with NInf => fun n => - up n | _ => up end), (Fin (match b with NInf => -1 | _ => 1 end)).
  assert (U : tends (match b with NInf => fun n => - up n | _ => up end) b).
  { destruct Hb as [-> | ->]; [apply up_tends|apply (tends_neg _ _ up_tends)]. }
  split; [apply (tends_fin _ 0); [lra|apply const_tends]|]. split; [exact U|].
  split; [apply (tends_ext (fun _ => 0)); [intros; ring|apply const_tends]|].
  split; [apply (tends_fin _ 0); [lra|apply down_tends]|]. split; [exact U|]. split.
  - destruct Hb as [-> | ->].
    + apply (tends_ext (fun _ => 1)); [|apply const_tends]. intros n. pose proof (up_down n). lra.
    + apply (tends_ext (fun _ => -1)); [|apply const_tends]. intros n. pose proof (up_down n). lra.
  - destruct Hb as [-> | ->]; reflexivity.
Qed.
Lemma undetermined_swap a b : undetermined Qmult a b -> undetermined Qmult b a.
Proof.
  intros (f & g & r & f' & g' & r' & H1 & H2 & H3 & H4 & H5 & H6 & H7).
  exists g, f, r, g', f', r'. repeat split; auto; now apply swap.
Qed.
Lemma scale_is_nan b p : b = PInf \/ b = NInf -> xscale_inf b (qsign p) = NaN -> p == 0.
Proof. unfold qsign. intros [-> | ->]; destruct (Qcompare_spec p 0); simpl; auto; discriminate. Qed.
Lemma product_no_limit a b : finite_or_infinite a -> finite_or_infinite b -> xmul a b = NaN -> undetermined Qmult a b.
Proof.
  intros A B E. unfold finite_or_infinite in *.
  destruct a as [p| | |], b as [q| | |]; simpl xmul in E; try discriminate E; try congruence.
  - apply zero_times_inf; auto. apply (scale_is_nan PInf); auto.
  - apply zero_times_inf; auto. apply (scale_is_nan NInf); auto.
  - apply undetermined_swap, zero_times_inf; auto. apply (scale_is_nan PInf); auto.
  - apply undetermined_swap, zero_times_inf; auto. apply (scale_is_nan NInf); auto.
Qed.

(* ---------------------------------------------------------------- quotients *)
(** The limit of the reciprocals of positive-from-zero sequences. *)
Definition xinv (b : xnum) : xnum :=
  match b with Fin y => if Qeq_bool y 0 then PInf else Fin (/ y) | PInf | NInf => Fin 0 | NaN => NaN end.
Lemma inv_inf g : tends g PInf -> tends (fun n => / g n) (Fin 0).
Proof.
  intros G e P. apply (ev_imp _ _) with (2 := ev_and _ _ (G (/ e)) (G 0)). intros n [A B].
  setoid_replace (/ g n - 0) with (/ g n) by ring. rewrite Qabs_pos by (apply Qinv_le_0_compat; lra).
  rewrite <- (Qinv_involutive e). apply inv_lt; auto. apply Qinv_lt_0_compat; auto.
Qed.
Lemma inv_neg x : / - x == - / x.
Proof. destruct x as [[|n|n] d]; reflexivity. Qed.
Lemma inv_zero_pos g : tends g (Fin 0) -> (forall n, 0 < g n) -> tends (fun n => / g n) PInf.
Proof.
  intros G P B. set (c := if Qlt_le_dec 0 B then B else 1).
  assert (C : 0 < c /\ B <= c) by (unfold c; destruct (Qlt_le_dec 0 B); lra).
  apply (ev_imp _ _) with (2 := G (/ c) ltac:(apply Qinv_lt_0_compat; lra)). intros n H. pose proof (P n).
  rewrite qabs_lt in H. apply Qle_lt_trans with c; [lra|]. rewrite <- (Qinv_involutive c).
  apply inv_lt; lra.
Qed.
Lemma inv_fin_pos g q : 0 < q -> tends g (Fin q) -> tends (fun n => / g n) (Fin (/ q)).
Proof.
  intros Q0 G e P.
  assert (E1 : 0 < e * (q * q * (1#2))) by (repeat apply Qmult_lt_0_compat; auto; reflexivity).
  apply (ev_imp _ _) with (2 := ev_and _ _ (G _ E1) (fin_pos g q Q0 G)). intros n [A B].
  assert (Gp : 0 < g n) by lra.
  setoid_replace (/ g n - / q) with (- (g n - q) * (/ (g n * q))) by (field; split; lra).
  rewrite Qabs_Qmult, Qabs_opp. rewrite (Qabs_pos (/ _)) by (apply Qinv_le_0_compat; nra).
  assert (D : 0 < g n * q) by (apply Qmult_lt_0_compat; auto).
  change (Qabs (g n - q) * / (g n * q) < e) with (Qabs (g n - q) / (g n * q) < e).
  apply Qlt_shift_div_r; auto. apply Qlt_trans with (e * (q * q * (1#2))); auto. apply Qmult_lt_l; auto.
  setoid_replace (q * q * (1#2)) with (q * (1#2) * q) by field. apply Qmult_lt_r; auto.
Qed.
Lemma inv_limit b g : tends_pos g b -> tends (fun n => / g n) (xinv b).
Proof.
  intros [G P]. destruct b as [q| | |]; simpl xinv; [| | |contradiction].
  - simpl in P. destruct (Qeq_bool q 0) eqn:E.
    + apply Qeq_bool_iff in E. apply inv_zero_pos; auto. now apply (tends_fin _ q).
    + assert (~ q == 0) by (intros X; apply Qeq_bool_iff in X; congruence).
      destruct (Q_dec q 0) as [[L|L]|L]; [|now apply inv_fin_pos|contradiction].
      apply tends_neg'. apply tends_neg in G. simpl in G. simpl xneg.
      apply (tends_fin _ (/ - q)); [apply inv_neg|]. apply (tends_ext (fun n => / - g n)); [intros; apply inv_neg|].
      apply inv_fin_pos; auto. lra.
  - now apply inv_inf.
  - apply (tends_fin _ (- 0)); [reflexivity|]. apply tends_neg in G. simpl in G. apply inv_inf in G.
    apply tends_neg in G. simpl in G. apply (tends_ext (fun n => - / - g n)); [|exact G]. intros n. rewrite inv_neg. ring.
Qed.
Definition xsame' (a b : xnum) : Prop := match a, b with Fin p, Fin q => p == q | x, y => x = y end.
Lemma tends_same f a b : xsame' a b -> tends f a -> tends f b.
Proof. destruct a, b; cbn [xsame']; intros E; try discriminate E; auto. now apply tends_fin. Qed.
Lemma div_mul a b : xsame' (xmul a (xinv b)) (xdiv a b).
Proof.
  assert (Z : forall q, Qeq_bool q 0 = true -> qsign q = Eq) by (intros q H; apply Qeq_bool_iff, Qeq_alt in H; exact H).
  assert (I : forall q, Qeq_bool q 0 = false -> qsign (/ q) = qsign q).
  { intros [[|n|n] d] H; [discriminate H| |]; reflexivity. }
  destruct a as [p| | |], b as [q| | |]; try (simpl; reflexivity); simpl xinv; simpl xdiv;
    try (destruct (Qeq_bool q 0) eqn:E; simpl xmul; try rewrite (I q E); unfold xscale_inf, xsame';
         try reflexivity; try (destruct (qsign q); reflexivity); try (destruct (qsign p); reflexivity)).
  all: simpl; try ring.
Qed.
Lemma quotient_limit a b : xdiv a b <> NaN -> quotient_determined a b (xdiv a b).
Proof.
  intros N f g F G. assert (D := div_mul a b).
  assert (N' : xmul a (xinv b) <> NaN).
  { intros E. rewrite E in D. simpl in D. apply N. destruct (xdiv a b); congruence. }
  apply (tends_same _ _ _ D). exact (product_limit _ _ N' f _ F (inv_limit b g G)).
Qed.
Lemma quotient_no_limit a b : finite_or_infinite a -> finite_or_infinite b -> xdiv a b = NaN -> quotient_undetermined a b.
Proof.
  intros A B E. unfold finite_or_infinite in *.
  assert (T := up_tends). assert (Dn := tends_neg _ _ up_tends). simpl in Dn.
  assert (SQ : tends (fun n => up n * up n) PInf) by (now apply mul_inf_inf).
  destruct a as [p| | |], b as [q| | |]; simpl xdiv in E; try discriminate E; try congruence.
  - destruct (Qeq_bool q 0) eqn:Z; [|discriminate].
    assert (Zq : q == 0) by now apply Qeq_bool_iff.
    assert (Zp : p == 0) by (unfold qsign in E; destruct (Qcompare_spec p 0); auto; discriminate).
    exists (fun _ => 0), down, (Fin 0), down, down, (Fin 1).
    assert (Dp : forall n, 0 < down n) by (intros n; apply Qinv_lt_0_compat; pose proof (up_pos n); lra).
    assert (TD : tends_pos down (Fin q)) by (split; [apply (tends_fin _ 0); [lra|apply down_tends]|auto]).
    split; [apply (tends_fin _ 0); [lra|apply const_tends]|]. split; [exact TD|].
    split; [apply (tends_ext (fun _ => 0)); [|apply const_tends]; intros n; pose proof (Dp n); field; lra|].
    split; [apply (tends_fin _ 0); [lra|apply down_tends]|]. split; [exact TD|]. split; [|reflexivity].
    apply (tends_ext (fun _ => 1)); [|apply const_tends]. intros n. pose proof (Dp n). field. lra.
  - destruct (Qeq_bool q 0) eqn:Z; [discriminate|]. unfold qsign in E. destruct (Qcompare_spec q 0) as [X|X|X]; try discriminate.
    apply Qeq_bool_iff in X. congruence.
  - exists up, up, (Fin 1), (fun n => up n * up n), up, PInf.
    assert (TP : tends_pos up PInf) by (split; [auto|discriminate]). repeat split; auto; try discriminate.
    + apply (tends_ext (fun _ => 1)); [|apply const_tends]. intros n. pose proof (up_pos n). field. lra.
    + apply (tends_ext up); auto. intros n. pose proof (up_pos n). field. lra.
  - exists up, (fun n => - up n), (Fin (-1)), (fun n => up n * up n), (fun n => - up n), NInf.
    repeat split; auto; try discriminate.
    + apply (tends_ext (fun _ => -1)); [|apply const_tends]. intros n. pose proof (up_pos n). field. lra.
    + apply (tends_ext (fun n => - up n)); auto. intros n. pose proof (up_pos n). field. lra.
  - destruct (Qeq_bool q 0) eqn:Z; [discriminate|]. unfold qsign in E. destruct (Qcompare_spec q 0) as [X|X|X]; try discriminate.
    apply Qeq_bool_iff in X. congruence.
  - exists (fun n => - up n), up, (Fin (-1)), (fun n => - (up n * up n)), up, NInf.
    assert (S' := tends_neg _ _ SQ). simpl in S'. repeat split; auto; try discriminate.
    + apply (tends_ext (fun _ => -1)); [|apply const_tends]. intros n. pose proof (up_pos n). field. lra.
    + apply (tends_ext (fun n => - up n)); auto. intros n. pose proof (up_pos n). field. lra.
  - exists (fun n => - up n), (fun n => - up n), (Fin 1), (fun n => - (up n * up n)), (fun n => - up n), PInf.
    assert (S' := tends_neg _ _ SQ). simpl in S'. repeat split; auto; try discriminate.
    + apply (tends_ext (fun _ => 1)); [|apply const_tends]. intros n. pose proof (up_pos n). field. lra.
    + apply (tends_ext up); auto. intros n. pose proof (up_pos n). field. lra.
Qed.

(* ---------------------------------------------------------------- differences, negation *)
Lemma difference_limit a b : xsub a b <> NaN -> determined Qminus a b (xsub a b).
Proof.
  intros N f g F G. exact (sum_limit a (xneg b) N f _ F (tends_neg _ _ G)).
Qed.
Lemma difference_no_limit a b : finite_or_infinite a -> finite_or_infinite b -> xsub a b = NaN -> undetermined Qminus a b.
Proof.
  intros A B E. assert (B' : finite_or_infinite (xneg b)) by (unfold finite_or_infinite in *; destruct b; simpl; congruence).
  destruct (sum_no_limit a (xneg b) A B' E) as (f & g & r & f' & g' & r' & H1 & H2 & H3 & H4 & H5 & H6 & H7).
  exists f, (fun n => - g n), r, f', (fun n => - g' n), r'. repeat split; auto.
  - apply tends_neg'. apply (tends_ext g); [intros; lra|auto].
  - apply (tends_ext (fun n => f n + g n)); auto. intros; lra.
  - apply tends_neg'. apply (tends_ext g'); [intros; lra|auto].
  - apply (tends_ext (fun n => f' n + g' n)); auto. intros; lra.
Qed.

(* ---------------------------------------------------------------- comparisons *)
Definition approach (a : xnum) : nat -> Q :=
  match a with Fin q => fun _ => q | PInf => up | _ => fun n => - up n end.
Lemma approach_tends a : a <> NaN -> tends (approach a) a.
Proof. destruct a; intros H; [apply const_tends|apply up_tends|apply (tends_neg _ _ up_tends)|congruence]. Qed.
Lemma less_limit a b : finite_or_infinite a -> finite_or_infinite b ->
  (xlt a b = true <-> forall f g, tends f a -> tends g b -> eventually (fun n => f n < g n)).
Proof.
  intros A B. unfold finite_or_infinite in *. split.
  - intros L f g F G. destruct a as [p| | |], b as [q| | |]; simpl in L; try discriminate; try congruence.
    + unfold Qlt_bool in L. apply negb_true_iff in L.
      assert (LT : p < q). { apply Qnot_le_lt. intros X. apply Qle_bool_iff in X. congruence. }
      apply (ev_imp _ _) with (2 := ev_and _ _ (F ((q - p) * (1#2)) ltac:(lra)) (G ((q - p) * (1#2)) ltac:(lra))).
      intros n. rewrite !qabs_lt. lra.
    + apply (ev_imp _ _) with (2 := ev_and _ _ (F 1 ltac:(lra)) (G (p + 1))). intros n. rewrite qabs_lt. lra.
    + apply (ev_imp _ _) with (2 := ev_and _ _ (F (q - 1)) (G 1 ltac:(lra))). intros n. rewrite qabs_lt. lra.
    + apply (ev_imp _ _) with (2 := ev_and _ _ (F 0) (G 0)). intros n. lra.
  - intros H. destruct (xlt a b) eqn:E; auto. exfalso.
    assert (K := H _ _ (approach_tends a A) (approach_tends b B)).
    destruct a as [p| | |], b as [q| | |]; simpl in E; try discriminate; try congruence; simpl approach in K.
    + apply (ev_false _ K). intros n L. unfold Qlt_bool in E. apply negb_false_iff in E. apply Qle_bool_iff in E. lra.
    + apply (ev_false _ (ev_and _ _ K (tends_neg _ _ up_tends p))). intros n. lra.
    + apply (ev_false _ (ev_and _ _ K (up_tends q))). intros n. lra.
    + apply (ev_false _ K). intros n. lra.
    + apply (ev_false _ K). intros n. pose proof (up_pos n). lra.
    + apply (ev_false _ K). intros n. lra.
Qed.
Lemma xeq_spec a b : xeq a b = true <-> xsame' a b /\ a <> NaN.
Proof.
  unfold xeq, xsame'. destruct a as [p| | |], b as [q| | |]; rewrite ?Qeq_bool_iff;
    intuition (try discriminate; auto).
Qed.
Lemma limit_unique f a b : tends f a -> tends f b -> xsame' a b.
Proof.
  intros F G. destruct a as [p| | |], b as [q| | |]; simpl; auto; try contradiction.
  - destruct (Q_dec p q) as [[L|L]|L]; auto; exfalso.
    + apply (ev_false _ (ev_and _ _ (F ((q - p) * (1#2)) ltac:(lra)) (G ((q - p) * (1#2)) ltac:(lra)))). intros n. rewrite !qabs_lt. lra.
    + apply (ev_false _ (ev_and _ _ (F ((p - q) * (1#2)) ltac:(lra)) (G ((p - q) * (1#2)) ltac:(lra)))). intros n. rewrite !qabs_lt. lra.
  - exfalso. apply (ev_false _ (ev_and _ _ (F 1 ltac:(lra)) (G (p + 1)))). intros n. rewrite !qabs_lt. lra.
  - exfalso. apply (ev_false _ (ev_and _ _ (F 1 ltac:(lra)) (G (p - 1)))). intros n. rewrite !qabs_lt. lra.
  - exfalso. apply (ev_false _ (ev_and _ _ (G 1 ltac:(lra)) (F (q + 1)))). intros n. rewrite !qabs_lt. lra.
  - exfalso. apply (ev_false _ (ev_and _ _ (F 0) (G 0))). intros n. lra.
  - exfalso. apply (ev_false _ (ev_and _ _ (G 1 ltac:(lra)) (F (q - 1)))). intros n. rewrite !qabs_lt. lra.
  - exfalso. apply (ev_false _ (ev_and _ _ (F 0) (G 0))). intros n. lra.
Qed.
Lemma equal_limit a b : xeq a b = true <-> exists f, tends f a /\ tends f b.
Proof.
  rewrite xeq_spec. split.
  - intros [S N]. exists (approach a). split; [now apply approach_tends|]. apply (tends_same _ _ _ S). now apply approach_tends.
  - intros (f & F & G). split; [eapply limit_unique; eauto|]. intros ->. exact F.
Qed.

(* ---------------------------------------------------------------- floor division *)
(** By an infinity: the quotient of the fixed dividend approaches 0 from one side. *)
Lemma floor_div_infinite x b g : b = PInf \/ b = NInf -> tends g b ->
  exists z, xfloordiv (Fin x) b = Fin (inject_Z z) /\ eventually (fun n => Qfloor (x / g n) = z).
Proof.
  assert (Fl : forall q z, inject_Z z <= q -> q < inject_Z z + 1 -> Qfloor q = z).
  { intros q z L U. pose proof (Qfloor_le q). pose proof (Qlt_floor q).
    assert (inject_Z (Qfloor q) < inject_Z (z + 1)) by (rewrite inject_Z_plus; change (inject_Z 1) with 1; lra).
    assert (inject_Z z < inject_Z (Qfloor q + 1)) by lra. rewrite <- Zlt_Qlt in *. lia. }
  intros Hb G. unfold xfloordiv, qsign.
  assert (Pos : forall h, tends h PInf -> 0 <= x -> eventually (fun n => Qfloor (x / h n) = 0%Z)).
  { intros h H X. apply (ev_imp _ _) with (2 := ev_and _ _ (H x) (H 0)). intros n [A B]. apply Fl.
    - apply Qle_shift_div_l; auto. change (inject_Z 0) with 0. lra.
    - apply Qlt_shift_div_r; auto. change (inject_Z 0) with 0. lra. }
  assert (Neg : forall h, tends h PInf -> x < 0 -> eventually (fun n => Qfloor (x / h n) = (-1)%Z)).
  { intros h H X. apply (ev_imp _ _) with (2 := ev_and _ _ (H (- x)) (H 0)). intros n [A B]. apply Fl.
    - apply Qle_shift_div_l; auto. change (inject_Z (-1)) with (-1). lra.
    - apply Qlt_shift_div_r; auto. change (inject_Z (-1)) with (-1). lra. }
  destruct Hb as [-> | ->].
  - destruct (Qcompare_spec x 0) as [E|E|E]; eexists; (split; [reflexivity|]); [apply Pos|apply Neg|apply Pos]; auto; lra.
  - apply tends_neg in G. simpl in G.
    assert (Sw : forall n, x / g n == - x / - g n).
    { intros n. unfold Qdiv. rewrite inv_neg. ring. }
    assert (Pos' : x <= 0 -> eventually (fun n => Qfloor (x / g n) = 0%Z)).
    { intros X. apply (ev_imp _ _) with (2 := ev_and _ _ (G (- x)) (G 0)). intros n [A B]. apply Fl; rewrite Sw.
      - apply Qle_shift_div_l; auto. change (inject_Z 0) with 0. lra.
      - apply Qlt_shift_div_r; auto. change (inject_Z 0) with 0. lra. }
    assert (Neg' : 0 < x -> eventually (fun n => Qfloor (x / g n) = (-1)%Z)).
    { intros X. apply (ev_imp _ _) with (2 := ev_and _ _ (G x) (G 0)). intros n [A B]. apply Fl; rewrite Sw.
      - apply Qle_shift_div_l; auto. change (inject_Z (-1)) with (-1). lra.
      - apply Qlt_shift_div_r; auto. change (inject_Z (-1)) with (-1). lra. }
    destruct (Qcompare_spec x 0) as [E|E|E]; eexists; (split; [reflexivity|]); [apply Pos'|apply Pos'|apply Neg']; auto; lra.
Qed.

(* ---------------------------------------------------------------- the operators *)
Lemma nan_dec r : {r = NaN} + {r <> NaN}.
Proof. destruct r; (right; discriminate) || (left; reflexivity). Qed.
Lemma sums_ok pw arr a b : exists r, binop pw arr Add (PFlt a) (PFlt b) = Ok (PFlt r) /\ limit_of Qplus a b r.
Proof.
  exists (xadd a b). split; [reflexivity|]. split.
  - intros [-> | ->]; [reflexivity|destruct a; reflexivity].
  - intros A B. destruct (nan_dec (xadd a b)) as [E|E]; [right|left]; split; auto; [now apply sum_no_limit|now apply sum_limit].
Qed.
Lemma differences_ok pw arr a b : exists r, binop pw arr Sub (PFlt a) (PFlt b) = Ok (PFlt r) /\ limit_of Qminus a b r.
Proof.
  exists (xsub a b). split; [reflexivity|]. split.
  - intros [-> | ->]; [destruct b; reflexivity|destruct a; reflexivity].
  - intros A B. destruct (nan_dec (xsub a b)) as [E|E]; [right|left]; split; auto; [now apply difference_no_limit|now apply difference_limit].
Qed.
Lemma products_ok pw arr a b : exists r, binop pw arr Mul (PFlt a) (PFlt b) = Ok (PFlt r) /\ limit_of Qmult a b r.
Proof.
  exists (xmul a b). split; [reflexivity|]. split.
  - intros [-> | ->]; [destruct b; reflexivity|destruct a; reflexivity].
  - intros A B. destruct (nan_dec (xmul a b)) as [E|E]; [right|left]; split; auto; [now apply product_no_limit|now apply product_limit].
Qed.
Lemma quotients_ok pw arr a b : arr = true \/ xeq b (Fin 0) = false ->
  exists r, binop pw arr Div (PFlt a) (PFlt b) = Ok (PFlt r) /\ quotient_of a b r.
Proof.
  intros H. exists (xdiv a b). split.
  - cbn [binop as_x fop]. destruct (xzero b && negb arr) eqn:E; [|reflexivity]. apply andb_prop in E as [Z N].
    destruct H as [-> |H]; [discriminate|]. unfold xzero in Z. destruct b; try discriminate. cbn [xeq] in H. congruence.
  - split.
    + intros [-> | ->]; [destruct b; reflexivity|destruct a; reflexivity].
    + intros A B. destruct (nan_dec (xdiv a b)) as [E|E]; [right|left]; split; auto; [now apply quotient_no_limit|now apply quotient_limit].
Qed.
Lemma quotient_by_zero pw a b : xeq b (Fin 0) = true ->
  binop pw false Div (PFlt a) (PFlt b) = Err ZeroDivisionError /\ binop pw false FloorDiv (PFlt a) (PFlt b) = Err ZeroDivisionError.
Proof.
  intros H. destruct b; try discriminate. cbn [xeq] in H. cbn [binop as_x fop xzero]. rewrite H. split; reflexivity.
Qed.
Lemma comparisons_ok pw arr a b :
  exists lt le, binop pw arr Lt (PFlt a) (PFlt b) = Ok (PBool lt) /\ binop pw arr Gt (PFlt b) (PFlt a) = Ok (PBool lt) /\
    binop pw arr Le (PFlt a) (PFlt b) = Ok (PBool le) /\ binop pw arr Ge (PFlt b) (PFlt a) = Ok (PBool le) /\
  (a = NaN \/ b = NaN -> lt = false /\ le = false) /\
  (a <> NaN -> b <> NaN -> (lt = true <-> forall f g, tends f a -> tends g b -> eventually (fun n => f n < g n)) /\
    (le = true <-> lt = true \/ exists f, tends f a /\ tends f b)).
Proof.
  exists (xlt a b), (xle a b). repeat (split; [reflexivity|]). split.
  - intros [-> | ->]; [split; reflexivity|destruct a; split; reflexivity].
  - intros A B. split; [now apply less_limit|]. unfold xle. rewrite orb_true_iff, equal_limit. reflexivity.
Qed.
Lemma floor_by_infinity pw arr x b : b = PInf \/ b = NInf ->
  exists z, binop pw arr FloorDiv (PFlt (Fin x)) (PFlt b) = Ok (PFlt (Fin (inject_Z z))) /\
  forall g, tends g b -> eventually (fun n => Qfloor (x / g n) = z).
Proof.
  intros Hb. destruct (floor_div_infinite x b (approach b) Hb) as (z & E & _).
  { apply approach_tends. destruct Hb; subst; discriminate. }
  exists z. split.
  - cbn [binop as_x fop]. destruct Hb; subst; cbn [xzero]; rewrite E; reflexivity.
  - intros g G. destruct (floor_div_infinite x b g Hb G) as (z' & E' & V). rewrite E in E'.
    assert (inject_Z z = inject_Z z') as K by congruence. injection K as ->. exact V.
Qed.
