(** Lemmas: sums, differences, quotients and comparisons of IEEE numbers; where the range
    of the exponent matters. *)
From Coq Require Import Qabs Lqa.
From Verif Require Import Base M_Values M_Ops M_Double M_Ieee SpecIeee P_Support P_Round P_Double P_Ieee.
From Coq.Floats Require Import SpecFloat.
Open Scope Q_scope.

(* ------------------------------------------------- sums *)
Lemma shift_val d m : Zpos (shift_pos d m) = (Zpos m * 2 ^ Zpos d)%Z.
Proof. rewrite shift_pos_correct, Z.mul_comm. reflexivity. Qed.
Lemma binary_round_rounds s m e :
  same (value (binary_round 53 1024 s m e)) (signed s (round64_pos (inject_Z (Zpos m) * pow2 e))).
Proof.
  unfold binary_round, shl_align. set (F := fexp64 (Zpos (digits2_pos m) + e)).
  destruct (F - e)%Z as [|p|p] eqn:D.
  - apply aux_rounds; [apply exact_at; lia|reflexivity|]. cbn [Zdigits2]. fold F. lia.
  - apply aux_rounds; [apply exact_at; lia|reflexivity|]. cbn [Zdigits2]. fold F. lia.
  - assert (Dg : Zdigits2 (Zpos (shift_pos p m)) = (Zpos (digits2_pos m) + Zpos p)%Z).
    { cbn [Zdigits2]. apply digits_unique; [|lia]. rewrite shift_val. pose proof (digits_pos m) as G.
      replace (Zpos (digits2_pos m) + Zpos p - 1)%Z with (Zpos (digits2_pos m) - 1 + Zpos p)%Z by lia.
      rewrite !Z.pow_add_r by lia. assert (0 < 2 ^ Zpos p)%Z by (apply Z.pow_pos_nonneg; lia). nia. }
    assert (R : same (value (aux s (Zpos (shift_pos p m)) F loc_Exact)) (signed s (round64_pos (inject_Z (Zpos (shift_pos p m)) * pow2 F)))).
    { apply aux_rounds; [apply exact_at; lia|reflexivity|]. rewrite Dg.
      replace (Zpos (digits2_pos m) + Zpos p + F)%Z with (Zpos (digits2_pos m) + e)%Z by lia. fold F. lia. }
    eapply same_trans; [exact R|].
    assert (E : inject_Z (Zpos (shift_pos p m)) * pow2 F == inject_Z (Zpos m) * pow2 e).
    { rewrite shift_val, inject_Z_mult, <- (pow2_Z (Zpos p)), <- Qmult_assoc, <- pow2_plus by lia.
      replace (Zpos p + F)%Z with e by lia. reflexivity. }
    destruct s; cbn [signed]; [apply same_neg|]; (apply round64_pos_compat; [apply pos_val|exact E]).
Qed.
Lemma normalize_rounds z e b q : q == inject_Z z * pow2 e ->
  same (value (binary_normalize 53 1024 z e b)) (round64 (Fin q)).
Proof.
  intros E. destruct z as [|p|p]; cbn [binary_normalize].
  - apply same_trans with (round64 (Fin 0)); [apply same_refl|]. apply round64_compat. rewrite E. change (inject_Z 0) with 0. ring.
  - eapply same_trans; [apply binary_round_rounds|]. apply signed_round; [apply pos_val|]. exact E.
  - eapply same_trans; [apply binary_round_rounds|]. apply signed_round; [apply pos_val|]. rewrite E.
    change (inject_Z (Zneg p)) with (- inject_Z (Zpos p)). ring.
Qed.
Lemma align_val m e f : (f <= e)%Z -> inject_Z (Zpos (fst (shl_align m e f))) * pow2 f == inject_Z (Zpos m) * pow2 e.
Proof.
  intro L. unfold shl_align. destruct (f - e)%Z as [|p|p] eqn:D; cbn [fst].
  - replace f with e by lia. reflexivity.
  - lia.
  - rewrite shift_val, inject_Z_mult, <- (pow2_Z (Zpos p)), <- Qmult_assoc, <- pow2_plus by lia.
    replace (Zpos p + f)%Z with e by lia. reflexivity.
Qed.
Lemma opp_val (s : bool) m e x : inject_Z (Zpos m) * pow2 e == x -> inject_Z (cond_Zopp s (Zpos m)) * pow2 e == if s then - x else x.
Proof. intro E. destruct s; cbn [cond_Zopp]; rewrite ?inject_Z_opp, <- E; ring. Qed.
Lemma add_rounds x y : ieee x -> ieee y -> same (value (SFadd 53 1024 x y)) (round64 (xadd (value x) (value y))).
Proof.
  destruct x as [sx|sx| |sx mx ex], y as [sy|sy| |sy my ey]; intros X Y; try exact I;
    try (destruct sx, sy; exact I); try (destruct sx; exact I); try (destruct sy; exact I).
  - destruct sx, sy; apply same_refl.
  - eapply same_trans; [apply valid_exact, Y|]. cbn [value xadd]. apply round64_compat. ring.
  - eapply same_trans; [apply valid_exact, X|]. cbn [value xadd]. apply round64_compat. ring.
  - cbn [SFadd]. cbv zeta. cbn [value xadd]. apply normalize_rounds. fold (pow2 ex). fold (pow2 ey).
    rewrite inject_Z_plus, Qmult_plus_distr_l.
    rewrite (opp_val sx _ _ _ (align_val mx ex (Z.min ex ey) (Z.le_min_l _ _))).
    rewrite (opp_val sy _ _ _ (align_val my ey (Z.min ex ey) (Z.le_min_r _ _))). now rewrite !val_finite.
Qed.

(* ------------------------------------------------- differences *)
Lemma sub_add x y : SFsub 53 1024 x y = SFadd 53 1024 x (SFopp y).
Proof.
  destruct x as [sx|sx| |sx mx ex], y as [sy|sy| |sy my ey]; try reflexivity.
  cbn [SFsub SFadd SFopp]. cbv zeta. f_equal. destruct sy; cbn [cond_Zopp negb]; lia.
Qed.
Lemma ieee_opp y : ieee y -> ieee (SFopp y).
Proof. destruct y; auto. Qed.
Lemma value_opp y : same (value (SFopp y)) (xneg (value y)).
Proof.
  destruct y as [s|s| |s m e]; try (destruct s; exact I); try exact I; try reflexivity.
  cbn [SFopp value xneg same]. fold (pow2 e). rewrite !val_finite. destruct s; cbn [negb]; ring.
Qed.
Lemma same_add a b c : same b c -> same (round64 (xadd a b)) (round64 (xadd a c)).
Proof.
  destruct a, b, c; intro H; cbn [same] in H; try contradiction; try exact I; try apply same_refl.
  cbn [xadd]. apply round64_compat. now rewrite H.
Qed.
Lemma sub_rounds x y : ieee x -> ieee y -> same (value (SFsub 53 1024 x y)) (round64 (xsub (value x) (value y))).
Proof.
  intros X Y. rewrite sub_add. eapply same_trans; [apply add_rounds; auto; now apply ieee_opp|].
  apply same_add, value_opp.
Qed.

(* ------------------------------------------------- quotients *)
Lemma location_at q r b : (0 <= q)%Z -> (0 <= r < b)%Z ->
  at_ (shr_record_of_loc q (new_location b r)) (inject_Z (b * q + r) / inject_Z b).
Proof.
  intros Qp R. assert (B : 0 < inject_Z b) by (change 0 with (inject_Z 0); rewrite <- Zlt_Qlt; lia).
  assert (E : inject_Z (b * q + r) / inject_Z b == inject_Z q + inject_Z r / inject_Z b).
  { rewrite inject_Z_plus, inject_Z_mult. field. lra. }
  eapply at_compat; [symmetry; exact E|]. clear E.
  assert (R0 : (inject_Z r / inject_Z b < 1#2 <-> (2 * r < b)%Z) /\ (inject_Z r / inject_Z b == 1 # 2 <-> (2 * r = b)%Z) /\ ((1#2) < inject_Z r / inject_Z b <-> (b < 2 * r)%Z)).
  { assert (T : inject_Z (2 * r) == 2 * inject_Z r) by (rewrite inject_Z_mult; reflexivity).
    assert (G : inject_Z r == inject_Z r / inject_Z b * inject_Z b) by (field; lra).
    set (z := inject_Z r / inject_Z b) in *.
    rewrite !Zlt_Qlt, T. split; [|split]; split; intro H.
    - nra.
    - destruct (Qlt_le_dec z (1#2)) as [|C]; auto. nra.
    - assert (HH : inject_Z (2 * r) == inject_Z b) by (rewrite T, G, H; ring). exact (proj1 (inject_Z_injective _ _) HH).
    - assert (HH : inject_Z (2 * r) == inject_Z b) by (rewrite H; reflexivity). rewrite T in HH. apply Qle_antisym; nra.
    - nra.
    - destruct (Qlt_le_dec (1#2) z) as [|C]; auto. nra. }
  destruct R0 as (Lo & Eq & Hi). 
  assert (P0 : (0 < r)%Z -> 0 < inject_Z r / inject_Z b).
  { intro H. apply Qlt_shift_div_l; auto. rewrite Qmult_0_l. change 0 with (inject_Z 0). now rewrite <- Zlt_Qlt. }
  assert (P1 : inject_Z r / inject_Z b < 1).
  { apply Qlt_shift_div_r; auto. rewrite Qmult_1_l. rewrite <- Zlt_Qlt. lia. }
  split; [unfold new_location, new_location_even, new_location_odd; destruct (Z.even b), (Zeq_bool r 0); try exact Qp;
    [destruct (2 * r ?= b)%Z|destruct (2 * r + 1 ?= b)%Z]; exact Qp|].
  unfold new_location, new_location_even, new_location_odd.
  assert (Z0 : inject_Z 0 / inject_Z b == 0) by (change (inject_Z 0) with 0; field; lra).
  destruct (Z.even b) eqn:Ev; cbv beta; destruct (Zeq_bool r 0) eqn:Zr.
  - apply Zeq_bool_eq in Zr. subst r. cbn [shr_record_of_loc shr_m shr_r shr_s]; cbv zeta. rewrite Z0. ring.
  - apply Zeq_bool_neq in Zr. assert (RP : (0 < r)%Z) by lia. specialize (P0 RP).
    destruct (Z.compare_spec (2 * r) b) as [C|C|C]; cbn [shr_record_of_loc shr_m shr_r shr_s]; cbv zeta.
    + apply (proj2 Eq) in C. lra.
    + apply (proj2 Lo) in C. lra.
    + apply (proj2 Hi) in C. lra.
  - apply Zeq_bool_eq in Zr. subst r. cbn [shr_record_of_loc shr_m shr_r shr_s]; cbv zeta. rewrite Z0. ring.
  - apply Zeq_bool_neq in Zr. assert (RP : (0 < r)%Z) by lia. specialize (P0 RP).
    assert (Od : (2 * r <> b)%Z) by (intro C; rewrite <- C, Z.even_mul in Ev; discriminate Ev).
    destruct (Z.compare_spec (2 * r + 1) b) as [C|C|C]; cbn [shr_record_of_loc shr_m shr_r shr_s]; cbv zeta.
    + assert (C' : (2 * r < b)%Z) by lia. apply (proj2 Lo) in C'. lra.
    + assert (C' : (2 * r < b)%Z) by lia. apply (proj2 Lo) in C'. lra.
    + assert (C' : (b < 2 * r)%Z) by lia. apply (proj2 Hi) in C'. lra.
Qed.
Lemma val_nonzero (s : bool) m e : ~ inject_Z (if s then Zneg m else Zpos m) * pow2 e == 0.
Proof.
  intro Z. pose proof (pos_val m e) as P. pose proof (Qeq_trans _ _ _ (Qeq_sym _ _ (val_finite s m e)) Z) as V. clear Z.
  destruct s; set (x := inject_Z (Zpos m) * pow2 e) in *; clearbody x; lra.
Qed.
Lemma val_nonzero_b (s : bool) m e : Qeq_bool (inject_Z (if s then Zneg m else Zpos m) * pow2 e) 0 = false.
Proof. destruct (Qeq_bool _ 0) eqn:Z; auto. apply Qeq_bool_eq in Z. now apply val_nonzero in Z. Qed.
Lemma div_finite sx mx ex sy my ey : ieee (S754_finite sx mx ex) -> ieee (S754_finite sy my ey) ->
  same (value (SFdiv 53 1024 (S754_finite sx mx ex) (S754_finite sy my ey)))
       (round64 (xdiv (value (S754_finite sx mx ex)) (value (S754_finite sy my ey)))).
Proof.
  intros X Y. cbn [SFdiv]. unfold SFdiv_core_binary. cbn [Zdigits2].
  set (D := (Zpos (digits2_pos mx) + ex - (Zpos (digits2_pos my) + ey))%Z).
  set (e := Z.min (fexp64 D) (ex - ey)). set (s := (ex - ey - e)%Z).
  assert (S0 : (0 <= s)%Z) by (unfold s, e; lia).
  assert (M : (match s with Z0 => Zpos mx | Zpos _ => Z.shiftl (Zpos mx) s | Zneg _ => 0 end = Zpos mx * 2 ^ s)%Z).
  { destruct s eqn:Es; [lia| |lia]. rewrite Z.shiftl_mul_pow2 by lia. reflexivity. }
  rewrite M. pose proof (Z_div_mod (Zpos mx * 2 ^ s) (Zpos my) eq_refl) as DM.
  destruct (Z.div_eucl (Zpos mx * 2 ^ s) (Zpos my)) as [q r]. destruct DM as [E R].
  assert (P2 : (0 < 2 ^ s)%Z) by (apply Z.pow_pos_nonneg; lia).
  assert (Q0 : (0 <= q)%Z) by nia.
  pose proof (location_at q r (Zpos my) Q0 R) as A. rewrite <- E in A.
  set (y := inject_Z (Zpos mx * 2 ^ s) / inject_Z (Zpos my)) in *.
  assert (My : 0 < inject_Z (Zpos my)) by reflexivity.
  assert (Mx : 0 < inject_Z (Zpos mx)) by reflexivity.
  assert (Y0 : 0 < y).
  { unfold y. apply Qlt_shift_div_l; auto. rewrite Qmult_0_l. change 0 with (inject_Z 0). rewrite <- Zlt_Qlt. nia. }
  assert (Val : y * pow2 e == (inject_Z (Zpos mx) * pow2 ex) / (inject_Z (Zpos my) * pow2 ey)).
  { unfold y. rewrite inject_Z_mult, <- (pow2_Z s) by lia.
    assert (Pe : pow2 ex == pow2 s * pow2 e * pow2 ey) by (rewrite <- !pow2_plus; replace (s + e + ey)%Z with ex by (unfold s; lia); reflexivity).
    rewrite Pe. pose proof (pow2_pos ey). field. split; lra. }
  assert (En : (e <= fexp64 (Zdigits2 q + e))%Z).
  { rewrite fexp64_eq. destruct (Z_le_gt_dec e (-1074)) as [|G]; [lia|].
    assert (De : (e <= D - 53)%Z) by (unfold e in *; rewrite fexp64_eq in *; lia).
    assert (Qq : (2 ^ 52 <= q)%Z).
    { assert (H : (2 ^ 52 * Zpos my <= Zpos mx * 2 ^ s)%Z).
      { pose proof (digits_pos mx) as Dx. pose proof (digits_pos my) as Dy.
        set (a := Zpos (digits2_pos mx)) in *. set (b := Zpos (digits2_pos my)) in *.
        assert (0 < a)%Z by (unfold a; lia). assert (0 < b)%Z by (unfold b; lia).
        assert (Sb : (52 + b <= a - 1 + s)%Z) by (unfold s, D in *; lia).
        pose proof (Z.pow_le_mono_r 2 (52 + b) (a - 1 + s) ltac:(lia) Sb) as Pm.
        rewrite !Z.pow_add_r in Pm by lia. assert (0 < 2 ^ 52)%Z by lia. nia. }
      nia. }
    apply digits_enough in Qq. lia. }
  eapply same_trans; [apply (aux_rounds _ _ _ _ y A Y0 En)|].
  cbn [value xdiv]. fold (pow2 ex). fold (pow2 ey).
  pose proof (pos_val my ey) as Py.
  rewrite val_nonzero_b. apply signed_round; [pose proof (pow2_pos e); nra|].
  rewrite !val_finite. revert Val Py. generalize (inject_Z (Zpos my) * pow2 ey) (inject_Z (Zpos mx) * pow2 ex) (y * pow2 e).
  intros c a v Val Py. destruct sx, sy; cbn [xorb]; rewrite Val; field; lra.
Qed.
Lemma div_rounds x y : ieee x -> ieee y -> y <> S754_zero true ->
  same (value (SFdiv 53 1024 x y)) (round64 (xdiv (value x) (value y))).
Proof.
  destruct x as [sx|sx| |sx mx ex], y as [sy|sy| |sy my ey]; intros X Y N; try exact I;
    try (destruct sx, sy; exact I); try (destruct sx; exact I); try (destruct sy; exact I).
  - destruct sy; apply same_refl.
  - cbn [SFdiv value xdiv]. fold (pow2 ey). rewrite val_nonzero_b.
    apply same_trans with (round64 (Fin 0)); [apply same_refl|]. apply round64_compat. unfold Qdiv. ring.
  - destruct sx, sy; try exact I; congruence.
  - destruct sx; cbn [SFdiv value xdiv]; fold (pow2 ey); rewrite val_nonzero_b, sign_of; destruct sy; exact I.
  - destruct sy; [congruence|]. cbn [SFdiv value xdiv]. fold (pow2 ex). change (Qeq_bool 0 0) with true. cbv iota.
    rewrite sign_of. destruct sx; exact I.
  - destruct sy; apply same_refl.
  - now apply div_finite.
Qed.

(* ------------------------------------------------- comparisons *)
Lemma lower_exponent s m e s' m' e' : ieee (S754_finite s m e) -> ieee (S754_finite s' m' e') -> (e < e')%Z ->
  inject_Z (Zpos m) * pow2 e < inject_Z (Zpos m') * pow2 e'.
Proof.
  intros V V' L. destruct (valid_mantissa _ _ _ V) as [M _]. destruct (valid_mantissa _ _ _ V') as [_ M'].
  destruct (valid_cases _ _ _ V) as [C _].
  apply Qlt_le_trans with (inject_Z (2 ^ 53) * pow2 e).
  - apply Qmult_lt_compat_r; [apply pow2_pos|]. rewrite <- Zlt_Qlt. lia.
  - apply Qle_trans with (inject_Z (2 ^ 52) * pow2 e').
    + rewrite <- (pow2_Z 53), <- (pow2_Z 52), <- !pow2_plus by lia. apply pow2_mono. lia.
    + apply Qmult_le_compat_r; [|pose proof (pow2_pos e'); lra]. rewrite <- Zle_Qle. apply M'. lia.
Qed.
Lemma compare_pos s m e s' m' e' : ieee (S754_finite s m e) -> ieee (S754_finite s' m' e') ->
  (match (e ?= e')%Z with Datatypes.Lt => Datatypes.Lt | Datatypes.Gt => Datatypes.Gt | Datatypes.Eq => Pcompare m m' Datatypes.Eq end) =
  (inject_Z (Zpos m) * pow2 e ?= inject_Z (Zpos m') * pow2 e').
Proof.
  intros V V'. symmetry. destruct (Z.compare_spec e e') as [->|L|L].
  - pose proof (pow2_pos e') as P. change (Pcompare m m' Datatypes.Eq) with (Pos.compare m m').
    destruct (Pos.compare_spec m m') as [->|C|C].
    + apply (proj1 (Qeq_alt _ _)). reflexivity.
    + apply (proj1 (Qlt_alt _ _)). apply Qmult_lt_compat_r; auto. rewrite <- Zlt_Qlt. lia.
    + apply (proj1 (Qgt_alt _ _)). apply Qmult_lt_compat_r; auto. rewrite <- Zlt_Qlt. lia.
  - apply (proj1 (Qlt_alt _ _)). eapply lower_exponent; eauto.
  - apply (proj1 (Qgt_alt _ _)). eapply lower_exponent; eauto.
Qed.
Lemma compare_opp a b : (- a ?= - b) = CompOpp (a ?= b).
Proof.
  destruct (Qcompare_spec a b) as [C|C|C]; cbn [CompOpp].
  - apply (proj1 (Qeq_alt _ _)). now rewrite C.
  - apply (proj1 (Qgt_alt _ _)). lra.
  - apply (proj1 (Qlt_alt _ _)). lra.
Qed.
Lemma compare_finite x y a b : ieee x -> ieee y -> value x = Fin a -> value y = Fin b -> SFcompare x y = Some (a ?= b).
Proof.
  destruct x as [sx|sx| |sx mx ex], y as [sy|sy| |sy my ey]; intros X Y; cbn [value]; try discriminate;
    try (destruct sx; discriminate); try (destruct sy; discriminate); intros Ea Eb; inversion Ea; inversion Eb; subst a b; clear Ea Eb.
  - reflexivity.
  - cbn [SFcompare]. fold (pow2 ey). f_equal. pose proof (pos_val my ey) as P. pose proof (val_finite sy my ey) as V.
    destruct sy; symmetry.
    + apply (proj1 (Qgt_alt _ _)). rewrite V. lra.
    + apply (proj1 (Qlt_alt _ _)). exact P.
  - cbn [SFcompare]. fold (pow2 ex). f_equal. symmetry. apply sign_of.
  - cbn [SFcompare]. fold (pow2 ex). fold (pow2 ey). f_equal.
    pose proof (pos_val mx ex) as Px. pose proof (pos_val my ey) as Py.
    pose proof (val_finite sx mx ex) as Vx. pose proof (val_finite sy my ey) as Vy.
    pose proof (compare_pos _ _ _ _ _ _ X Y) as C. rewrite (Qcompare_comp _ _ Vx _ _ Vy).
    destruct sx, sy.
    + rewrite compare_opp, <- C. destruct (ex ?= ey)%Z; reflexivity.
    + symmetry. apply (proj1 (Qlt_alt _ _)). lra.
    + symmetry. apply (proj1 (Qgt_alt _ _)). lra.
    + exact C.
Qed.
Lemma compare_values x y : ieee x -> ieee y ->
  SFltb x y = xlt (value x) (value y) /\ SFeqb x y = xeq (value x) (value y).
Proof.
  intros X Y. destruct (value x) as [a| | |] eqn:Ex, (value y) as [b| | |] eqn:Ey.
  { unfold SFltb, SFeqb. rewrite (compare_finite x y a b X Y Ex Ey). cbn [xlt xeq]. split.
    + destruct (Qcompare_spec a b) as [C|C|C]; symmetry; [apply qlt_false; lra|apply qlt_true; lra|apply qlt_false; lra].
    + destruct (Qcompare_spec a b) as [C|C|C]; symmetry; [apply Qeq_bool_iff; lra| |];
        (destruct (Qeq_bool a b) eqn:Z; auto; apply Qeq_bool_eq in Z; lra). }
  all: destruct x as [|[]| |], y as [|[]| |]; try discriminate; split; reflexivity.
Qed.

(* ------------------------------------------------- the range *)
Lemma normal_digit x : pow2 (-1022) <= x -> (-1074 <= last_digit x)%Z.
Proof.
  intro H. assert (P : 0 < x) by (pose proof (pow2_pos (-1022)); lra). destruct (last_digit_range x P) as [_ B].
  destruct (Z_le_gt_dec (-1074) (last_digit x)) as [|G]; auto.
  pose proof (pow2_mono (last_digit x + 53) (-1022) ltac:(lia)). lra.
Qed.
Lemma round64_pos_normal x : pow2 (-1022) <= x -> round64_pos x = if Qlt_bool (rnd_pos x) (pow2 1024) then Fin (rnd_pos x) else PInf.
Proof. intro H. pose proof (normal_digit x H). unfold round64_pos. rewrite Z.max_l by lia. reflexivity. Qed.
Lemma rnd_pos_nonneg x : 0 < x -> 0 <= rnd_pos x.
Proof. intro P. destruct (rnd_pos_bounds x P) as [A _]. pose proof (pow2_pos (last_digit x + 52)). lra. Qed.
Lemma normal_rounds q : pow2 (-1022) <= Qabs q -> limited q (rnd q) (round64 (Fin q)).
Proof.
  intro H. pose proof (pow2_pos (-1022)) as P0. pose proof (pow2_pos 1024) as P1.
  destruct (round64_cases q) as [[A ->]|[[A ->]|[A ->]]].
  - rewrite A in H. change (Qabs 0) with 0 in H. lra.
  - destruct (rnd_cases q) as [[E _]|[[_ ->]|[E _]]]; try lra. rewrite Qabs_pos in H by lra.
    rewrite (round64_pos_normal q H). pose proof (rnd_pos_nonneg q A) as N. split; intro L; rewrite Qabs_pos in L by auto.
    + assert (Qlt_bool (rnd_pos q) (pow2 1024) = true) as -> by now apply qlt_true. apply same_refl.
    + assert (Qlt_bool (rnd_pos q) (pow2 1024) = false) as -> by now apply qlt_false.
      assert (Qlt_bool q 0 = false) as -> by (apply qlt_false; lra). exact I.
  - destruct (rnd_cases q) as [[E _]|[[E _]|[_ ->]]]; try lra. rewrite Qabs_neg in H by lra.
    rewrite (round64_pos_normal (- q) H). pose proof (rnd_pos_nonneg (- q) ltac:(lra)) as N.
    split; intro L; rewrite Qabs_opp, Qabs_pos in L by auto.
    + assert (Qlt_bool (rnd_pos (- q)) (pow2 1024) = true) as -> by now apply qlt_true. apply same_refl.
    + assert (Qlt_bool (rnd_pos (- q)) (pow2 1024) = false) as -> by now apply qlt_false.
      assert (Qlt_bool q 0 = true) as -> by (apply qlt_true; lra). exact I.
Qed.
(** Numbers made of units 2^-1074 are not harmed by underflow. *)
Lemma small_units_pos k : (0 < k < 2 ^ 52)%Z ->
  round64_pos (inject_Z k * pow2 (-1074)) = Fin (inject_Z k * pow2 (-1074)).
Proof.
  intros K. set (x := inject_Z k * pow2 (-1074)).
  assert (P : 0 < x).
  { unfold x. pose proof (pow2_pos (-1074)). assert (0 < inject_Z k) by (change 0 with (inject_Z 0); rewrite <- Zlt_Qlt; lia). nra. }
  assert (X : x < pow2 (-1022)).
  { unfold x. replace (-1022)%Z with (52 + -1074)%Z by lia. rewrite pow2_plus, (pow2_Z 52) by lia.
    apply Qmult_lt_compat_r; [apply pow2_pos|]. rewrite <- Zlt_Qlt. lia. }
  assert (L : (last_digit x <= -1074)%Z).
  { destruct (last_digit_range x P) as [A _]. destruct (Z_le_gt_dec (last_digit x) (-1074)) as [|G]; auto.
    pose proof (pow2_mono (-1022) (last_digit x + 52) ltac:(lia)). lra. }
  unfold round64_pos. rewrite Z.max_r by lia. cbv zeta.
  assert (E : round_half_even (x * pow2 (- -1074)) = k).
  { rewrite <- (rint_int k). apply rint_compat. unfold x. rewrite <- Qmult_assoc, <- pow2_plus. change (pow2 (-1074 + - -1074)) with 1. ring. }
  rewrite E. fold x. assert (Qlt_bool x (pow2 1024) = true) as ->; auto.
  apply qlt_true. pose proof (pow2_lt (-1022) 1024 ltac:(lia)). lra.
Qed.
Lemma same_fin a b : a == b -> same (Fin a) (Fin b).
Proof. auto. Qed.
Lemma small_units k q : (Z.abs k < 2 ^ 52)%Z -> q == inject_Z k * pow2 (-1074) -> same (round64 (Fin q)) (Fin (rnd q)).
Proof.
  intros K E. assert (D : rnd q == q) by (apply rnd_exact; exists k, (-1074)%Z; split; [lia|exact E]).
  apply same_trans with (Fin q); [|apply same_fin; symmetry; exact D]. clear D.
  destruct k as [|p|p].
  - assert (Z : q == 0) by (rewrite E; change (inject_Z 0) with 0; ring).
    destruct (round64_cases q) as [[A ->]|[[A _]|[A _]]]; try lra. apply same_fin. now symmetry.
  - apply same_trans with (signed false (round64_pos (inject_Z (Zpos p) * pow2 (-1074)))).
    + apply same_sym, signed_round; [apply pos_val|exact E].
    + rewrite small_units_pos by lia. apply same_fin. symmetry. exact E.
  - assert (E' : q == - (inject_Z (Zpos p) * pow2 (-1074))) by (rewrite E; change (inject_Z (Zneg p)) with (- inject_Z (Zpos p)); ring).
    apply same_trans with (signed true (round64_pos (inject_Z (Zpos p) * pow2 (-1074)))).
    + apply same_sym, signed_round; [apply pos_val|exact E'].
    + rewrite small_units_pos by lia. apply same_fin. symmetry. exact E'.
Qed.
Lemma units_round k q : q == inject_Z k * pow2 (-1074) -> limited q (rnd q) (round64 (Fin q)).
Proof.
  intros E. destruct (Z_lt_le_dec (Z.abs k) (2 ^ 52)) as [K|K].
  - split; intro L; [now apply (small_units k)|]. exfalso.
    assert (R : rnd q == q) by (apply rnd_exact; exists k, (-1074)%Z; split; [lia|exact E]).
    rewrite R, E, Qabs_Qmult, (Qabs_pos (pow2 (-1074))) in L by (pose proof (pow2_pos (-1074)); lra).
    assert (A : Qabs (inject_Z k) < inject_Z (2 ^ 52)) by (change (Qabs (inject_Z k)) with (inject_Z (Z.abs k)); rewrite <- Zlt_Qlt; lia).
    assert (Qabs (inject_Z k) * pow2 (-1074) < inject_Z (2 ^ 52) * pow2 (-1074)) by (apply Qmult_lt_compat_r; [apply pow2_pos|exact A]).
    rewrite <- (pow2_Z 52), <- pow2_plus in H by lia. pose proof (pow2_mono (52 + -1074) 1024 ltac:(lia)). lra.
  - apply normal_rounds. rewrite E, Qabs_Qmult, (Qabs_pos (pow2 (-1074))) by (pose proof (pow2_pos (-1074)); lra).
    replace (-1022)%Z with (52 + -1074)%Z by lia. rewrite pow2_plus, (pow2_Z 52) by lia.
    apply Qmult_le_compat_r; [|pose proof (pow2_pos (-1074)); lra].
    change (Qabs (inject_Z k)) with (inject_Z (Z.abs k)). rewrite <- Zle_Qle. lia.
Qed.
Lemma value_units x a : ieee x -> value x = Fin a -> exists k, a == inject_Z k * pow2 (-1074).
Proof.
  destruct x as [s|s| |s m e]; intros V E; cbn [value] in E; try discriminate; try (destruct s; discriminate); inversion E; subst a; clear E.
  - exists 0%Z. reflexivity.
  - destruct (valid_cases s m e V) as [C _]. exists ((if s then Zneg m else Zpos m) * 2 ^ (e + 1074))%Z.
    rewrite inject_Z_mult, <- (pow2_Z (e + 1074)), <- Qmult_assoc, <- pow2_plus by lia.
    replace (e + 1074 + -1074)%Z with e by lia. reflexivity.
Qed.
Lemma same_limited q r u v : same u v -> limited q r v -> limited q r u.
Proof. intros S [A B]. split; intro L; (eapply same_trans; [exact S|]); auto. Qed.
Lemma add_limited x y a b : ieee x -> ieee y -> value x = Fin a -> value y = Fin b ->
  limited (a + b) (rnd (a + b)) (value (SFadd 53 1024 x y)).
Proof.
  intros X Y Ea Eb. eapply same_limited; [apply add_rounds; auto|]. rewrite Ea, Eb. cbn [xadd].
  destruct (value_units x a X Ea) as [i Ei]. destruct (value_units y b Y Eb) as [j Ej].
  apply (units_round (i + j)). rewrite Ei, Ej, inject_Z_plus. ring.
Qed.
Lemma sub_limited x y a b : ieee x -> ieee y -> value x = Fin a -> value y = Fin b ->
  limited (a - b) (rnd (a - b)) (value (SFsub 53 1024 x y)).
Proof.
  intros X Y Ea Eb. eapply same_limited; [apply sub_rounds; auto|]. rewrite Ea, Eb. unfold xsub. cbn [xadd xneg].
  destruct (value_units x a X Ea) as [i Ei]. destruct (value_units y b Y Eb) as [j Ej].
  apply (units_round (i - j)). rewrite Ei, Ej. unfold Zminus. rewrite inject_Z_plus, inject_Z_opp. ring.
Qed.
Lemma mul_limited x y a b : ieee x -> ieee y -> value x = Fin a -> value y = Fin b -> pow2 (-1022) <= Qabs (a * b) ->
  limited (a * b) (rnd (a * b)) (value (SFmul 53 1024 x y)).
Proof.
  intros X Y Ea Eb N. eapply same_limited; [apply mul_rounds; auto|]. rewrite Ea, Eb. cbn [xmul]. now apply normal_rounds.
Qed.
Lemma div_limited x y a b : ieee x -> ieee y -> value x = Fin a -> value y = Fin b -> ~ b == 0 -> pow2 (-1022) <= Qabs (a / b) ->
  limited (a / b) (rnd (a / b)) (value (SFdiv 53 1024 x y)).
Proof.
  intros X Y Ea Eb B N. eapply same_limited; [apply div_rounds; auto|].
  - intros ->. apply B. inversion Eb. reflexivity.
  - rewrite Ea, Eb. cbn [xdiv]. destruct (Qeq_bool b 0) eqn:Z; [apply Qeq_bool_eq in Z; contradiction|]. now apply normal_rounds.
Qed.
(** Below the range, rounding is to the nearest unit 2^-1074. *)
Lemma subnormal_error q : Qabs q < pow2 (-1022) -> exists r, same (round64 (Fin q)) (Fin r) /\ Qabs (r - q) <= pow2 (-1075).
Proof.
  intro H. assert (G : forall x, 0 < x -> x < pow2 (-1022) -> exists r, round64_pos x = Fin r /\ Qabs (r - x) <= pow2 (-1075)).
  { intros x P X.
    assert (L : (last_digit x <= -1074)%Z).
    { destruct (last_digit_range x P) as [A _]. destruct (Z_le_gt_dec (last_digit x) (-1074)) as [|G]; auto.
      pose proof (pow2_mono (-1022) (last_digit x + 52) ltac:(lia)). lra. }
    unfold round64_pos. rewrite Z.max_r by lia. cbv zeta.
    destruct (round_half_even_spec (x * pow2 (- -1074))) as (k & -> & N & _).
    assert (Er : Qabs (inject_Z k * pow2 (-1074) - x) <= pow2 (-1075)).
    { pose proof (pow2_pos (-1074)) as Pp.
      assert (E : inject_Z k * pow2 (-1074) - x == - (x * pow2 (- -1074) - inject_Z k) * pow2 (-1074)).
      { rewrite <- (Qmult_1_r x) at 1. change 1 with (pow2 (- -1074 + -1074)). rewrite pow2_plus. ring. }
      rewrite E, Qabs_Qmult, Qabs_opp, (Qabs_pos (pow2 (-1074))) by lra.
      change (pow2 (-1075)) with (pow2 (-1 + -1074)). rewrite pow2_plus. change (pow2 (-1)) with (1#2).
      apply Qmult_le_compat_r; auto. lra. }
    exists (inject_Z k * pow2 (-1074)). split; auto.
    assert (Qlt_bool (inject_Z k * pow2 (-1074)) (pow2 1024) = true) as ->; auto. apply qlt_true.
    apply Qabs_Qle_condition in Er. destruct Er as [_ Er].
    pose proof (pow2_lt (-1075) (-1022) ltac:(lia)). pose proof (pow2_mono (-1021) 1024 ltac:(lia)).
    assert (pow2 (-1021) == 2 * pow2 (-1022)) by (change (pow2 (-1021)) with (pow2 (1 + -1022)); rewrite pow2_plus; reflexivity). lra. }
  destruct (round64_cases q) as [[A ->]|[[A ->]|[A ->]]].
  - exists 0. split; [apply same_refl|]. rewrite A. discriminate.
  - rewrite Qabs_pos in H by lra. destruct (G q A H) as (r & -> & Er). exists r. split; auto. apply same_refl.
  - rewrite Qabs_neg in H by lra. destruct (G (- q) ltac:(lra) H) as (r & -> & Er). exists (- r). split; [apply same_refl|].
    assert (E : - r - q == - (r - - q)) by ring. now rewrite E, Qabs_opp.
Qed.
