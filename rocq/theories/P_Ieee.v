(** Lemmas: the standard library's IEEE operations round exact results to the nearest
    double. *)
From Coq Require Import Qabs Lqa.
From Verif Require Import Base M_Values M_Ops M_Double M_Ieee SpecIeee P_Support P_Round P_Double.
From Coq.Floats Require Import SpecFloat.
Open Scope Q_scope.

(* ------------------------------------------------- shifting right *)
(** Where [y] lies, as a shift record tells it. *)
Definition at_ (a : shr_record) (y : Q) : Prop :=
  (0 <= shr_m a)%Z /\
  let f := inject_Z (shr_m a) in
  match shr_r a, shr_s a with
  | false, false => y == f
  | false, true => f < y /\ y < f + (1#2)
  | true, false => y == f + (1#2)
  | true, true => f + (1#2) < y /\ y < f + 1
  end.
Lemma at_compat a y z : y == z -> at_ a y -> at_ a z.
Proof.
  intros E [M H]. split; auto. cbv zeta in *. destruct (shr_r a), (shr_s a); lra.
Qed.
Lemma inj_O p : inject_Z (Zpos p~0) == 2 * inject_Z (Zpos p).
Proof. change 2 with (inject_Z 2). rewrite <- inject_Z_mult. reflexivity. Qed.
Lemma inj_I p : inject_Z (Zpos p~1) == 2 * inject_Z (Zpos p) + 1.
Proof. change 1 with (inject_Z 1). change 2 with (inject_Z 2). rewrite <- inject_Z_mult, <- inject_Z_plus. reflexivity. Qed.
Lemma shr_1_at a y : at_ a y -> at_ (shr_1 a) (y * (1#2)).
Proof.
  destruct a as [m r s]. unfold at_. cbn [shr_m shr_r shr_s]. cbv zeta. intros [M H].
  destruct m as [|p|p]; [| |lia].
  - split; [simpl; lia|]. change (inject_Z 0) with 0 in *. destruct r, s; cbn [shr_1 shr_m shr_r shr_s orb]; change (inject_Z 0) with 0; lra.
  - destruct p as [p|p|].
    + pose proof (inj_I p) as E. split; [simpl; lia|].
      destruct r, s; cbn [shr_1 shr_m shr_r shr_s orb]; lra.
    + pose proof (inj_O p) as E. split; [simpl; lia|].
      destruct r, s; cbn [shr_1 shr_m shr_r shr_s orb]; lra.
    + change (inject_Z 1) with 1 in H. split; [simpl; lia|].
      destruct r, s; cbn [shr_1 shr_m shr_r shr_s orb]; change (inject_Z 0) with 0; lra.
Qed.
Lemma iter_pos_at p : forall a y, at_ a y -> at_ (iter_pos shr_1 p a) (y * pow2 (- Zpos p)).
Proof.
  induction p as [p IH|p IH|]; intros a y H; cbn [iter_pos].
  - eapply at_compat; [|apply IH, IH, shr_1_at, H].
    replace (- Zpos p~1)%Z with (-1 + (- Zpos p + - Zpos p))%Z by lia. rewrite !pow2_plus. change (pow2 (-1)) with (1#2). ring.
  - eapply at_compat; [|apply IH, IH, H].
    replace (- Zpos p~0)%Z with (- Zpos p + - Zpos p)%Z by lia. rewrite !pow2_plus. ring.
  - eapply at_compat; [|apply shr_1_at, H]. reflexivity.
Qed.
Lemma shr_at a e n y : (0 <= n)%Z -> at_ a y ->
  at_ (fst (shr a e n)) (y * pow2 (- n)) /\ snd (shr a e n) = (e + n)%Z.
Proof.
  intros N H. destruct n as [|p|p]; [| |lia]; cbn [shr fst snd].
  - split; [|lia]. eapply at_compat; [|exact H]. change (pow2 (- 0)) with 1. ring.
  - split; auto. apply iter_pos_at, H.
Qed.

(* ------------------------------------------------- rounding *)
Lemma floor_between k y : inject_Z k <= y -> y < inject_Z k + 1 -> Qfloor y = k.
Proof.
  intros A B. pose proof (Qfloor_le y) as C. pose proof (Qlt_floor y) as D.
  assert (L1 : (k < Qfloor y + 1)%Z) by (rewrite Zlt_Qlt; lra).
  assert (L2 : (Qfloor y < k + 1)%Z) by (rewrite Zlt_Qlt, inject_Z_plus; change (inject_Z 1) with 1; lra).
  lia.
Qed.
Lemma nearest_even_at a y : at_ a y -> round_nearest_even (shr_m a) (loc_of_shr_record a) = round_half_even y.
Proof.
  destruct a as [m r s]. unfold at_. cbn [shr_m shr_r shr_s]. cbv zeta. intros [M H].
  assert (F : Qfloor y = m) by (apply floor_between; destruct r, s; lra).
  unfold round_half_even. rewrite F.
  destruct r, s; cbn [loc_of_shr_record round_nearest_even].
  - assert (Qlt_bool (y - inject_Z m) (1#2) = false) as -> by (apply qlt_false; lra).
    assert (Qlt_bool (1#2) (y - inject_Z m) = true) as -> by (apply qlt_true; lra). reflexivity.
  - assert (Qlt_bool (y - inject_Z m) (1#2) = false) as -> by (apply qlt_false; lra).
    assert (Qlt_bool (1#2) (y - inject_Z m) = false) as -> by (apply qlt_false; lra). reflexivity.
  - assert (Qlt_bool (y - inject_Z m) (1#2) = true) as -> by (apply qlt_true; lra). reflexivity.
  - assert (Qlt_bool (y - inject_Z m) (1#2) = true) as -> by (apply qlt_true; lra). reflexivity.
Qed.

(* ------------------------------------------------- binary digits *)
Lemma digits_pos p : (2 ^ (Zpos (digits2_pos p) - 1) <= Zpos p < 2 ^ Zpos (digits2_pos p))%Z.
Proof.
  induction p as [p IH|p IH|]; cbn [digits2_pos]; [| |simpl; lia];
    rewrite Pos2Z.inj_succ; replace (Z.succ (Zpos (digits2_pos p)) - 1)%Z with (Z.succ (Zpos (digits2_pos p) - 1)) by lia;
    rewrite !Z.pow_succ_r by lia; lia.
Qed.
Lemma digits_unique p d : (2 ^ (d - 1) <= Zpos p < 2 ^ d)%Z -> (0 < d)%Z -> Zpos (digits2_pos p) = d.
Proof.
  intros H D. pose proof (digits_pos p) as E. set (c := Zpos (digits2_pos p)) in *.
  assert (0 < c)%Z by (unfold c; lia).
  destruct (Z.lt_trichotomy c d) as [L|[L|L]]; auto.
  - pose proof (Z.pow_le_mono_r 2 c (d - 1)). lia.
  - pose proof (Z.pow_le_mono_r 2 d (c - 1)). lia.
Qed.

Notation aux := (binary_round_aux 53 1024).
Notation fexp64 := (fexp 53 1024).
Lemma fexp64_eq e : fexp64 e = Z.max (e - 53) (-1074).
Proof. reflexivity. Qed.

Definition signed (s : bool) (x : xnum) : xnum := if s then xneg x else x.

Lemma pow2_lt a b : (a < b)%Z -> pow2 a < pow2 b.
Proof.
  intro H. apply Qlt_le_trans with (pow2 (a + 1)); [|apply pow2_mono; lia].
  rewrite pow2_plus. change (pow2 1) with 2. pose proof (pow2_pos a). lra.
Qed.

(** The exponent the first shift aims at is that of the last digit. *)
Lemma aim m e l y : at_ (shr_record_of_loc m l) y -> 0 < y -> (e <= fexp64 (Zdigits2 m + e))%Z ->
  fexp64 (Zdigits2 m + e) = Z.max (last_digit (y * pow2 e)) (-1074).
Proof.
  intros A P L. rewrite fexp64_eq in *.
  assert (B : (0 <= m)%Z /\ inject_Z m <= y /\ y < inject_Z m + 1).
  { destruct A as [M A]. cbv zeta in A. destruct l as [|[| |]]; cbn [shr_record_of_loc shr_m shr_r shr_s] in *; repeat split; auto; lra. }
  destruct B as (M & B1 & B2). pose proof (pow2_pos e) as Pe.
  destruct m as [|p|p]; [| |lia].
  - change (Zdigits2 0) with 0%Z in *. assert (E : (e <= -1074)%Z) by lia.
    change (inject_Z 0) with 0 in B2. assert (X : y * pow2 e < pow2 (-1074)).
    { apply Qlt_le_trans with (pow2 e); [nra|apply pow2_mono; lia]. }
    assert (X0 : 0 < y * pow2 e) by nra.
    destruct (last_digit_range _ X0) as [R _].
    assert ((last_digit (y * pow2 e) + 52 < -1074)%Z); [|lia].
    destruct (Z_lt_le_dec (last_digit (y * pow2 e) + 52) (-1074)) as [|G]; auto.
    apply pow2_mono in G. lra.
  - cbn [Zdigits2] in *. pose proof (digits_pos p) as D. set (d := Zpos (digits2_pos p)) in *.
    assert (D0 : (0 < d)%Z) by (unfold d; lia).
    rewrite (last_digit_unique (y * pow2 e) (d + e - 53)); auto.
    + replace (d + e - 53 + 52)%Z with (d - 1 + e)%Z by lia. rewrite pow2_plus, (pow2_Z (d - 1)) by lia.
      apply Qmult_le_compat_r; [|lra]. apply Qle_trans with (inject_Z (Zpos p)); auto. rewrite <- Zle_Qle. lia.
    + replace (d + e - 53 + 53)%Z with (d + e)%Z by lia. rewrite pow2_plus, (pow2_Z d) by lia.
      apply Qmult_lt_compat_r; auto. apply Qlt_le_trans with (inject_Z (Zpos p) + 1); auto.
      change 1 with (inject_Z 1). rewrite <- inject_Z_plus, <- Zle_Qle. lia.
Qed.

(** The second shift does nothing but carry. *)
Lemma carry s k e : (0 <= k <= 2 ^ 53)%Z -> (-1074 <= e)%Z -> ((k < 2 ^ 52)%Z -> e = (-1074)%Z) ->
  let '(b, f) := shr_fexp 53 1024 k e loc_Exact in
  same (value (match shr_m b with
               | Z0 => S754_zero s
               | Zpos m => if Zle_bool f (1024 - 53) then S754_finite s m f else S754_infinity s
               | _ => S754_nan
               end))
       (signed s (if Qlt_bool (inject_Z k * pow2 e) (pow2 1024) then Fin (inject_Z k * pow2 e) else PInf)).
Proof.
  intros K E N. unfold shr_fexp. rewrite fexp64_eq. cbn [shr_record_of_loc].
  destruct k as [|p|p]; [| |lia].
  - change (Zdigits2 0) with 0%Z.
    assert (H : shr {| shr_m := 0; shr_r := false; shr_s := false |} e (Z.max (0 + e - 53) (-1074) - e) =
                ({| shr_m := 0; shr_r := false; shr_s := false |}, e)).
    { unfold shr. destruct (Z.max (0 + e - 53) (-1074) - e)%Z eqn:Z; auto. lia. }
    rewrite H. cbn [shr_m]. assert (Z : inject_Z 0 * pow2 e == 0) by (change (inject_Z 0) with 0; ring).
    assert (Qlt_bool (inject_Z 0 * pow2 e) (pow2 1024) = true) as -> by (apply qlt_true; rewrite Z; apply pow2_pos).
    destruct s; cbn [signed xneg value same]; rewrite Z; reflexivity.
  - cbn [Zdigits2].
    destruct (Z.eq_dec (Zpos p) (2 ^ 53)) as [C|C].
    + assert (Dg : Zpos (digits2_pos p) = 54%Z) by (apply digits_unique; rewrite ?C; lia).
      rewrite Dg. replace (Z.max (54 + e - 53) (-1074) - e)%Z with 1%Z by lia.
      assert (C' : p = 9007199254740992%positive) by (apply Pos2Z.inj; rewrite C; reflexivity). rewrite C'. cbn [shr iter_pos shr_1 orb shr_m].
      assert (V : inject_Z (Zpos (2 ^ 53)) * pow2 e == pow2 (53 + e)) by (rewrite pow2_plus; reflexivity).
      change (inject_Z 9007199254740992) with (inject_Z (Zpos (2 ^ 53))).
      destruct (Z.leb_spec (e + 1) 971) as [G|G].
      * assert (Zle_bool (e + 1) (1024 - 53) = true) as -> by (apply Zle_is_le_bool; lia).
        assert (Qlt_bool (inject_Z (Zpos (2 ^ 53)) * pow2 e) (pow2 1024) = true) as ->.
        { apply qlt_true. rewrite V. apply pow2_lt. lia. }
        assert (W : pow2 (e + 1) == 2 * pow2 e) by (rewrite pow2_plus; change (pow2 1) with 2; ring).
        unfold pow2 in *. destruct s; cbn [signed xneg value same]; rewrite W; 
         [change (inject_Z (Zneg 4503599627370496)) with (- inject_Z (4503599627370496))|]; 
         change (inject_Z (Zpos (2 ^ 53))) with (inject_Z 4503599627370496 * 2); ring.
      * assert (Zle_bool (e + 1) (1024 - 53) = false) as -> by (apply Z.leb_gt; lia).
        assert (Qlt_bool (inject_Z (Zpos (2 ^ 53)) * pow2 e) (pow2 1024) = false) as ->.
        { apply qlt_false. rewrite V. apply pow2_mono. lia. }
        destruct s; exact I.
    + pose proof (digits_pos p) as D. set (d := Zpos (digits2_pos p)) in *.
      assert (Dg : (d <= 53)%Z).
      { destruct (Z_le_gt_dec d 53) as [|G]; auto. pose proof (Z.pow_le_mono_r 2 53 (d - 1)). lia. }
      assert (H : shr {| shr_m := Zpos p; shr_r := false; shr_s := false |} e (Z.max (d + e - 53) (-1074) - e) =
                  ({| shr_m := Zpos p; shr_r := false; shr_s := false |}, e)).
      { unfold shr. destruct (Z.max (d + e - 53) (-1074) - e)%Z eqn:Z; auto. lia. }
      rewrite H. cbn [shr_m].
      destruct (Z.leb_spec e 971) as [G|G].
      * assert (Zle_bool e (1024 - 53) = true) as -> by (apply Zle_is_le_bool; lia).
        assert (Qlt_bool (inject_Z (Zpos p) * pow2 e) (pow2 1024) = true) as ->.
        { apply qlt_true. apply Qlt_le_trans with (inject_Z (2 ^ 53) * pow2 e).
          - apply Qmult_lt_compat_r; [apply pow2_pos|]. rewrite <- Zlt_Qlt. lia.
          - rewrite <- (pow2_Z 53), <- pow2_plus by lia. apply pow2_mono. lia. }
        destruct s; cbn [signed xneg value same]; [|reflexivity].
        change (inject_Z (Zneg p)) with (- inject_Z (Zpos p)). unfold pow2. ring.
      * assert (Zle_bool e (1024 - 53) = false) as -> by (apply Z.leb_gt; lia).
        assert (K52 : (2 ^ 52 <= Zpos p)%Z) by (destruct (Z_lt_le_dec (Zpos p) (2 ^ 52)) as [X|]; auto; specialize (N X); lia).
        assert (Qlt_bool (inject_Z (Zpos p) * pow2 e) (pow2 1024) = false) as ->.
        { apply qlt_false. apply Qle_trans with (inject_Z (2 ^ 52) * pow2 e).
          - rewrite <- (pow2_Z 52), <- pow2_plus by lia. apply pow2_mono. lia.
          - apply Qmult_le_compat_r; [|pose proof (pow2_pos e); lra]. rewrite <- Zle_Qle. lia. }
        destruct s; exact I.
Qed.

(* ------------------------------------------------- the rounding step *)
Lemma k64_range x : 0 < x ->
  let F := Z.max (last_digit x) (-1074) in
  let k := round_half_even (x * pow2 (- F)) in
  (0 <= k <= 2 ^ 53)%Z /\ ((k < 2 ^ 52)%Z -> F = (-1074)%Z).
Proof.
  intros P F k. pose proof (pow2_pos (- F)) as Pf. split; [split|].
  - rewrite <- (rint_int 0). apply round_half_even_mono. change (inject_Z 0) with 0. nra.
  - destruct (scaled_range x P) as [_ B]. rewrite <- (rint_int (2 ^ 53)). apply round_half_even_mono.
    apply Qle_trans with (x * pow2 (- last_digit x)); [|apply Qlt_le_weak, B].
    rewrite !(Qmult_comm x). apply Qmult_le_compat_r; [|lra]. apply pow2_mono. lia.
  - intro K. destruct (Z_le_gt_dec (last_digit x) (-1074)) as [L|L]; [lia|].
    assert (E : F = last_digit x) by lia. pose proof (k_range x P) as R. unfold k in K. rewrite E in K. lia.
Qed.
Lemma aux_rounds s m e l y : at_ (shr_record_of_loc m l) y -> 0 < y -> (e <= fexp64 (Zdigits2 m + e))%Z ->
  same (value (aux s m e l)) (signed s (round64_pos (y * pow2 e))).
Proof.
  intros A P L. pose proof (aim m e l y A P L) as Ai. unfold binary_round_aux, shr_fexp at 1.
  set (F := fexp64 (Zdigits2 m + e)) in *.
  destruct (shr_at (shr_record_of_loc m l) e (F - e) y) as [B C]; [lia|auto|].
  destruct (shr (shr_record_of_loc m l) e (F - e)) as [a f]. cbn [fst snd] in *.
  rewrite (nearest_even_at a _ B). replace f with F by lia. clear B C a f.
  assert (X : 0 < y * pow2 e) by (pose proof (pow2_pos e); nra).
  destruct (k64_range _ X) as [K N]. rewrite <- Ai in K, N.
  assert (E : round_half_even (y * pow2 (- (F - e))) = round_half_even (y * pow2 e * pow2 (- F))).
  { apply rint_compat. replace (- (F - e))%Z with (e + - F)%Z by lia. rewrite pow2_plus. ring. }
  rewrite E. unfold round64_pos. rewrite <- Ai. cbv zeta.
  pose proof (carry s _ F K ltac:(lia) N) as C. destruct (shr_fexp 53 1024 _ F loc_Exact) as [b f]. exact C.
Qed.

(* ------------------------------------------------- numbers up to equality *)
Lemma same_refl a : same a a.
Proof. destruct a; simpl; auto. reflexivity. Qed.
Lemma same_sym a b : same a b -> same b a.
Proof. destruct a, b; simpl; auto. intro; now symmetry. Qed.
Lemma same_trans a b c : same a b -> same b c -> same a c.
Proof. destruct a, b, c; simpl; auto; try contradiction. intros; now transitivity q0. Qed.
Lemma same_neg a b : same a b -> same (xneg a) (xneg b).
Proof. destruct a, b; simpl; auto. intro E. now rewrite E. Qed.
Lemma last_digit_compat x y : 0 < x -> x == y -> last_digit x = last_digit y.
Proof.
  intros P E. destruct (last_digit_range y) as [A B]; [now rewrite <- E|]. apply last_digit_unique; now rewrite E.
Qed.
Lemma round64_pos_compat x y : 0 < x -> x == y -> same (round64_pos x) (round64_pos y).
Proof.
  intros P E. unfold round64_pos. rewrite (last_digit_compat x y P E). cbv zeta.
  set (e := Z.max (last_digit y) (-1074)).
  rewrite (rint_compat (x * pow2 (- e)) (y * pow2 (- e))) by now rewrite E. apply same_refl.
Qed.
Lemma round64_cases q : (q == 0 /\ round64 (Fin q) = Fin 0) \/ (0 < q /\ round64 (Fin q) = round64_pos q) \/
  (q < 0 /\ round64 (Fin q) = xneg (round64_pos (- q))).
Proof.
  destruct q as [[|n|n] d]; unfold round64; cbn [Qnum]; [left|right; left|right; right]; split; auto; reflexivity.
Qed.
Lemma round64_compat p q : p == q -> same (round64 (Fin p)) (round64 (Fin q)).
Proof.
  intros E. destruct (round64_cases p) as [[A ->]|[[A ->]|[A ->]]], (round64_cases q) as [[B ->]|[[B ->]|[B ->]]]; try lra.
  - apply same_refl.
  - now apply round64_pos_compat.
  - apply same_neg, round64_pos_compat; [lra|now rewrite E].
Qed.
Lemma signed_round (s : bool) x q : 0 < x -> q == (if s then - x else x) -> same (signed s (round64_pos x)) (round64 (Fin q)).
Proof.
  intros P E. destruct (round64_cases q) as [[A ->]|[[A ->]|[A ->]]]; destruct s; cbn [signed]; try lra.
  - apply round64_pos_compat; auto. now symmetry.
  - apply same_neg, round64_pos_compat; auto. rewrite E. ring.
Qed.

(* ------------------------------------------------- valid numbers *)
Lemma valid_cases s m e : ieee (S754_finite s m e) ->
  let d := Zpos (digits2_pos m) in
  ((d = 53 /\ -1074 <= e) \/ (d <= 53 /\ e = -1074))%Z /\ (e <= 971)%Z.
Proof.
  unfold ieee. cbn [valid_binary]. unfold bounded, canonical_mantissa. intro H. apply andb_prop in H. destruct H as [A B].
  apply Zeq_bool_eq in A. rewrite fexp64_eq in A. apply Zle_is_le_bool in B.
  cbv zeta. pose proof (Pos2Z.is_pos (digits2_pos m)). split; lia.
Qed.
Lemma valid_mantissa s m e : ieee (S754_finite s m e) -> (Zpos m < 2 ^ 53)%Z /\ ((-1074 < e)%Z -> (2 ^ 52 <= Zpos m)%Z).
Proof.
  intro V. pose proof (valid_cases s m e V) as C. cbv zeta in C. pose proof (digits_pos m) as D.
  set (d := Zpos (digits2_pos m)) in *. assert (0 < d)%Z by (unfold d; lia). split.
  - pose proof (Z.pow_le_mono_r 2 d 53). lia.
  - intro E. assert (d = 53)%Z by lia. rewrite H0 in D. lia.
Qed.
(** Rounding leaves them alone. *)
Lemma valid_exact x : ieee x -> same (value x) (round64 (value x)).
Proof.
  destruct x as [s|s| |s m e]; intro V; try apply same_refl; [destruct s; exact I|].
  pose proof (valid_cases s m e V) as C. cbv zeta in C. pose proof (digits_pos m) as D.
  destruct (valid_mantissa s m e V) as [M _].
  set (d := Zpos (digits2_pos m)) in *. assert (D0 : (0 < d)%Z) by (unfold d; lia).
  set (x := inject_Z (Zpos m) * pow2 e).
  assert (P : 0 < x).
  { unfold x. pose proof (pow2_pos e). assert (0 < inject_Z (Zpos m)) by reflexivity. nra. }
  assert (L : last_digit x = (d + e - 53)%Z).
  { apply last_digit_unique; unfold x.
    - replace (d + e - 53 + 52)%Z with (d - 1 + e)%Z by lia. rewrite pow2_plus, (pow2_Z (d - 1)) by lia.
      apply Qmult_le_compat_r; [|pose proof (pow2_pos e); lra]. rewrite <- Zle_Qle. lia.
    - replace (d + e - 53 + 53)%Z with (d + e)%Z by lia. rewrite pow2_plus, (pow2_Z d) by lia.
      apply Qmult_lt_compat_r; [apply pow2_pos|]. rewrite <- Zlt_Qlt. lia. }
  assert (R : round64_pos x = Fin x).
  { unfold round64_pos. rewrite L. replace (Z.max (d + e - 53) (-1074)) with e by lia. cbv zeta.
    assert (E : round_half_even (x * pow2 (- e)) = Zpos m).
    { rewrite <- (rint_int (Zpos m)). apply rint_compat. unfold x. rewrite <- Qmult_assoc, <- pow2_plus.
      replace (e + - e)%Z with 0%Z by lia. change (pow2 0) with 1. ring. }
    rewrite E. fold x.
    assert (Qlt_bool x (pow2 1024) = true) as ->; auto.
    apply qlt_true. unfold x. apply Qlt_le_trans with (inject_Z (2 ^ 53) * pow2 e).
    - apply Qmult_lt_compat_r; [apply pow2_pos|]. rewrite <- Zlt_Qlt. lia.
    - rewrite <- (pow2_Z 53), <- pow2_plus by lia. apply pow2_mono. lia. }
  cbn [value]. eapply same_trans; [|apply (signed_round s x); [exact P|]].
  - rewrite R. destruct s; cbn [signed xneg same]; [|reflexivity]. unfold x.
    change (inject_Z (Zneg m)) with (- inject_Z (Zpos m)). unfold pow2. ring.
  - destruct s; unfold x; [|reflexivity]. change (inject_Z (Zneg m)) with (- inject_Z (Zpos m)). unfold pow2. ring.
Qed.

(* ------------------------------------------------- products *)
Lemma digits_enough m : (2 ^ 52 <= m)%Z -> (53 <= Zdigits2 m)%Z.
Proof.
  destruct m as [|p|p]; intro H; try lia. cbn [Zdigits2]. pose proof (digits_pos p) as D.
  destruct (Z_le_gt_dec 53 (Zpos (digits2_pos p))) as [|G]; auto.
  pose proof (Z.pow_le_mono_r 2 (Zpos (digits2_pos p)) 52). lia.
Qed.
Lemma exact_at m : (0 <= m)%Z -> at_ (shr_record_of_loc m loc_Exact) (inject_Z m).
Proof. intro M. split; auto. cbn. reflexivity. Qed.
Lemma val_finite (s : bool) m e : inject_Z (if s then Zneg m else Zpos m) * pow2 e == (if s then - (inject_Z (Zpos m) * pow2 e) else inject_Z (Zpos m) * pow2 e).
Proof. destruct s; [|reflexivity]. change (inject_Z (Zneg m)) with (- inject_Z (Zpos m)). ring. Qed.
Lemma pos_val m e : 0 < inject_Z (Zpos m) * pow2 e.
Proof. pose proof (pow2_pos e). assert (0 < inject_Z (Zpos m)) by reflexivity. nra. Qed.
Lemma sign_of (s : bool) m e : qsign (inject_Z (if s then Zneg m else Zpos m) * pow2 e) = if s then Datatypes.Lt else Datatypes.Gt.
Proof.
  unfold qsign. pose proof (pos_val m e) as P. pose proof (val_finite s m e) as V. destruct s.
  - apply (proj1 (Qlt_alt _ _)). rewrite V. lra.
  - apply (proj1 (Qgt_alt _ _)). exact P.
Qed.
Lemma mul_finite sx mx ex sy my ey : ieee (S754_finite sx mx ex) -> ieee (S754_finite sy my ey) ->
  same (value (SFmul 53 1024 (S754_finite sx mx ex) (S754_finite sy my ey)))
       (round64 (xmul (value (S754_finite sx mx ex)) (value (S754_finite sy my ey)))).
Proof.
  intros X Y. cbn [SFmul].
  assert (En : (ex + ey <= fexp64 (Zdigits2 (Zpos (mx * my)) + (ex + ey)))%Z).
  { rewrite fexp64_eq. destruct (Z_le_gt_dec (ex + ey) (-1074)) as [|G]; [lia|].
    destruct (valid_mantissa _ _ _ X) as [_ Mx]. destruct (valid_mantissa _ _ _ Y) as [_ My].
    destruct (valid_cases _ _ _ X) as [Cx _]. destruct (valid_cases _ _ _ Y) as [Cy _].
    assert (H : (2 ^ 52 <= Zpos (mx * my))%Z).
    { rewrite Pos2Z.inj_mul. destruct (Z_le_gt_dec ex (-1074)) as [Ex|Ex].
      - assert (2 ^ 52 <= Zpos my)%Z by lia. nia.
      - assert (2 ^ 52 <= Zpos mx)%Z by lia. nia. }
    apply digits_enough in H. lia. }
  eapply same_trans; [apply (aux_rounds _ _ _ _ (inject_Z (Zpos (mx * my))) (exact_at _ (Pos2Z.is_nonneg _)) (eq_refl : 0 < inject_Z (Zpos (mx * my))) En)|].
  cbn [value xmul]. apply signed_round; [apply pos_val|].
  fold (pow2 ex). fold (pow2 ey). rewrite !val_finite.
  destruct sx, sy; cbn [xorb]; rewrite pow2_plus, Pos2Z.inj_mul, inject_Z_mult; ring.
Qed.
Lemma mul_rounds x y : ieee x -> ieee y -> same (value (SFmul 53 1024 x y)) (round64 (xmul (value x) (value y))).
Proof.
  destruct x as [sx|sx| |sx mx ex], y as [sy|sy| |sy my ey]; intros X Y; try exact I;
    try (apply mul_finite; auto); try (destruct sx, sy; exact I);
    try (destruct sx; exact I); try (destruct sy; exact I).
  - apply same_refl.
  - cbn [SFmul value xmul]. eapply same_trans; [|apply (round64_compat 0)]; [apply same_refl|ring].
  - cbn [SFmul]. cbn [value]. fold (pow2 ey). destruct sx; cbn [xmul]; rewrite sign_of; destruct sy; exact I.
  - cbn [SFmul value xmul]. eapply same_trans; [|apply (round64_compat 0)]; [apply same_refl|ring].
  - cbn [SFmul]. cbn [value]. fold (pow2 ex). destruct sy; cbn [xmul]; rewrite sign_of; destruct sx; exact I.
Qed.
