(** Comparing large powers with 64 significant bits, for the tests of annual returns. *)
From Coq Require Import ZArith Lia.
Open Scope Z_scope.

(** [(m, e)] stands for [m * 2 ^ e]. *)
Definition lo (x : Z * Z) : Z * Z :=
  let k := Z.log2 (fst x) - 64 in if 0 <? k then (Z.shiftr (fst x) k, snd x + k) else x.
Definition hi (x : Z * Z) : Z * Z :=
  let k := Z.log2 (fst x) - 64 in if 0 <? k then (Z.shiftr (fst x) k + 1, snd x + k) else x.
Definition mul (x y : Z * Z) : Z * Z := (fst x * fst y, snd x + snd y).
Fixpoint pw (r : Z * Z -> Z * Z) (b : Z) (n : nat) : Z * Z :=
  match n with O => (1, 0) | S n' => r (mul (b, 0) (pw r b n')) end.
Definition lt (x y : Z * Z) : bool :=
  if snd x <=? snd y then fst x <? Z.shiftl (fst y) (snd y - snd x) else Z.shiftl (fst x) (snd x - snd y) <? fst y.

Definition val (x : Z * Z) : Z := fst x * 2 ^ snd x.
Definition good (x : Z * Z) : Prop := 0 <= fst x /\ 0 <= snd x.

Lemma pow_split m e k : 0 <= e -> 0 <= k -> m * 2 ^ (e + k) = m * 2 ^ k * 2 ^ e.
Proof. intros. rewrite Z.pow_add_r by lia. ring. Qed.
Lemma lo_le x : good x -> good (lo x) /\ val (lo x) <= val x.
Proof.
  intros [A B]. unfold lo. cbv zeta. destruct (Z.ltb_spec 0 (Z.log2 (fst x) - 64)) as [K|K]; [|split; [split; auto|lia]].
  set (k := Z.log2 (fst x) - 64) in *. assert (0 < 2 ^ k) by (apply Z.pow_pos_nonneg; lia).
  unfold good, val. cbn [fst snd]. rewrite Z.shiftr_div_pow2 by lia. split.
  - split; [apply Z.div_pos; lia|lia].
  - rewrite pow_split by lia. apply Z.mul_le_mono_nonneg_r; [apply Z.pow_nonneg; lia|].
    rewrite Z.mul_comm. now apply Z.mul_div_le.
Qed.
Lemma hi_ge x : good x -> good (hi x) /\ val x <= val (hi x).
Proof.
  intros [A B]. unfold hi. cbv zeta. destruct (Z.ltb_spec 0 (Z.log2 (fst x) - 64)) as [K|K]; [|split; [split; auto|lia]].
  set (k := Z.log2 (fst x) - 64) in *. assert (0 < 2 ^ k) by (apply Z.pow_pos_nonneg; lia).
  unfold good, val. cbn [fst snd]. rewrite Z.shiftr_div_pow2 by lia. split.
  - split; [apply Z.add_nonneg_nonneg; [apply Z.div_pos; lia|lia]|lia].
  - rewrite pow_split by lia. apply Z.mul_le_mono_nonneg_r; [apply Z.pow_nonneg; lia|].
    pose proof (Z.mul_succ_div_gt (fst x) (2 ^ k)). lia.
Qed.
Lemma mul_val x y : good x -> good y -> good (mul x y) /\ val (mul x y) = val x * val y.
Proof.
  intros [A B] [C D]. unfold mul, good, val. cbn [fst snd]. split; [split; lia|]. rewrite Z.pow_add_r by lia. ring.
Qed.
Lemma val_nonneg x : good x -> 0 <= val x.
Proof. intros [A B]. unfold val. apply Z.mul_nonneg_nonneg; auto. apply Z.pow_nonneg. lia. Qed.
Lemma good_int b : 0 <= b -> good (b, 0) /\ val (b, 0) = b.
Proof. intros. unfold good, val. cbn [fst snd]. rewrite Z.pow_0_r. lia. Qed.
Lemma pw_lo b n : 0 <= b -> good (pw lo b n) /\ val (pw lo b n) <= b ^ Z.of_nat n.
Proof.
  intros Hb. destruct (good_int b Hb) as [G V]. induction n as [|n [IG IV]]; [split; [split; cbn; lia|reflexivity]|].
  cbn [pw]. destruct (mul_val _ _ G IG) as [MG MV]. destruct (lo_le _ MG) as [LG LV]. split; auto.
  rewrite Nat2Z.inj_succ, Z.pow_succ_r by lia. rewrite MV, V in LV. pose proof (Z.mul_le_mono_nonneg_l _ _ b Hb IV). lia.
Qed.
Lemma pw_hi b n : 0 <= b -> good (pw hi b n) /\ b ^ Z.of_nat n <= val (pw hi b n).
Proof.
  intros Hb. destruct (good_int b Hb) as [G V]. induction n as [|n [IG IV]]; [split; [split; cbn; lia|reflexivity]|].
  cbn [pw]. destruct (mul_val _ _ G IG) as [MG MV]. destruct (hi_ge _ MG) as [LG LV]. split; auto.
  rewrite Nat2Z.inj_succ, Z.pow_succ_r by lia. rewrite MV, V in LV. pose proof (Z.mul_le_mono_nonneg_l _ _ b Hb IV). lia.
Qed.
Lemma lt_val x y : good x -> good y -> lt x y = true -> val x < val y.
Proof.
  intros [A B] [C D]. unfold lt, val. destruct (Z.leb_spec (snd x) (snd y)) as [L|L]; intros H; apply Z.ltb_lt in H; rewrite Z.shiftl_mul_pow2 in H by lia.
  - replace (snd y) with (snd x + (snd y - snd x)) by lia. rewrite pow_split by lia. apply Z.mul_lt_mono_pos_r; auto. apply Z.pow_pos_nonneg; lia.
  - replace (snd x) with (snd y + (snd x - snd y)) by lia. rewrite pow_split by lia. apply Z.mul_lt_mono_pos_r; auto. apply Z.pow_pos_nonneg; lia.
Qed.

(** [a ^ n < b ^ m * c ^ n] and the converse. *)
Definition below (a : Z) (n : nat) (b : Z) (m : nat) (c : Z) : bool := lt (pw hi a n) (mul (pw lo b m) (pw lo c n)).
Definition above (a : Z) (n : nat) (b : Z) (m : nat) (c : Z) : bool := lt (mul (pw hi b m) (pw hi c n)) (pw lo a n).
Lemma below_sound a n b m c : 0 <= a -> 0 <= b -> 0 <= c -> below a n b m c = true ->
  a ^ Z.of_nat n < b ^ Z.of_nat m * c ^ Z.of_nat n.
Proof.
  intros A B C H. destruct (pw_hi a n A) as [G1 V1], (pw_lo b m B) as [G2 V2], (pw_lo c n C) as [G3 V3].
  destruct (mul_val _ _ G2 G3) as [G V]. apply lt_val in H; auto. rewrite V in H.
  pose proof (val_nonneg _ G2). pose proof (val_nonneg _ G3).
  assert (val (pw lo b m) * val (pw lo c n) <= b ^ Z.of_nat m * c ^ Z.of_nat n) by (apply Z.mul_le_mono_nonneg; auto). lia.
Qed.
Lemma above_sound a n b m c : 0 <= a -> 0 <= b -> 0 <= c -> above a n b m c = true ->
  b ^ Z.of_nat m * c ^ Z.of_nat n < a ^ Z.of_nat n.
Proof.
  intros A B C H. destruct (pw_lo a n A) as [G1 V1], (pw_hi b m B) as [G2 V2], (pw_hi c n C) as [G3 V3].
  destruct (mul_val _ _ G2 G3) as [G V]. apply lt_val in H; auto. rewrite V in H.
  assert (0 <= b ^ Z.of_nat m) by (apply Z.pow_nonneg; auto). assert (0 <= c ^ Z.of_nat n) by (apply Z.pow_nonneg; auto).
  assert (b ^ Z.of_nat m * c ^ Z.of_nat n <= val (pw hi b m) * val (pw hi c n)) by (apply Z.mul_le_mono_nonneg; auto). lia.
Qed.
