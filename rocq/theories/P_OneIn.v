From Coq Require Import Ascii Lqa Setoid Qabs.
From Verif Require Import Base M_Values M_Ops M_OneIn SpecOneIn SpecRound P_Round.
Open Scope Z_scope.

(* ------------------------------------------------- digits *)
Definition is_digit (d : Z) : Prop := 0 <= d <= 9.
Lemma digit_read d : is_digit d -> digit_value (digit d) = Some d.
Proof.
  intros H. assert (d = 0 \/ d = 1 \/ d = 2 \/ d = 3 \/ d = 4 \/ d = 5 \/ d = 6 \/ d = 7 \/ d = 8 \/ d = 9) as C by (unfold is_digit in H; lia).
  repeat (destruct C as [->|C]; [reflexivity|]). subst. reflexivity.
Qed.
Lemma digit_other d c : is_digit d -> In c [","; "."; "-"]%char -> Ascii.eqb (digit d) c = false.
Proof.
  intros H I. assert (d = 0 \/ d = 1 \/ d = 2 \/ d = 3 \/ d = 4 \/ d = 5 \/ d = 6 \/ d = 7 \/ d = 8 \/ d = 9) as C by (unfold is_digit in H; lia).
  destruct I as [<-|[<-|[<-|[]]]]; repeat (destruct C as [->|C]; [reflexivity|]); subst; reflexivity.
Qed.
(** Value of digits, last one first. *)
Fixpoint value (ds : list Z) : Z := match ds with [] => 0 | d :: r => d + 10 * value r end.
Lemma dec_value f : forall n, 0 <= n -> n < 2 ^ (Z.of_nat f) -> value (dec f n) = n /\ Forall is_digit (dec f n).
Proof.
  induction f as [|f IH]; intros n N L.
  - change (2 ^ Z.of_nat 0) with 1 in L. simpl. split; [lia|constructor].
  - cbn [dec]. destruct (n <? 10) eqn:E.
    + apply Z.ltb_lt in E. cbn [value]. split; [lia|]. constructor; [unfold is_digit; lia|constructor].
    + apply Z.ltb_ge in E. rewrite Nat2Z.inj_succ, Z.pow_succ_r in L by lia.
      destruct (IH (n / 10)) as [A B].
      * apply Z.div_pos; lia.
      * apply Z.div_lt_upper_bound; lia.
      * cbn [value]. rewrite A. pose proof (Z.div_mod n 10). pose proof (Z.mod_pos_bound n 10). split; [lia|]. constructor; auto. unfold is_digit. lia.
Qed.
Lemma decimal_value n : 0 <= n -> value (decimal n) = n /\ Forall is_digit (decimal n) /\ decimal n <> [].
Proof.
  intros N. unfold decimal. destruct (dec_value (S (Z.to_nat (Z.log2 n))) n) as [A B]; auto.
  - rewrite Nat2Z.inj_succ, Z2Nat.id by apply Z.log2_nonneg. destruct (Z.eq_dec n 0) as [->|NZ]; [reflexivity|].
    apply Z.log2_spec. lia.
  - split; auto. split; auto. cbn [dec]. destruct (n <? 10); discriminate.
Qed.

(* ------------------------------------------------- commas *)
Lemma group_read ds : forall i s, Forall is_digit ds ->
  forall acc, read_int acc (rev (group i ds) ++ s) = read_int (acc * 10 ^ Z.of_nat (length ds) + value ds) s.
Proof.
  induction ds as [|d ds IH]; intros i s F acc.
  - simpl. f_equal. lia.
  - inversion F as [|? ? D F']; subst.
    assert (R : forall t a, read_int a (digit d :: t) = read_int (10 * a + d) t).
    { intros t a. cbn [read_int]. rewrite digit_other by (auto; simpl; auto). now rewrite digit_read. }
    assert (P : acc * 10 ^ Z.of_nat (length (d :: ds)) + value (d :: ds) = 10 * (acc * 10 ^ Z.of_nat (length ds) + value ds) + d).
    { cbn [length value]. rewrite Nat2Z.inj_succ, Z.pow_succ_r by lia. ring. }
    rewrite P. cbn [group]. destruct (Nat.eqb i 3); cbn [rev]; rewrite <- ?app_assoc; cbn [app]; rewrite IH by auto; [|now rewrite R].
    rewrite R. reflexivity.
Qed.
Lemma grouped_read n s : 0 <= n -> read_int 0 (grouped n ++ s) = read_int n s.
Proof.
  intros N. destruct (decimal_value n N) as (V & D & _). unfold grouped. rewrite group_read by auto. rewrite V. reflexivity.
Qed.
Lemma group_chars ds : forall i c, Forall is_digit ds -> In c (group i ds) -> c = comma \/ exists d, is_digit d /\ c = digit d.
Proof.
  induction ds as [|d ds IH]; intros i c F I; simpl in I; [contradiction|]. inversion F; subst.
  destruct (Nat.eqb i 3); simpl in I.
  - destruct I as [<-|[<-|I]]; eauto.
  - destruct I as [<-|I]; eauto.
Qed.
Lemma grouped_chars n c : 0 <= n -> In c (grouped n) -> c = comma \/ exists d, is_digit d /\ c = digit d.
Proof. intros N I. destruct (decimal_value n N) as (V & D & _). unfold grouped in I. apply in_rev in I. eapply group_chars; eauto. Qed.
Lemma group_places ds : forall i j, (i <= 3)%nat -> (j < length (group i ds))%nat -> Forall is_digit ds ->
  (nth j (group i ds) "0"%char = ","%char <-> Nat.modulo (i + j) 4 = 3%nat).
Proof.
  assert (N : forall d, is_digit d -> digit d <> ","%char).
  { intros d D E. pose proof (digit_other d "," D) as H. rewrite E in H. simpl in H. specialize (H (or_introl eq_refl)). discriminate. }
  induction ds as [|d ds IH]; intros i j Li Lj F; [simpl in Lj; lia|]. inversion F as [|? ? D F']; subst.
  cbn [group] in *. destruct (Nat.eqb i 3) eqn:E.
  - apply Nat.eqb_eq in E. subst i. destruct j as [|[|j]].
    + simpl. split; auto.
    + cbn [nth]. split; [intros C; now apply N in C|]. intros C. discriminate.
    + cbn [nth length] in *. rewrite (IH 1%nat j) by (auto; lia).
      replace (3 + S (S j))%nat with (1 + j + 1 * 4)%nat by lia. rewrite Nat.mod_add by lia. tauto.
  - apply Nat.eqb_neq in E. destruct j as [|j].
    + cbn [nth]. split; [intros C; now apply N in C|]. intros C. rewrite Nat.add_0_r, Nat.mod_small in C by lia. contradiction.
    + cbn [nth length] in *. rewrite (IH (S i) j) by (auto; lia). replace (i + S j)%nat with (S i + j)%nat by lia. tauto.
Qed.
Lemma group_last ds : forall i, Forall is_digit ds -> ds <> [] -> exists l d, group i ds = l ++ [digit d] /\ is_digit d.
Proof.
  induction ds as [|d ds IH]; intros i F N; [congruence|]. inversion F as [|? ? D F']; subst. cbn [group].
  destruct ds as [|e ds].
  - destruct (Nat.eqb i 3); [exists [comma], d; auto|exists [], d; auto].
  - destruct (Nat.eqb i 3).
    + destruct (IH 1%nat F') as (l & x & E & X); [discriminate|]. rewrite E. exists (comma :: digit d :: l), x. auto.
    + destruct (IH (S i) F') as (l & x & E & X); [discriminate|]. rewrite E. exists (digit d :: l), x. auto.
Qed.
Lemma grouped_places n : 0 <= n -> comma_places (grouped n).
Proof.
  intros N. destruct (decimal_value n N) as (V & D & NE). split.
  - intros i L. unfold grouped in *. rewrite rev_involutive. rewrite rev_length in L. apply (group_places (decimal n) 0 i); auto with arith.
  - intros c r E. unfold grouped in E. destruct (group_last (decimal n) 0 D NE) as (l & d & G & X). rewrite G, rev_app_distr in E.
    simpl in E. inversion E. subst. intros C. pose proof (digit_other d "," X) as H. rewrite C in H. simpl in H. specialize (H (or_introl eq_refl)). discriminate.
Qed.
(** No leading zero: the digits are those of the number itself. *)
Lemma grouped_head n : 0 <= n -> exists c r, grouped n = c :: r /\ exists d, is_digit d /\ c = digit d.
Proof.
  intros N. destruct (decimal_value n N) as (V & D & NE). destruct (group_last (decimal n) 0 D NE) as (l & d & G & X).
  unfold grouped. rewrite G, rev_app_distr. simpl. exists (digit d), (rev l). eauto.
Qed.

(* ------------------------------------------------- splitting *)
Lemma split_none s : (forall c, In c s -> Ascii.eqb c "." = false) -> split_point s = (s, None).
Proof. induction s as [|c s IH]; intros H; simpl; auto. rewrite (H c) by now left. rewrite IH; auto. intros; apply H; now right. Qed.
Lemma split_some s t : (forall c, In c s -> Ascii.eqb c "." = false) -> split_point (s ++ "."%char :: t) = (s, Some t).
Proof. induction s as [|c s IH]; intros H; simpl; auto. rewrite (H c) by now left. rewrite IH; auto. intros; apply H; now right. Qed.
Lemma grouped_no_point n c : 0 <= n -> In c (grouped n) -> Ascii.eqb c "." = false.
Proof.
  intros N I. destruct (grouped_chars n c N I) as [->|(d & D & ->)]; [reflexivity|]. apply digit_other; auto. simpl. auto.
Qed.
Lemma read_grouped n : 0 <= n -> read_unsigned (grouped n) = Some (inject_Z n).
Proof.
  intros N. unfold read_unsigned. rewrite split_none by (intros; eapply grouped_no_point; eauto).
  rewrite <- (app_nil_r (grouped n)), grouped_read by auto. reflexivity.
Qed.
Lemma head_no_minus n s : 0 <= n -> read_number (grouped n ++ s) = read_unsigned (grouped n ++ s).
Proof.
  intros N. destruct (grouped_head n N) as (c & r & E & d & D & ->). rewrite E. cbn [app read_number].
  rewrite digit_other by (auto; simpl; auto). reflexivity.
Qed.
Lemma int_text_reads z : exists r, read_number (int_text z) = Some r /\ (r == inject_Z z)%Q.
Proof.
  unfold int_text, minus. destruct (z <? 0) eqn:E.
  - apply Z.ltb_lt in E. cbn [app read_number]. cbn [Ascii.eqb]. rewrite read_grouped by lia. cbn [option_map].
    exists (- inject_Z (Z.abs z))%Q. split; [reflexivity|]. rewrite <- inject_Z_opp. replace (- Z.abs z) with z by lia. reflexivity.
  - apply Z.ltb_ge in E. cbn [app]. rewrite <- (app_nil_r (grouped _)), head_no_minus, app_nil_r, read_grouped by lia.
    replace (Z.abs z) with z by lia. eexists. split; [reflexivity|reflexivity].
Qed.

(* ------------------------------------------------- fractions *)
Lemma low_digits_value k : forall n, 0 <= n -> value (low_digits k n) = n mod 10 ^ Z.of_nat k /\ Forall is_digit (low_digits k n) /\ length (low_digits k n) = k.
Proof.
  induction k as [|k IH]; intros n N.
  - simpl. split; [now rewrite Z.mod_1_r|auto].
  - destruct (IH (n / 10)) as (A & B & C); [apply Z.div_pos; lia|]. cbn [low_digits value length]. rewrite A, C. split; [|split; auto].
    + rewrite Nat2Z.inj_succ, Z.pow_succ_r by lia. rewrite (Z.rem_mul_r n 10 (10 ^ Z.of_nat k)); lia.
    + constructor; auto. pose proof (Z.mod_pos_bound n 10). unfold is_digit. lia.
Qed.
Lemma pow10_succ k : (inject_Z (10 ^ Z.of_nat (S k)) == 10 * inject_Z (10 ^ Z.of_nat k))%Q.
Proof. rewrite Nat2Z.inj_succ, Z.pow_succ_r by lia. rewrite inject_Z_mult. reflexivity. Qed.
Lemma pow10_nz k : ~ (inject_Z (10 ^ Z.of_nat k) == 0)%Q.
Proof.
  intros H. change 0%Q with (inject_Z 0) in H. apply (proj1 (inject_Z_injective _ _)) in H. pose proof (Z.pow_pos_nonneg 10 (Z.of_nat k)). lia.
Qed.
Lemma read_frac_snoc s c q d : read_frac s = Some q -> digit_value c = Some d ->
  exists r, read_frac (s ++ [c]) = Some r /\ (r == q + inject_Z d / (10 * inject_Z (10 ^ Z.of_nat (length s))))%Q.
Proof.
  revert q. induction s as [|a s IH]; intros q E D.
  - cbn [read_frac app] in *. rewrite D. inversion E; subst. eexists. split; [reflexivity|]. cbn [length]. change (10 ^ Z.of_nat 0) with 1. field.
  - cbn [read_frac app] in *. destruct (digit_value a); [|discriminate]. destruct (read_frac s) as [f|]; [|discriminate]. inversion E; subst.
    destruct (IH f eq_refl D) as (r & Er & R). rewrite Er. eexists. split; [reflexivity|]. rewrite R. cbn [length]. rewrite pow10_succ.
    field. apply pow10_nz.
Qed.
Lemma frac_reads ds : Forall is_digit ds -> exists r, read_frac (map digit (rev ds)) = Some r /\
  (r == inject_Z (value ds) / inject_Z (10 ^ Z.of_nat (length ds)))%Q.
Proof.
  induction ds as [|d ds IH]; intros F.
  - eexists. split; [reflexivity|]. reflexivity.
  - inversion F as [|? ? D F']; subst. destruct (IH F') as (q & Eq & R). cbn [rev]. rewrite map_app.
    destruct (read_frac_snoc _ _ _ _ Eq (digit_read d D)) as (r & Er & Rr). exists r. split; [exact Er|].
    rewrite Rr, R, map_length, rev_length. cbn [length value]. rewrite pow10_succ, inject_Z_plus, inject_Z_mult.
    change (inject_Z 10) with 10%Q. field. apply pow10_nz.
Qed.
Lemma strip_value ds : Forall is_digit ds -> Forall is_digit (strip_zeros ds) /\
  (inject_Z (value (strip_zeros ds)) / inject_Z (10 ^ Z.of_nat (length (strip_zeros ds))) ==
   inject_Z (value ds) / inject_Z (10 ^ Z.of_nat (length ds)))%Q.
Proof.
  induction ds as [|d ds IH]; intros F; [split; [constructor|reflexivity]|]. inversion F as [|? ? D F']; subst.
  destruct ds as [|e ds]; [destruct d; split; auto; reflexivity|].
  destruct d; try (split; auto; reflexivity). destruct (IH F') as [A B].
  change (strip_zeros (0 :: e :: ds)) with (strip_zeros (e :: ds)). split; auto. rewrite B.
  change (value (0 :: e :: ds)) with (0 + 10 * value (e :: ds)). rewrite Z.add_0_l.
  change (length (0 :: e :: ds)) with (S (length (e :: ds))). rewrite pow10_succ, inject_Z_mult. change (inject_Z 10) with 10%Q.
  field. apply pow10_nz.
Qed.
Lemma float_text_reads d k : exists r, read_number (float_text d k) = Some r /\ (r == inject_Z k / inject_Z (10 ^ Z.of_nat d))%Q.
Proof.
  unfold float_text. set (t := 10 ^ Z.of_nat d). assert (T : 0 < t) by (apply Z.pow_pos_nonneg; lia).
  set (a := Z.abs k). assert (A : 0 <= a) by lia. assert (Q1 : 0 <= a / t) by (apply Z.div_pos; lia).
  assert (M : 0 <= a mod t < t) by (apply Z.mod_pos_bound; lia).
  destruct (low_digits_value d (a mod t)) as (V & D & L); [lia|].
  destruct (strip_value _ D) as [D' S]. destruct (frac_reads _ D') as (f & Ef & Rf).
  assert (U : exists r, read_unsigned (grouped (a / t) ++ "."%char :: map digit (rev (strip_zeros (low_digits d (a mod t))))) = Some r /\
              (r == inject_Z a / inject_Z t)%Q).
  { unfold read_unsigned. rewrite split_some by (intros; eapply grouped_no_point; eauto).
    rewrite <- (app_nil_r (grouped _)), grouped_read by auto. cbn [read_int]. rewrite Ef. eexists. split; [reflexivity|].
    rewrite Rf, S, V, L. fold t. rewrite Z.mod_mod by lia. assert (NZ : ~ (inject_Z t == 0)%Q) by apply pow10_nz.
    rewrite (Z.div_mod a t) at 3 by lia. rewrite inject_Z_plus, inject_Z_mult. field. auto. }
  destruct U as (u & Eu & Ru). unfold minus. destruct (k <? 0) eqn:E.
  - apply Z.ltb_lt in E. cbn [app read_number Ascii.eqb]. change (Ascii.eqb "-" "-") with true. cbn iota. rewrite Eu. cbn [option_map]. eexists. split; [reflexivity|].
    rewrite Ru. replace k with (- a) by lia. rewrite inject_Z_opp. field. apply pow10_nz.
  - apply Z.ltb_ge in E. cbn [app]. rewrite head_no_minus by auto. rewrite Eu. eexists. split; [reflexivity|]. rewrite Ru. replace a with k by lia. reflexivity.
Qed.

Lemma low_digits_some d n : d <> O -> low_digits d n <> [].
Proof. destruct d; simpl; congruence. Qed.
Lemma strip_shortest ds : ds <> [] -> Forall is_digit ds ->
  exists e r, strip_zeros ds = e :: r /\ is_digit e /\ (e <> 0 \/ r = []).
Proof.
  induction ds as [|d ds IH]; intros N F; [congruence|]. inversion F as [|? ? D F']; subst.
  destruct ds as [|e ds]; [exists d, []; destruct d; auto|].
  destruct d; [|eexists _, _; (split; [reflexivity|split; [exact D|left; discriminate]]) ..].
  apply IH; congruence || assumption.
Qed.
Lemma digit_zero d : is_digit d -> digit d = "0"%char -> d = 0.
Proof. intros D E. assert (C := digit_read d D). rewrite E in C. vm_compute in C. injection C as C. auto. Qed.
Lemma float_text_shortest d k : d <> O ->
  exists a f z, float_text d k = a ++ "."%char :: f ++ [z] /\ (z <> "0"%char \/ f = []).
Proof.
  intros N. unfold float_text. set (t := 10 ^ Z.of_nat d). assert (T : 0 < t) by (apply Z.pow_pos_nonneg; lia).
  assert (M : 0 <= Z.abs k mod t < t) by (apply Z.mod_pos_bound; lia).
  destruct (low_digits_value d (Z.abs k mod t)) as (V & D & L); [lia|].
  destruct (strip_shortest _ (low_digits_some d (Z.abs k mod t) N) D) as (e & r & E & De & C). rewrite E.
  exists (minus k ++ grouped (Z.abs k / t)), (map digit (rev r)), (digit e). split.
  - cbn [rev]. rewrite map_app, <- app_assoc. reflexivity.
  - destruct C as [C| ->]; [left|right; reflexivity]. intros Z0. apply C. now apply digit_zero.
Qed.

(* ------------------------------------------------- one_in *)
Open Scope Q_scope.
Lemma rounded_multiple q d : np_round q d * pow10 d == inject_Z (round_half_even (q * pow10 d)).
Proof. unfold np_round. field. pose proof (pow10_pos d) as P. unfold pow10 in *. lra. Qed.
Lemma nonneg_int d k : (d <= 0)%Z -> exists z, inject_Z k / pow10 d == inject_Z z.
Proof.
  intros L. exists (k * 10 ^ (- d))%Z. rewrite inject_Z_mult. unfold pow10.
  assert (E : inject_Z (10 ^ (- d)) == / Qpower 10 d).
  { rewrite <- Qpower_opp. rewrite Zpower_Qpower by lia. reflexivity. }
  rewrite E. reflexivity.
Qed.
Lemma one_in_number p digits x : one_in_num p digits = Ok x ->
  ~ p == 0 /\
  match digits with
  | None => x = OFlt (1 / p)
  | Some d => exists r, rounds d (1 / p) r /\
      if (d <=? 0)%Z then exists z, x = OInt z /\ inject_Z z == r else x = OFlt r
  end.
Proof.
  unfold one_in_num. destruct (Qeq_bool p 0) eqn:E; [discriminate|]. apply Qeq_bool_neq in E. intros H. split; auto.
  destruct digits as [d|]; [|now inversion H]. exists (np_round (1 / p) d). split; [apply np_round_rounds|].
  destruct (d <=? 0)%Z eqn:D; inversion H; subst; auto. eexists. split; [reflexivity|].
  apply Z.leb_le in D. destruct (nonneg_int d (round_half_even (1 / p * pow10 d)) D) as (z & Ez).
  assert (En : np_round (1 / p) d == inject_Z z) by exact Ez. rewrite (Qfloor_comp _ _ En), Qfloor_Z. now symmetry.
Qed.
Lemma one_in_zero p digits : p == 0 -> one_in_num p digits = Err ZeroDivisionError.
Proof. intros E. unfold one_in_num. now rewrite (proj2 (Qeq_bool_iff p 0) E). Qed.
Lemma pow10_int d : (0 <= d)%Z -> pow10 d == inject_Z (10 ^ d).
Proof. intros D. unfold pow10. rewrite Zpower_Qpower by auto. reflexivity. Qed.
Lemma one_in_says p d s : one_in_text p (Some d) = Ok s ->
  exists r, rounds d (1 / p) r /\ reads_one_in s r.
Proof.
  unfold one_in_text. destruct (one_in_num p (Some d)) as [x|] eqn:E; [|discriminate]. cbn [bind].
  apply one_in_number in E as [NZ (r & R & X)]. intros H. exists r. split; auto.
  destruct (d <=? 0)%Z eqn:D.
  - destruct X as (z & -> & Ez). inversion H; subst. destruct (int_text_reads z) as (q & Eq & Rq).
    exists (int_text z), q. split; auto. split; auto. now rewrite Rq.
  - subst x. destruct (_ && _); [|discriminate]. inversion H; subst. apply Z.leb_gt in D.
    destruct (float_text_reads (Z.to_nat d) (Qfloor (r * pow10 d))) as (q & Eq & Rq). exists (float_text (Z.to_nat d) (Qfloor (r * pow10 d))), q.
    split; auto. split; auto. rewrite Rq, Z2Nat.id by lia. destruct R as (k & Ek & _).
    assert (P : 0 < pow10 d) by apply pow10_pos. assert (Ek' : r * pow10 d == inject_Z k) by (rewrite Ek; fold (pow10 d); field; lra).
    rewrite (Qfloor_comp _ _ Ek'), Qfloor_Z, <- pow10_int by lia. rewrite Ek. reflexivity.
Qed.
Lemma reads_unique s q q' : reads_one_in s q -> reads_one_in s q' -> q == q'.
Proof.
  intros (t & r & E & R & Q1) (t' & r' & E' & R' & Q2). rewrite E in E'.
  apply (f_equal String.list_ascii_of_string) in E'. rewrite !String.list_ascii_of_string_of_list_ascii in E'.
  apply app_inv_head in E'. subst t'. rewrite R in R'. inversion R'. subst. now rewrite <- Q1.
Qed.
Lemma one_in_determines p p' d d' s : one_in_text p (Some d) = Ok s -> one_in_text p' (Some d') = Ok s ->
  exists r, rounds d (1 / p) r /\ rounds d' (1 / p') r.
Proof.
  intros A B. destruct (one_in_says _ _ _ A) as (r & R & Sr). destruct (one_in_says _ _ _ B) as (r' & R' & Sr').
  exists r. split; auto. pose proof (reads_unique _ _ _ Sr Sr') as E. eapply rounds_compat; [reflexivity| |exact R']. now symmetry.
Qed.
Lemma one_in_defined p d : (d <= 0)%Z -> ~ p == 0 -> exists s, one_in_text p (Some d) = Ok s.
Proof.
  intros D N. unfold one_in_text, one_in_num. destruct (Qeq_bool p 0) eqn:E; [apply Qeq_bool_iff in E; contradiction|].
  rewrite (proj2 (Z.leb_le d 0) D). cbn [bind]. eauto.
Qed.
Lemma one_in_commas p d z : one_in_num p (Some d) = Ok (OInt z) -> (0 <= z)%Z ->
  exists t, one_in_text p (Some d) = Ok (String.string_of_list_ascii (String.list_ascii_of_string "1 in " ++ t)) /\ comma_places t.
Proof.
  intros E N. exists (grouped z). unfold one_in_text. rewrite E. cbn [bind]. unfold int_text, minus.
  rewrite (proj2 (Z.ltb_ge z 0) N). replace (Z.abs z) with z by lia. split; [reflexivity|]. now apply grouped_places.
Qed.

Lemma one_in_shortest p d q s : one_in_num p (Some d) = Ok (OFlt q) -> one_in_text p (Some d) = Ok s ->
  exists a f z, s = String.string_of_list_ascii (a ++ "."%char :: f ++ [z]) /\ (z <> "0"%char \/ f = []).
Proof.
  unfold one_in_text. intros E. rewrite E. cbn [bind]. cbv zeta.
  assert (P : (0 < d)%Z).
  { unfold one_in_num in E. destruct (Qeq_bool p 0); [discriminate|]. cbv zeta in E.
    destruct (Z.leb_spec d 0); [discriminate|assumption]. }
  destruct (_ && _)%bool; [|discriminate]. intros H. injection H as H. subst s.
  destruct (float_text_shortest (Z.to_nat d) (Qfloor (q * pow10 d))) as (a & f & z & F & C); [lia|].
  rewrite F. exists (String.list_ascii_of_string "1 in " ++ a)%list, f, z. rewrite <- app_assoc. split; [reflexivity|exact C].
Qed.

(** For which numbers with decimals the text is modelled: those of at most 15 digits that are
    0 or not below 0.0001 in size. *)
Lemma one_in_float_defined p d q : one_in_num p (Some d) = Ok (OFlt q) ->
  (exists s, one_in_text p (Some d) = Ok s) <->
  Qabs q * pow10 d < inject_Z (10 ^ 15) /\ (q == 0 \/ 1 # 10000 <= Qabs q).
Proof.
  intros E. unfold one_in_text. rewrite E. cbn [bind]. cbv zeta.
  assert (P : (0 < d)%Z).
  { unfold one_in_num in E. destruct (Qeq_bool p 0); [discriminate|]. cbv zeta in E.
    destruct (Z.leb_spec d 0); [discriminate|assumption]. }
  assert (M : exists k, q * pow10 d == inject_Z k).
  { unfold one_in_num in E. destruct (Qeq_bool p 0); [discriminate|]. cbv zeta in E.
    destruct (Z.leb_spec d 0); [discriminate|]. injection E as E. subst q. eexists. apply rounded_multiple. }
  destruct M as [k M]. rewrite (Qfloor_comp _ _ M), Qfloor_Z.
  assert (T : 0 < pow10 d) by apply pow10_pos.
  assert (A : Qabs q * pow10 d == inject_Z (Z.abs k)).
  { rewrite <- (Qabs_pos (pow10 d)) by lra. rewrite <- Qabs_Qmult, M. reflexivity. }
  assert (Z0 : k = 0%Z <-> q == 0).
  { split; intros H.
    - subst k. change (inject_Z 0) with 0 in M. assert (K : q == (q * pow10 d) / pow10 d) by (field; lra).
      rewrite K, M. field. lra.
    - assert (K : inject_Z k == inject_Z 0) by (rewrite <- M, H; change (inject_Z 0) with 0; ring).
      unfold Qeq in K. cbn in K. lia. }
  assert (B : (10 ^ d <= Z.abs k * 10 ^ 4)%Z <-> 1 # 10000 <= Qabs q).
  { rewrite Zle_Qle, inject_Z_mult, <- A, <- pow10_int by lia.
    change (inject_Z (10 ^ 4)) with 10000. split; intros H; nra. }
  rewrite A, <- Zlt_Qlt.
  destruct (Z.ltb_spec (Z.abs k) (10 ^ 15)); cbn [andb].
  2: { split; [intros [s H']; discriminate|]. intros [H' _]. lia. }
  destruct (Z.eqb_spec k 0); cbn [orb].
  { split; intros _; [split; [assumption|]; left; tauto|eauto]. }
  destruct (Z.leb_spec (10 ^ d) (Z.abs k * 10 ^ 4)).
  - split; intros _; [|eauto]. split; [assumption|]. right. tauto.
  - split; [intros [s H']; discriminate|]. intros [_ [H'|H']]; [tauto|]. apply B in H'. lia.
Qed.
Lemma one_in_falls p p' digits x x' : 0 < p -> p <= p' -> one_in_num p digits = Ok x -> one_in_num p' digits = Ok x' ->
  one_value x' <= one_value x.
Proof.
  intros P L. unfold one_in_num. destruct (Qeq_bool p 0) eqn:A; [discriminate|]. destruct (Qeq_bool p' 0) eqn:B; [discriminate|].
  assert (I : 1 / p' <= 1 / p).
  { apply Qle_shift_div_r; [lra|]. assert (X : 1 / p * p' == p' / p) by (field; lra). rewrite X. apply Qle_shift_div_l; lra. }
  destruct digits as [d|]; [|intros E E'; injection E as <-; injection E' as <-; exact I].
  pose proof (np_round_mono _ _ d I) as R. destruct (d <=? 0)%Z; intros E E'; injection E as <-; injection E' as <-; cbn [one_value]; auto.
  rewrite <- Zle_Qle. now apply Qfloor_resp_le.
Qed.
