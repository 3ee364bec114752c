(** Resolve dates: texts, the calendar and the days left. *)
From Coq Require Import Ascii String.
From Verif Require Import Base M_IntText M_Kelly M_Date SpecIntText SpecDate.
Open Scope Z_scope.

Ltac Zifys := Z.to_euclidean_division_equations; lia.

Lemma leap_iff y : is_leap y = true <-> leap_year y.
Proof.
  unfold is_leap, leap_year. rewrite andb_true_iff, orb_true_iff, negb_true_iff, !Z.eqb_eq, Z.eqb_neq.
  rewrite <- !Z.mod_divide by lia. split; intros [A B]; split; auto.
  - intros H. destruct B as [B|B]; [contradiction|exact B].
  - destruct (Z.eq_dec (y mod 100) 0) as [E|E]; [right; auto|left; exact E].
Qed.
Lemma month_length_iff y m n : month_length y m n <-> 1 <= m <= 12 /\ n = days_in_month y m.
Proof.
  unfold days_in_month. split.
  - intros H. inversion H as [m' I|m' I|L|L]; subst.
    + simpl in I. split; [lia|]. destruct I as [<-|[<-|[<-|[<-|[<-|[<-|[<-|[]]]]]]]]; reflexivity.
    + simpl in I. split; [lia|]. destruct I as [<-|[<-|[<-|[<-|[]]]]]; reflexivity.
    + split; [lia|]. rewrite Z.eqb_refl. destruct (is_leap y) eqn:E; [apply leap_iff in E; contradiction|reflexivity].
    + split; [lia|]. rewrite Z.eqb_refl. apply leap_iff in L. now rewrite L.
  - intros [R ->]. destruct (Z.eqb_spec m 2) as [->|N2].
    + destruct (is_leap y) eqn:E; constructor; [now apply leap_iff|]. intros L. apply leap_iff in L. congruence.
    + destruct ((m =? 4) || (m =? 6) || (m =? 9) || (m =? 11)) eqn:E.
      * constructor. rewrite !orb_true_iff, !Z.eqb_eq in E. simpl. lia.
      * constructor. rewrite !orb_false_iff, !Z.eqb_neq in E. simpl. lia.
Qed.
Lemma valid_iff a : valid_day a = true <-> real_day (year a) (month a) (dom a).
Proof.
  unfold valid_day, real_day. rewrite !andb_true_iff, !Z.leb_le. split.
  - intros H. split; [lia|]. exists (days_in_month (year a) (month a)). split; [apply month_length_iff; split; [lia|reflexivity]|lia].
  - intros (Y & n & M & D). apply month_length_iff in M as [M ->]. lia.
Qed.

Lemma month_days y m : 28 <= days_in_month y m <= 31.
Proof. unfold days_in_month. repeat match goal with |- context [if ?b then _ else _] => destruct b end; lia. Qed.

(** ** Ordinals count days *)
Lemma year_step y : days_before_year (y + 1) = days_before_year y + 365 + (if is_leap y then 1 else 0).
Proof.
  unfold days_before_year. replace (y + 1 - 1) with y by lia.
  assert (E : (if is_leap y then 1 else 0) = (y / 4 - (y - 1) / 4) - (y / 100 - (y - 1) / 100) + (y / 400 - (y - 1) / 400)).
  { assert (D : forall k, 0 < k -> y / k - (y - 1) / k = if y mod k =? 0 then 1 else 0).
    { intros k K. destruct (Z.eqb_spec (y mod k) 0) as [E|E].
      - assert ((y - 1) / k = y / k - 1); [|lia]. symmetry. apply (Z.div_unique _ _ _ (k - 1)); [lia|].
        rewrite (Z.div_mod y k) at 1 by lia. rewrite E. lia.
      - pose proof (Z.mod_pos_bound y k K). assert ((y - 1) / k = y / k); [|lia]. symmetry. apply (Z.div_unique _ _ _ (y mod k - 1)); [lia|].
        rewrite (Z.div_mod y k) at 1 by lia. lia. }
    rewrite !D by lia. unfold is_leap.
    assert (A : y mod 100 = 0 -> y mod 4 = 0) by (intros H; apply Z.mod_divide; [lia|]; apply Z.mod_divide in H; [|lia]; destruct H as [q ->]; exists (25 * q); lia).
    assert (B : y mod 400 = 0 -> y mod 100 = 0) by (intros H; apply Z.mod_divide; [lia|]; apply Z.mod_divide in H; [|lia]; destruct H as [q ->]; exists (4 * q); lia).
    destruct (Z.eqb_spec (y mod 4) 0), (Z.eqb_spec (y mod 100) 0), (Z.eqb_spec (y mod 400) 0); cbn; try reflexivity; tauto. }
  rewrite E. lia.
Qed.
Lemma month_cases m : 1 <= m <= 12 -> m = 1 \/ m = 2 \/ m = 3 \/ m = 4 \/ m = 5 \/ m = 6 \/ m = 7 \/ m = 8 \/ m = 9 \/ m = 10 \/ m = 11 \/ m = 12.
Proof. lia. Qed.
Lemma month_step y m : 1 <= m < 12 -> days_before_month y (m + 1) = days_before_month y m + days_in_month y m.
Proof.
  intros R. destruct (month_cases m ltac:(lia)) as [->|[->|[->|[->|[->|[->|[->|[->|[->|[->|[->| ->]]]]]]]]]]]; try lia;
    unfold days_before_month, days_in_month; destruct (is_leap y); vm_compute; reflexivity.
Qed.
Lemma december y : days_before_month y 12 + 31 = 365 + (if is_leap y then 1 else 0).
Proof. unfold days_before_month. destruct (is_leap y); vm_compute; reflexivity. Qed.
Lemma january y : days_before_month y 1 = 0.
Proof. unfold days_before_month. destruct (is_leap y); vm_compute; reflexivity. Qed.

Definition ord3 (t : Z * Z * Z) : Z := let '(y, m, d) := t in ordinal (Day y m d).
Lemma next_ordinal a b : next_day a b -> ord3 b = ord3 a + 1.
Proof.
  intros H. inversion H as [y m d n M L|y m n M L|y]; subst; cbn [ord3]; unfold ordinal; cbn [year month dom].
  - lia.
  - apply month_length_iff in M as [M ->]. rewrite month_step by lia. lia.
  - rewrite year_step, january. pose proof (december y). lia.
Qed.
Lemma after_ordinal n a b : days_after n a b -> ord3 b = ord3 a + Z.of_nat n.
Proof. induction 1 as [a|n a b c H IH N]; [lia|]. apply next_ordinal in N. lia. Qed.

(** ** Any two days are some number of days apart *)
Definition real3 (t : Z * Z * Z) : Prop := let '(y, m, d) := t in real_day y m d.
Lemma day_before y m d : real_day y m d -> (y, m, d) <> (1, 1, 1) -> exists p, real3 p /\ next_day p (y, m, d).
Proof.
  intros (Y & n & M & D) N. pose proof M as M0. apply month_length_iff in M as [M ->].
  destruct (Z.eq_dec d 1) as [->|ND].
  - destruct (Z.eq_dec m 1) as [->|NM].
    + exists (y - 1, 12, 31). split.
      * split; [assert (y <> 1) by congruence; lia|]. exists 31. split; [constructor; simpl; tauto|lia].
      * replace y with (y - 1 + 1) at 2 by lia. apply next_year.
    + exists (y, m - 1, days_in_month y (m - 1)).
      assert (ML : month_length y (m - 1) (days_in_month y (m - 1))) by (apply month_length_iff; split; [lia|reflexivity]).
      split.
      * split; [exact Y|]. eexists. split; [exact ML|]. pose proof (month_days y (m - 1)). lia.
      * replace m with (m - 1 + 1) at 3 by lia. apply next_month; [exact ML|lia].
  - exists (y, m, d - 1). split; [split; [exact Y|]; eexists; split; [exact M0|]; lia|].
    replace d with (d - 1 + 1) at 2 by lia. eapply next_in_month; [exact M0|lia].
Qed.
Lemma ordinal_pos y m d : real_day y m d -> 1 <= ord3 (y, m, d).
Proof.
  intros (Y & n & M & D). apply month_length_iff in M as [M _]. cbn [ord3]. unfold ordinal. cbn [year month dom].
  assert (0 <= days_before_year y) by (unfold days_before_year; cbv zeta; Z.to_euclidean_division_equations; lia).
  assert (0 <= days_before_month y m).
  { destruct (month_cases m M) as [->|[->|[->|[->|[->|[->|[->|[->|[->|[->|[->| ->]]]]]]]]]]]; unfold days_before_month; destruct (is_leap y); vm_compute; discriminate. }
  lia.
Qed.
Lemma from_first k : forall y m d, real_day y m d -> (Z.to_nat (ord3 (y, m, d)) <= k)%nat -> exists n, days_after n (1, 1, 1) (y, m, d).
Proof.
  induction k as [|k IH]; intros y m d R K; [pose proof (ordinal_pos y m d R); lia|].
  assert (Dec : {(y, m, d) = (1, 1, 1)} + {(y, m, d) <> (1, 1, 1)}) by (repeat decide equality).
  destruct Dec as [E|E]; [rewrite E; exists 0%nat; constructor|].
  destruct (day_before y m d R E) as ([[y' m'] d'] & R' & Nx).
  pose proof (next_ordinal _ _ Nx) as O. pose proof (ordinal_pos _ _ _ R') as P.
  destruct (IH y' m' d' R') as (n & H); [lia|]. exists (S n). econstructor; eauto.
Qed.
Lemma length_unique y m n n' : month_length y m n -> month_length y m n' -> n = n'.
Proof. intros A B. apply month_length_iff in A as [_ ->]. apply month_length_iff in B as [_ ->]. reflexivity. Qed.
Lemma next_unique a b c : next_day a b -> next_day a c -> b = c.
Proof.
  intros H K. inversion H as [y m d n M L|y m n M L|y]; subst; inversion K as [y1 m1 d1 n1 M1 L1|y1 m1 n1 M1 L1|y1]; subst; try reflexivity; try lia.
  - pose proof (length_unique _ _ _ _ M M1). lia.
  - assert (month_length y 12 31) by (constructor; simpl; tauto). pose proof (length_unique _ _ _ _ M H0). lia.
  - pose proof (length_unique _ _ _ _ M M1). lia.
  - assert (month_length y 12 31) by (constructor; simpl; tauto). pose proof (length_unique _ _ _ _ M1 H0). lia.
Qed.
Lemma after_split n : forall k a b c, (k <= n)%nat -> days_after n a c -> days_after k a b -> days_after (n - k) b c.
Proof.
  induction n as [|n IH]; intros k a b c L H K.
  - assert (k = 0)%nat by lia. subst. inversion H; subst. inversion K; subst. constructor.
  - inversion H as [|n' a' b' c' H' Nx]; subst. destruct (Nat.eq_dec k (S n)) as [->|NE].
    + inversion K as [|n' a' b2 c2 K' Nx2]; subst. rewrite Nat.sub_diag.
      assert (b' = b2). { pose proof (IH n a b2 b' (Nat.le_refl n) H' K') as X. rewrite Nat.sub_diag in X. inversion X; auto. }
      subst. rewrite (next_unique _ _ _ Nx Nx2). constructor.
    + replace (S n - k)%nat with (S (n - k)) by lia. econstructor; [apply (IH k a b b'); auto; lia|exact Nx].
Qed.
Lemma days_total y m d y' m' d' : real_day y m d -> real_day y' m' d' ->
  exists n, days_after n (y, m, d) (y', m', d') \/ days_after n (y', m', d') (y, m, d).
Proof.
  intros A B. destruct (from_first _ _ _ _ A (Nat.le_refl _)) as (p & P). destruct (from_first _ _ _ _ B (Nat.le_refl _)) as (q & Q).
  destruct (le_ge_dec p q) as [L|L].
  - exists (q - p)%nat. left. eapply after_split; eauto.
  - exists (p - q)%nat. right. eapply after_split; eauto.
Qed.

(** ** Texts *)
Lemma digit_iff c d : digit c = Some d <-> digit_code d c.
Proof.
  unfold digit, is_digit, digit_code. destruct (Nat.leb 48 c && Nat.leb c 57) eqn:E.
  - apply andb_true_iff in E as [A B]. apply Nat.leb_le in A, B. split; [intros H; inversion H; lia|intros [H K]; f_equal; lia].
  - split; [discriminate|]. intros [H K]. apply andb_false_iff in E as [E|E]; apply Nat.leb_gt in E; lia.
Qed.
Lemma digit_dash : digit 45 = None. Proof. reflexivity. Qed.
Lemma in_two f lo hi l v r : In (v, r) (two f lo hi l) -> exists c1 c2 y, l = c1 :: c2 :: r /\ digit_code f c1 /\ digit_code y c2 /\ lo <= y <= hi /\ v = 10 * f + y.
Proof.
  unfold two. destruct l as [|a [|b l]]; try (intros []). destruct (digit a) as [x|] eqn:A; [|intros []]. destruct (digit b) as [y|] eqn:B; [|intros []].
  destruct ((x =? f) && (lo <=? y) && (y <=? hi)) eqn:E; [|intros []]. intros [H|[]]. inversion H; subst.
  rewrite !andb_true_iff, Z.eqb_eq, !Z.leb_le in E. destruct E as ((-> & E1) & E2).
  exists a, b, y. apply digit_iff in A, B. repeat split; try tauto; try apply A; try apply B.
Qed.
Lemma in_one l v r : In (v, r) (one l) -> exists c, l = c :: r /\ digit_code v c /\ 1 <= v.
Proof.
  unfold one. destruct l as [|a l]; [intros []|]. destruct (digit a) as [x|] eqn:A; [|intros []]. destruct (Z.leb_spec 1 x); [|intros []].
  intros [H0|[]]. inversion H0; subst. exists a. apply digit_iff in A. auto.
Qed.
Lemma in_month l v r : In (v, r) (re_month l) -> exists t, l = t ++ r /\ short v t.
Proof.
  unfold re_month. rewrite !in_app_iff. intros [H|[H|H]].
  - apply in_two in H as (c1 & c2 & y & -> & D1 & D2 & R & ->). exists [c1; c2]. split; [reflexivity|]. constructor; auto; lia.
  - apply in_two in H as (c1 & c2 & y & -> & D1 & D2 & R & ->). exists [c1; c2]. split; [reflexivity|]. constructor; auto; lia.
  - apply in_one in H as (c & -> & D & P). exists [c]. split; [reflexivity|]. now constructor.
Qed.
Lemma in_day l v r : In (v, r) (re_day l) -> exists t, l = t ++ r /\ (short v t \/ exists c, t = [32%nat; c] /\ short v [c]).
Proof.
  unfold re_day. rewrite !in_app_iff. intros [H|[[H|H]|[H|[H|H]]]];
    try (apply in_two in H as (c1 & c2 & y & -> & D1 & D2 & R & ->); exists [c1; c2]; split; [reflexivity|]; left; constructor; auto; lia).
  - apply in_one in H as (c & -> & D & P). exists [c]. split; [reflexivity|]. left. now constructor.
  - unfold spaced in H. destruct l as [|a l]; [destruct H|]. destruct (Nat.eqb_spec a 32) as [->|]; [|destruct H].
    apply in_one in H as (c & -> & D & P). exists [32%nat; c]. split; [reflexivity|]. right. exists c. split; [reflexivity|]. now constructor.
Qed.
Lemma in_year l v r : In (v, r) (re_year l) -> exists t, l = t ++ r /\ four v t.
Proof.
  unfold re_year. destruct l as [|a [|b [|c [|d l]]]]; try (intros []).
  destruct (digit a) as [x|] eqn:A; [|intros []]. destruct (digit b) as [y|] eqn:B; [|intros []].
  destruct (digit c) as [z|] eqn:C; [|intros []]. destruct (digit d) as [w|] eqn:D; [|intros []].
  intros [H|[]]. inversion H; subst. exists [a; b; c; d]. split; [reflexivity|]. apply digit_iff in A, B, C, D. now constructor.
Qed.
Lemma in_dash l r : In r (dash l) -> l = 45%nat :: r.
Proof. unfold dash. destruct l as [|a l]; [intros []|]. destruct (Nat.eqb_spec a 45) as [->|]; [intros [<-|[]]; reflexivity|intros []]. Qed.
Lemma matches_written l a r : In (a, r) (matches l) -> exists ty tm td, l = ty ++ [45%nat] ++ tm ++ [45%nat] ++ td ++ r /\
  four (year a) ty /\ short (month a) tm /\ (short (dom a) td \/ exists t, td = [32%nat; t] /\ short (dom a) [t]).
Proof.
  unfold matches. intros H. apply in_flat_map in H as ([y r0] & Y & H). apply in_flat_map in H as (r1 & D1 & H).
  apply in_flat_map in H as ([m r2] & M & H). apply in_flat_map in H as (r3 & D2 & H). apply in_map_iff in H as ([d r4] & E & D).
  cbn [fst snd] in *. inversion E; subst a r4. cbn [year month dom].
  apply in_year in Y as (ty & -> & Y). apply in_dash in D1. subst r0. apply in_month in M as (tm & -> & M). apply in_dash in D2. subst r2.
  apply in_day in D as (td & -> & D). exists ty, tm, td. split; [now rewrite <- ?app_assoc|auto].
Qed.

(** The first match of a written day is that day. *)
Lemma code_digit d c : digit_code d c -> digit c = Some d. Proof. apply digit_iff. Qed.
Lemma month_first m tm rest : short m tm -> 1 <= m <= 12 ->
  exists others, re_month (tm ++ 45%nat :: rest) = (m, 45%nat :: rest) :: others.
Proof.
  intros H R. inversion H as [d c P D|a b c1 c2 P D1 D2]; subst.
  - unfold re_month, two, one. cbn [app]. rewrite (code_digit _ _ D), digit_dash. cbn [app].
    destruct (Z.leb_spec 1 m); [|lia]. eexists. reflexivity.
  - unfold re_month, two, one. cbn [app]. rewrite (code_digit _ _ D1), (code_digit _ _ D2).
    destruct D1 as [A1 _], D2 as [A2 _]. assert (K : a = 0 \/ a = 1) by lia. destruct K as [-> | ->].
    + cbn [Z.eqb andb Z.leb Z.compare]. destruct (Z.leb_spec 1 b); [|lia]. destruct (Z.leb_spec b 9); [|lia]. cbn [andb app]. eexists. reflexivity.
    + destruct (Z.leb_spec 0 b); [|lia]. destruct (Z.leb_spec b 2); [|lia]. cbn [Z.eqb Pos.eqb andb app]. eexists. reflexivity.
Qed.
Lemma day_first d td : (short d td \/ exists t, td = [32%nat; t] /\ short d [t]) -> 1 <= d <= 31 ->
  exists others, re_day td = (d, []) :: others.
Proof.
  intros [H|(t & -> & H)] R.
  - inversion H as [x c P D|a b c1 c2 P D1 D2]; subst.
    + unfold re_day, two, one, spaced. rewrite (code_digit _ _ D). cbn [app]. destruct (Z.leb_spec 1 d); [|lia]. eexists. reflexivity.
    + unfold re_day, two, one. rewrite (code_digit _ _ D1), (code_digit _ _ D2).
      destruct D1 as [A1 _], D2 as [A2 _]. assert (K : a = 0 \/ a = 1 \/ a = 2 \/ a = 3) by lia.
      destruct (Z.leb_spec 0 b); [|lia]. destruct (Z.leb_spec b 9); [|lia].
      destruct K as [-> | [-> | [-> | ->]]]; cbn [Z.eqb Pos.eqb andb app].
      * destruct (Z.leb_spec 1 b); [|lia]. cbn [andb app]. eexists. reflexivity.
      * eexists. reflexivity.
      * eexists. reflexivity.
      * destruct (Z.leb_spec b 1); [|lia]. cbn [andb app]. eexists. reflexivity.
  - inversion H as [x c P D|]; subst. change (re_day [32%nat; t]) with (one [t]). unfold one. rewrite (code_digit _ _ D).
    destruct (Z.leb_spec 1 d); [|lia]. eexists. reflexivity.
Qed.
Lemma year_first y ty rest : four y ty -> re_year (ty ++ rest) = [(y, rest)].
Proof. intros H. inversion H as [a b c d c1 c2 c3 c4 A B C D]; subst. unfold re_year. cbn [app]. now rewrite (code_digit _ _ A), (code_digit _ _ B), (code_digit _ _ C), (code_digit _ _ D). Qed.

Lemma month_31 y m n : month_length y m n -> 1 <= m <= 12 /\ n <= 31.
Proof.
  intros H. pose proof H as H0. apply month_length_iff in H as [M ->]. split; [exact M|]. apply month_days.
Qed.
Lemma strptime_iff s y m d : strptime s = Ok (Day y m d) <-> written s y m d /\ real_day y m d.
Proof.
  unfold strptime, written. change (characters s) with (codes s). split.
  - intros H. destruct (matches (codes s)) as [|[a [|x r]] l] eqn:E; [discriminate| |discriminate].
    destruct (valid_day a) eqn:V; [|discriminate]. inversion H; subst a. apply valid_iff in V. split; [|exact V].
    destruct (matches_written (codes s) (Day y m d) []) as (ty & tm & td & C & Y & M & D); [rewrite E; now left|].
    exists ty, tm, td. rewrite app_nil_r in C. auto.
  - intros ((ty & tm & td & C & Y & M & D) & R). pose proof R as (RY & n & ML & RD). apply month_31 in ML as [RM RN].
    rewrite C. cbn [app]. unfold matches. rewrite (year_first y ty _ Y). cbn [flat_map fst snd dash Nat.eqb].
    destruct (month_first m tm td M RM) as (om & ->). cbn [flat_map fst snd dash Nat.eqb].
    destruct (day_first d td D) as (od & ->); [lia|]. cbn [map app fst snd].
    assert (V : valid_day (Day y m d) = true) by (now apply valid_iff). now rewrite V.
Qed.
Lemma strptime_errors s : (exists a, strptime s = Ok a) \/ exists t, strptime s = Err (ValueError t).
Proof.
  unfold strptime. destruct (matches (codes s)) as [|[a [|x r]] l]; [right; eauto| |right; eauto]. destruct (valid_day a); eauto.
Qed.

(** ** Days left *)
Definition in_day_range (now : moment) : Prop := 0 <= micros now < day_length.
Lemma days_left_ordinals now a : in_day_range now ->
  days_left now a = ordinal a - ordinal (on now) - (if micros now =? 0 then 0 else 1).
Proof.
  unfold in_day_range, days_left, day_length. intros R. destruct (Z.eqb_spec (micros now) 0) as [E|E].
  - symmetry. apply (Z.div_unique _ _ _ 0); lia.
  - symmetry. apply (Z.div_unique _ _ _ (24 * 60 * 60 * 1000000 - micros now)); lia.
Qed.

Lemma resolve_days now s y m d : written s y m d -> real_day y m d -> resolve now (Some s) = InDays (days_left now (Day y m d)).
Proof. intros W R. unfold resolve. assert (E : strptime s = Ok (Day y m d)) by (apply strptime_iff; auto). now rewrite E. Qed.
Lemma ahead_days yn mn dn t s y m d n : time_of_day t -> written s y m d -> real_day y m d ->
  days_after n (yn, mn, dn) (y, m, d) ->
  resolve (At (Day yn mn dn) t) (Some s) = InDays (Z.of_nat n - if t =? 0 then 0 else 1).
Proof.
  intros T W R A. rewrite (resolve_days _ s y m d W R). rewrite days_left_ordinals by exact T. cbn [on micros].
  apply after_ordinal in A. cbn [ord3] in A. f_equal. lia.
Qed.
Lemma past_days yn mn dn t s y m d n : time_of_day t -> written s y m d -> real_day y m d ->
  days_after n (y, m, d) (yn, mn, dn) ->
  resolve (At (Day yn mn dn) t) (Some s) = InDays (- Z.of_nat n - if t =? 0 then 0 else 1).
Proof.
  intros T W R A. rewrite (resolve_days _ s y m d W R). rewrite days_left_ordinals by exact T. cbn [on micros].
  apply after_ordinal in A. cbn [ord3] in A. f_equal. lia.
Qed.
Lemma resolve_bad now s : (~ exists y m d, written s y m d /\ real_day y m d) <-> resolve now (Some s) = BadDate.
Proof.
  unfold resolve. destruct (strptime_errors s) as [([y m d] & E)|(t & E)]; rewrite E; split; intros H; try discriminate; try reflexivity.
  - exfalso. apply H. exists y, m, d. now apply strptime_iff.
  - intros (y & m & d & K). apply strptime_iff in K. congruence.
Qed.
