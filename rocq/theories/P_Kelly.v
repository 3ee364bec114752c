(** Lemmas about the Kelly helpers. *)
From Coq Require Import Qabs Lqa Setoid.
From Verif Require Import Base M_Values M_Ops SpecRound M_Kelly SpecKelly P_Support P_Ctor P_Round.
Open Scope Q_scope.


(* ------------------------------------------------- the numbers *)
Lemma adj_belief my m d : adj_price my m d == belief my m d.
Proof. unfold adj_price, belief. ring. Qed.
Lemma fraction_value my m d : price m -> kelly_fraction my m d == Qabs (fraction (belief my m d) m).
Proof.
  intros [A B]. unfold kelly_fraction. rewrite adj_belief. unfold fraction.
  apply Qabs_wd. field. lra.
Qed.
Lemma belief_price my m d : price my -> price m -> share d -> price (belief my m d).
Proof.
  intros [A B] [C D] [E F]. unfold belief. destruct (Qlt_le_dec my m) as [L|L].
  - pose proof (Qmult_le_0_compat d (m - my) ltac:(lra) ltac:(lra)).
    pose proof (Qmult_le_0_compat (1 - d) (m - my) ltac:(lra) ltac:(lra)). split; lra.
  - pose proof (Qmult_le_0_compat d (my - m) ltac:(lra) ltac:(lra)).
    pose proof (Qmult_le_0_compat (1 - d) (my - m) ltac:(lra) ltac:(lra)). split; lra.
Qed.
Lemma belief_above my m d : m <= my -> share d -> m <= belief my m d.
Proof. intros A [E F]. unfold belief. pose proof (Qmult_le_0_compat (1 - d) (my - m) ltac:(lra) ltac:(lra)). lra. Qed.
Lemma fraction_linear my m d : price m -> fraction (belief my m d) m == (1 - d) * fraction my m.
Proof. intros [A B]. unfold fraction, belief. field. lra. Qed.
Lemma fraction_unit p m : price p -> price m -> m <= p -> 0 <= fraction p m /\ fraction p m < 1.
Proof.
  intros [A B] [C D] L. unfold fraction. split.
  - apply Qle_shift_div_l; lra.
  - apply Qlt_shift_div_r; lra.
Qed.

(** What the number reported as "kelly" rounds, for one's own price not below the
    market's. *)
Lemma kelly_fraction_above my m d : price my -> price m -> share d -> m <= my ->
  kelly_fraction my m d == (1 - d) * fraction my m /\
  0 <= kelly_fraction my m d /\ kelly_fraction my m d < 1.
Proof.
  intros P M D L. rewrite fraction_value by auto.
  destruct (fraction_unit (belief my m d) m) as [F G]; auto using belief_price, belief_above.
  rewrite Qabs_pos by auto. split; auto. now apply fraction_linear.
Qed.

(* ------------------------------------------------- acceptance *)
Section K.
  Variable power : Q -> Z -> Q.
  Lemma kelly_market my m d b r c e : ~ price m -> kelly power my m d b r c e = Err (ValueError "market_price must be >0 and <1").
  Proof.
    intros N. unfold kelly. destruct (Qle_bool 1 m) eqn:A; auto. destruct (Qle_bool m 0) eqn:B; auto.
    apply qle_false in A. apply qle_false in B. exfalso. apply N. split; auto.
  Qed.
  Lemma kelly_my my m d b r c e : price m -> ~ price my -> kelly power my m d b r c e = Err (ValueError "my_price must be >0 and <1").
  Proof.
    intros [P Q] N. unfold kelly.
    assert (Qle_bool 1 m = false) as -> by now apply qle_false. assert (Qle_bool m 0 = false) as -> by now apply qle_false.
    cbn [orb]. destruct (Qle_bool 1 my) eqn:A; auto. destruct (Qle_bool my 0) eqn:B; auto.
    apply qle_false in A. apply qle_false in B. exfalso. apply N. split; auto.
  Qed.
  Lemma price_checks {A} (m : Q) (x y : A) : price m -> (if Qle_bool 1 m || Qle_bool m 0 then x else y) = y.
  Proof.
    intros [P Q]. assert (Qle_bool 1 m = false) as -> by now apply qle_false.
    assert (Qle_bool m 0 = false) as -> by now apply qle_false. reflexivity.
  Qed.
  Lemma kelly_deference my m d b r c e : price m -> price my -> ~ share d ->
    kelly power my m d b r c e = Err (ValueError "deference must be >=0 and <=1").
  Proof.
    intros M P N. unfold kelly. rewrite (price_checks m), (price_checks my) by auto.
    destruct (Qlt_bool 1 d) eqn:A; auto. destruct (Qlt_bool d 0) eqn:B; auto.
    apply qlt_false in A. apply qlt_false in B. exfalso. apply N. split; auto.
  Qed.
  Lemma share_checks {A} (d : Q) (x y : A) : share d -> (if Qlt_bool 1 d || Qlt_bool d 0 then x else y) = y.
  Proof.
    intros [P Q]. assert (Qlt_bool 1 d = false) as -> by now apply qlt_false.
    assert (Qlt_bool d 0 = false) as -> by now apply qlt_false. reflexivity.
  Qed.
  Lemma kelly_below my m d b r c : price m -> price my -> share d -> my < m ->
    kelly power my m d b r c true = Err (ValueError "Your odds are below the market price.").
  Proof.
    intros M P D L. unfold kelly. rewrite (price_checks m), (price_checks my), (share_checks d) by auto.
    apply qlt_true in L. now rewrite L.
  Qed.

  Lemma kelly_dates my m d b c e : price m -> price my -> share d -> (my < m -> e = false) ->
    kelly power my m d b BadDate c e = Err (ValueError "time data does not match format") /\
    kelly power my m d b (InDays 0) c e = Err ZeroDivisionError.
  Proof.
    intros M P D L.
    assert (E : Qlt_bool my m && e = false).
    { destruct (Qlt_bool my m) eqn:E; [|reflexivity]. apply qlt_true in E. now rewrite (L E). }
    split; unfold kelly; rewrite (price_checks m), (price_checks my), (share_checks d) by auto; rewrite E; reflexivity.
  Qed.

  Lemma kelly_accepts my m d b r c e :
    (exists k, kelly power my m d b r c e = Ok k) <->
    price m /\ price my /\ share d /\ (my < m -> e = false) /\ r <> BadDate /\ r <> InDays 0.
  Proof.
    split.
    - intros (k & H).
      assert (M : price m).
      { unfold kelly in H. destruct (Qle_bool 1 m) eqn:A; [discriminate|]. destruct (Qle_bool m 0) eqn:B; [discriminate|].
        apply qle_false in A. apply qle_false in B. split; auto. }
      assert (P : price my).
      { unfold kelly in H. rewrite (price_checks m) in H by auto.
        destruct (Qle_bool 1 my) eqn:A; [discriminate|]. destruct (Qle_bool my 0) eqn:B; [discriminate|].
        apply qle_false in A. apply qle_false in B. split; auto. }
      assert (D : share d).
      { unfold kelly in H. rewrite (price_checks m), (price_checks my) in H by auto.
        destruct (Qlt_bool 1 d) eqn:A; [discriminate|]. destruct (Qlt_bool d 0) eqn:B; [discriminate|].
        apply qlt_false in A. apply qlt_false in B. split; auto. }
      unfold kelly in H. rewrite (price_checks m), (price_checks my), (share_checks d) in H by auto.
      repeat split; auto; try apply M; try apply P; try apply D.
      + intros L. apply qlt_true in L. rewrite L in H. destruct e; auto. discriminate.
      + intros ->. destruct (Qlt_bool my m && e); discriminate.
      + intros ->. destruct (Qlt_bool my m && e); discriminate.
    - intros (M & P & D & L & B & Z). unfold kelly. rewrite (price_checks m), (price_checks my), (share_checks d) by auto.
      assert (Qlt_bool my m && e = false) as ->.
      { destruct (Qlt_bool my m) eqn:A; auto. apply qlt_true in A. now rewrite L. }
      destruct r as [| |dd]; [simpl; eauto|contradiction|].
      assert ((dd =? 0)%Z = false) as -> by (apply Z.eqb_neq; congruence). simpl. eauto.
  Qed.

  Lemma kelly_values my m d b r c e k : kelly power my m d b r c e = Ok k ->
    let p := belief my m d in
    let f := Qabs (fraction p m) in
    rounds 2 my (k_my_price k) /\ rounds 2 m (k_market_price k) /\ rounds 3 d (k_deference k) /\
    rounds 2 p (k_adj_price k) /\ rounds 2 (Qabs (my - m)) (k_delta_price k) /\
    rounds 2 (Qabs (p - m)) (k_adj_delta_price k) /\ rounds 3 f (k_kelly k) /\
    rounds 2 (b * f) (k_target k) /\ rounds 2 c (k_current k) /\ rounds 2 (b * f - c) (k_delta k) /\
    rounds 2 (b * f * (1 / m - 1)) (k_max_gain k) /\ rounds 2 (b * f * (p / m - 1)) (k_modeled_gain k) /\
    rounds 3 (Qabs (p / m - 1)) (k_expected_roi k) /\ k_resolve_date k = r /\
    match r with InDays days => exists a, k_arr k = Some a /\ rounds 3 (power (expected_roi my m d + 1) days - 1) a
               | _ => k_arr k = None end.
  Proof.
    intros H p f. destruct (proj1 (kelly_accepts my m d b r c e) (ex_intro _ k H)) as (M & P & D & L & B & Z).
    unfold kelly in H. rewrite (price_checks m), (price_checks my), (share_checks d) in H by auto.
    destruct (Qlt_bool my m && e); [discriminate|].
    assert (Rr : exists a, k = {| k_my_price := np_round my 2; k_market_price := np_round m 2; k_deference := np_round d 3;
            k_adj_price := np_round (adj_price my m d) 2; k_delta_price := np_round (Qabs (m - my)) 2;
            k_adj_delta_price := np_round (Qabs (m - adj_price my m d)) 2; k_kelly := np_round (kelly_fraction my m d) 3;
            k_target := np_round (b * kelly_fraction my m d) 2; k_current := np_round c 2;
            k_delta := np_round (b * kelly_fraction my m d - c) 2;
            k_max_gain := np_round (b * kelly_fraction my m d / m - b * kelly_fraction my m d) 2;
            k_modeled_gain := np_round (adj_price my m d * (b * kelly_fraction my m d / m) - b * kelly_fraction my m d) 2;
            k_expected_roi := np_round (expected_roi my m d) 3; k_arr := a; k_resolve_date := r |} /\
            match r with InDays days => a = Some (np_round (power (expected_roi my m d + 1) days - 1) 3) | _ => a = None end).
    { destruct r as [| |dd]; [|contradiction|].
      - inversion H. eexists. split; [reflexivity|]. reflexivity.
      - destruct (dd =? 0)%Z; [discriminate|]. inversion H. eexists. split; [reflexivity|]. reflexivity. }
    clear H. destruct Rr as (a & -> & Ea).
    cbn [k_my_price k_market_price k_deference k_adj_price k_delta_price k_adj_delta_price k_kelly k_target
      k_current k_delta k_max_gain k_modeled_gain k_expected_roi k_arr k_resolve_date].
    pose proof (adj_belief my m d) as Ep. pose proof (fraction_value my m d M) as Ef. fold p in Ep, Ef. fold f in Ef.
    assert (NZ : ~ m == 0) by (destruct M; lra).
    assert (R : forall g x y, x == y -> rounds g y (np_round x g)).
    { intros g x y E. eapply rounds_compat; [exact E|reflexivity|apply np_round_rounds]. }
    repeat match goal with |- _ /\ _ => split end; auto; try (apply R; rewrite ?Ep, ?Ef; try reflexivity; try (field; auto)).
    - rewrite Qabs_Qminus. reflexivity.
    - rewrite Qabs_Qminus. reflexivity.
    - unfold expected_roi. rewrite Ep. reflexivity.
    - destruct r; auto. exists (np_round (power (expected_roi my m d + 1) days - 1) 3). split; auto. apply R. reflexivity.
  Qed.
End K.

(* ------------------------------------------------- betting against the market *)
Lemma below_fraction my m d : price my -> price m -> share d -> my <= m ->
  kelly_fraction my m d == (1 - d) * ((m - my) / (1 - m)).
Proof.
  intros P M D L. rewrite fraction_value by auto. rewrite fraction_linear by auto.
  destruct M as [M0 M1], D as [D0 D1]. rewrite Qabs_neg.
  - unfold fraction. field. lra.
  - assert (fraction my m <= 0) by (unfold fraction; apply Qle_shift_div_r; lra).
    pose proof (Qmult_le_0_compat (1 - d) (- fraction my m) ltac:(lra) ltac:(lra)). lra.
Qed.
Lemma complement_fraction my m d : price my -> price m -> share d -> my <= m ->
  kelly_fraction (1 - my) (1 - m) d == (1 - d) * ((m - my) / m).
Proof.
  intros [A B] [C E] D L. destruct (kelly_fraction_above (1 - my) (1 - m) d) as [F _]; auto; try (split; lra); [lra|].
  rewrite F. unfold fraction. field. lra.
Qed.
Lemma symmetric_only_at_half my m d : price my -> price m -> share d -> my < m -> d < 1 ->
  (kelly_fraction my m d == kelly_fraction (1 - my) (1 - m) d <-> m == 1#2).
Proof.
  intros P M D L D1. rewrite below_fraction, complement_fraction by auto with qarith.
  destruct P as [P0 P1], M as [M0 M1]. split.
  - intros E. assert (E' : (1 - d) * (m - my) * m == (1 - d) * (m - my) * (1 - m)).
    { transitivity ((1 - d) * ((m - my) / (1 - m)) * (m * (1 - m))); [field; lra|].
      rewrite E. field. lra. }
    assert (X : ~ (1 - d) * (m - my) == 0) by (intros Z; apply Qmult_integral in Z as [?|?]; lra).
    apply Qmult_inj_l in E'; auto. lra.
  - intros E. rewrite E. field.
Qed.
