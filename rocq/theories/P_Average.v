(** Lemmas about [average]. *)
From Coq Require Import Lqa.
From Verif Require Import Base M_Weights M_Pick M_Values M_Sampler M_Ops M_Average P_Weights P_Clip.
Open Scope Q_scope.

Section Avg.
  Context {T : Type}.
  Implicit Types (p e : obj T).

  Lemma default_kept w rw p e : snd (average w rw p e initial_default) = initial_default.
  Proof.
    unfold average. destruct w as [w|]; [reflexivity|].
    destruct rw; reflexivity.
  Qed.

  Lemma default_always (h : list (@avg_call T)) : default_after h = initial_default.
  Proof.
    unfold default_after. induction h as [|c h IH]; [reflexivity|]. cbn [fold_left]. now rewrite default_kept.
  Qed.

  Lemma average_default h p e :
    fst (average None WNone p e (@default_after T h)) = Ok (DMixture [1 # 2; 1 # 2] [p; e] None None).
  Proof. rewrite default_always. reflexivity. Qed.

  Lemma average_is_mixture w rw p e d :
    fst (average (Some w) rw p e d) = mixture (VList [MPlain p; MPlain e]) w rw None None.
  Proof. reflexivity. Qed.

  Lemma qltb_true a b : a < b -> Qlt_bool a b = true.
  Proof. intros H. unfold Qlt_bool. destruct (Qle_bool b a) eqn:E; auto. apply Qle_bool_iff in E. lra. Qed.
  Lemma qltb_false a b : b <= a -> Qlt_bool a b = false.
  Proof. intros H. unfold Qlt_bool. apply Qle_bool_iff in H. rewrite H. reflexivity. Qed.
  Lemma qleb_false a b : b < a -> Qle_bool a b = false.
  Proof. intros H. destruct (Qle_bool a b) eqn:E; auto. apply Qle_bool_iff in E. lra. Qed.

  (** One weight: the other one is inferred. *)
  Lemma average_one_weight q p e d : 0 < q -> q < 1 ->
    exists a b, fst (average (Some (WScalar (Num q))) WNone p e d) = Ok (DMixture [a; b] [p; e] None None) /\
      a == q /\ b == 1 - q.
  Proof.
    intros H0 H1. exists q, (1 - qsum [q]). split; [|split; [reflexivity|unfold qsum; simpl; ring]].
    unfold average, mixture, pwv. cbn [wnone negb andb values_missing weights_of_warg fill_weights fst].
    unfold finish. cbn [any_na mapM is_na_cell bind existsb map cell_q length Nat.eqb].
    rewrite (qltb_true (qsum [q]) 1) by (unfold qsum; simpl; lra). cbn [andb].
    unfold filter_loop, app.
    rewrite (qltb_false q 0), (qltb_false (1 - qsum [q]) 0), (qltb_true 0 q), (qltb_true 0 (1 - qsum [q])) by (unfold qsum; simpl; lra).
    reflexivity.
  Qed.

  (** Two weights: taken as given. *)
  Lemma average_two_weights a b p e d : 0 < a -> 0 < b -> 99 # 100 < a + b -> a + b < 101 # 100 ->
    fst (average (Some (WList [Num a; Num b])) WNone p e d) = Ok (DMixture [a; b] [p; e] None None).
  Proof.
    intros Ha Hb L U.
    unfold average, mixture, pwv. cbn [wnone negb andb values_missing weights_of_warg fill_weights fst].
    unfold finish. cbn [any_na mapM is_na_cell bind existsb map cell_q length Nat.eqb andb].
    rewrite (qleb_false (qsum [a; b]) (99 # 100)), (qleb_false (101 # 100) (qsum [a; b])) by (unfold qsum; simpl; lra).
    cbn [orb negb]. unfold filter_loop.
    rewrite (qltb_false a 0), (qltb_false b 0), (qltb_true 0 a), (qltb_true 0 b) by lra.
    reflexivity.
  Qed.

  Lemma average_bad_sum a b p e d : a + b <= 99 # 100 \/ 101 # 100 <= a + b ->
    fst (average (Some (WList [Num a; Num b])) WNone p e d) = Err (ValueError "weights don't sum to 1").
  Proof.
    intros H.
    unfold average, mixture, pwv. cbn [wnone negb andb values_missing weights_of_warg fill_weights fst].
    unfold finish. cbn [any_na mapM is_na_cell bind existsb map cell_q length Nat.eqb andb].
    assert (X : Qle_bool (qsum [a; b]) (99 # 100) || Qle_bool (101 # 100) (qsum [a; b]) = true).
    { apply orb_true_iff. rewrite !Qle_bool_iff. unfold qsum; simpl. destruct H; [left|right]; lra. }
    rewrite X. reflexivity.
  Qed.

  Lemma relative_refused h rw p e : rw <> WNone ->
    fst (average None rw p e (@default_after T h)) = Err (ValueError "can only pass either").
  Proof. rewrite default_always. intros H. destruct rw; try reflexivity. congruence. Qed.
End Avg.
