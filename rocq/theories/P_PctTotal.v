(** Bucket percentages in doubles: order and total. *)
From Coq Require Import Qabs ZArith Lia Lqa.
From Verif Require Import Base M_Float M_Double M_DoubleProb SpecFloat SpecDouble SpecWeights P_Round P_Double P_DoubleProb.
Open Scope Q_scope.

Lemma percentage_mono v w t : (0 <= v <= w)%Z -> (0 < t)%Z -> fl_percentage v t <= fl_percentage w t.
Proof.
  intros H T. unfold fl_percentage, dmul. rewrite (Qred_correct (rnd (ddiv (inject_Z v) (inject_Z t) * 100))).
  rewrite (Qred_correct (rnd (ddiv (inject_Z w) (inject_Z t) * 100))). apply rnd_mono. apply Qmult_le_compat_r; [|discriminate].
  unfold ddiv. rewrite (Qred_correct (rnd (inject_Z v / inject_Z t))), (Qred_correct (rnd (inject_Z w / inject_Z t))).
  apply rnd_mono. unfold Qdiv. apply Qmult_le_compat_r.
  - apply (proj2 (inject_Z_le _ _)). lia.
  - apply Qlt_le_weak, Qinv_lt_0_compat. apply (proj2 (inject_Z_lt 0 _)). lia.
Qed.
Lemma percentage_sum t : (0 < t)%Z -> forall vs, (forall v, In v vs -> (0 <= v)%Z) -> (fold_right Z.add 0 vs <= t)%Z ->
  Qabs (total (map (fun v => fl_percentage v t) vs) - inject_Z (fold_right Z.add 0%Z vs) / inject_Z t * 100)
    <= 3 * double_u * (inject_Z (fold_right Z.add 0%Z vs) / inject_Z t * 100).
Proof.
  intros T. assert (TP : 0 < inject_Z t) by (apply (proj2 (inject_Z_lt 0 _)); lia).
  induction vs as [|v vs IH]; intros P S.
  - simpl. assert (inject_Z 0 / inject_Z t * 100 == 0) as -> by (unfold Qdiv; change (inject_Z 0) with 0; ring).
    rewrite Qmult_0_r. vm_compute. discriminate.
  - assert (P0 : (0 <= v)%Z) by (apply P; now left). assert (Ps : forall w, In w vs -> (0 <= w)%Z) by (intros; apply P; now right).
    assert (N : (0 <= fold_right Z.add 0 vs)%Z).
    { clear -Ps. induction vs as [|a vs IH]; simpl; [lia|]. pose proof (Ps a (or_introl eq_refl)).
      assert (0 <= fold_right Z.add 0 vs)%Z by (apply IH; intros; apply Ps; now right). lia. }
    cbn [fold_right map total] in *. destruct (percentage_range v t ltac:(lia) T) as [_ E]. specialize (IH Ps ltac:(lia)).
    set (r := fold_right Z.add 0%Z vs) in *. set (x := fl_percentage v t) in *. set (y := total _) in *.
    assert (D : inject_Z (v + r) / inject_Z t * 100 == inject_Z v / inject_Z t * 100 + inject_Z r / inject_Z t * 100)
      by (rewrite inject_Z_plus; field; lra).
    rewrite D. set (a := inject_Z v / inject_Z t * 100) in *. set (b := inject_Z r / inject_Z t * 100) in *.
    pose proof (Qabs_triangle (x - a) (y - b)) as Tr.
    assert (x + y - (a + b) == (x - a) + (y - b)) as -> by ring. rewrite Qmult_plus_distr_r. lra.
Qed.
Lemma percentage_total t vs : (0 < t)%Z -> (forall v, In v vs -> (0 <= v)%Z) -> fold_right Z.add 0%Z vs = t ->
  Qabs (total (map (fun v => fl_percentage v t) vs) - 100) <= 300 * double_u.
Proof.
  intros T P S. pose proof (percentage_sum t T vs P ltac:(lia)) as H. rewrite S in H.
  assert (E : inject_Z t / inject_Z t * 100 == 100).
  { field. assert (0 < inject_Z t) by (apply (proj2 (inject_Z_lt 0 _)); lia). lra. }
  rewrite E in H. lra.
Qed.
