(** Single percentiles of the model: extremes, order and equal weights. *)
From Coq Require Import Permutation Sorted Lqa.
From Verif Require Import Base M_Values M_Ops SpecRound M_Formulas M_Percentiles SpecPercentiles
  P_Percentiles P_Percentiles2 P_Percentiles3 P_Percentiles4.
Open Scope Q_scope.

Lemma in_not_nil {A} (x : A) l : In x l -> l <> [].
Proof. destruct l; [intros []|discriminate]. Qed.
Lemma positive_sum ws : ws <> [] -> (forall w, In w ws -> 0 < w) -> 0 < sum ws.
Proof.
  destruct ws as [|a l]; [congruence|]. intros _ P. assert (0 < a) by (apply P; now left).
  assert (0 <= sum l). { clear H. assert (forall w, In w l -> 0 < w) by (intros; apply P; now right). clear P.
    induction l as [|b l IH]; [simpl; lra|]. change (sum (b :: l)) with (b + sum l). pose proof (H b (or_introl eq_refl)).
    assert (0 <= sum l) by (apply IH; intros; apply H; now right). lra. }
  change (sum (a :: l)) with (a + sum l). lra.
Qed.
Lemma positive_usable data ws : positive_weights data ws -> usable_weights data ws.
Proof. intros (E & N & P). split; auto. split; [intros; now apply Qlt_le_weak, P|now apply positive_sum]. Qed.
Lemma repeat_usable data w : data <> [] -> 0 < w -> usable_weights data (repeat w (length data)).
Proof.
  intros N W. apply positive_usable. split; [apply repeat_length|]. split.
  - destruct data; [congruence|discriminate].
  - intros x I. apply repeat_spec in I. now subst.
Qed.

Lemma gp_extremes argsort data reverse digits m : sorts_numbers argsort ->
  (smallest data m ->
   exists v, get_percentiles argsort data (POne 0) None reverse digits = Ok (One v) /\ v == round_to digits m) /\
  (largest data m ->
   exists v, get_percentiles argsort data (POne 100) None reverse digits = Ok (One v) /\ v == round_to digits m).
Proof.
  intros A. split; intros S.
  - destruct (get_single argsort A data (POne 0) 0 None reverse digits) as (v & E & P); auto.
    { split; [destruct S as [I _]; eapply in_not_nil; eauto|]. intros p [<-|[]]. split; discriminate. }
    exists (round_to digits v). split; auto. apply round_to_compat. eapply percentile_zero; eauto.
  - destruct (get_single argsort A data (POne 100) 100 None reverse digits) as (v & E & P); auto.
    { split; [destruct S as [I _]; eapply in_not_nil; eauto|]. intros p [<-|[]]. split; discriminate. }
    exists (round_to digits v). split; auto. apply round_to_compat. eapply percentile_hundred; eauto.
Qed.
Lemma gp_weighted_extremes argsort data ws reverse digits m : sorts_numbers argsort -> positive_weights data ws ->
  (smallest data m ->
   exists v, get_percentiles argsort data (POne 0) (Some ws) reverse digits = Ok (One v) /\ v == round_to digits m) /\
  (largest data m ->
   exists v, get_percentiles argsort data (POne 100) (Some ws) reverse digits = Ok (One v) /\ v == round_to digits m).
Proof.
  intros A W. pose proof (positive_usable _ _ W) as U. split; intros S.
  - destruct (get_single argsort A data (POne 0) 0 (Some ws) reverse digits) as (v & E & P); auto.
    exists (round_to digits v). split; auto. apply round_to_compat. eapply weighted_zero; eauto.
  - destruct (get_single argsort A data (POne 100) 100 (Some ws) reverse digits) as (v & E & P); auto.
    exists (round_to digits v). split; auto. apply round_to_compat. eapply weighted_hundred; eauto.
Qed.
Lemma gp_single_mono argsort data weights reverse digits p q : sorts_numbers argsort ->
  good_call data weights [p; q] -> p <= q ->
  exists u v, get_percentiles argsort data (POne p) weights reverse digits = Ok (One u) /\
    get_percentiles argsort data (POne q) weights reverse digits = Ok (One v) /\ u <= v.
Proof.
  intros A G L.
  assert (Gp : good_call data weights [p]).
  { destruct weights; simpl in *; auto. destruct G as [N G]. split; [exact N|]. intros x [<-|[]]. apply G. now left. }
  assert (Gq : good_call data weights [q]).
  { destruct weights; simpl in *; auto. destruct G as [N G]. split; [exact N|]. intros x [<-|[]]. apply G. right. now left. }
  exists (round_to digits (pct argsort data weights p)), (round_to digits (pct argsort data weights q)).
  rewrite !get_vals by auto. cbn [plist]. split; [destruct reverse; reflexivity|].
  split; [destruct reverse; reflexivity|]. apply round_to_mono.
  eapply (pct_mono argsort A _ _ [p; q]); eauto; [now left|right; now left].
Qed.
Lemma gp_equal_weights argsort data w q reverse digits : sorts_numbers argsort -> 0 < w -> data <> [] -> percent q ->
  exists v v', get_percentiles argsort data
      (POne ((50 + q * inject_Z (Z.of_nat (length data - 1))) / inject_Z (Z.of_nat (length data))))
      (Some (repeat w (length data))) reverse digits = Ok (One v) /\
    get_percentiles argsort data (POne q) None reverse digits = Ok (One v') /\ v == v'.
Proof.
  intros A W N Q. set (p := (50 + q * inject_Z (Z.of_nat (length data - 1))) / inject_Z (Z.of_nat (length data))).
  destruct (get_single argsort A data (POne p) p (Some (repeat w (length data))) reverse digits) as (v & E & P); auto.
  { now apply repeat_usable. }
  destruct (get_single argsort A data (POne q) q None reverse digits) as (v' & E' & P'); auto.
  { split; auto. intros x [<-|[]]. auto. }
  exists (round_to digits v), (round_to digits v'). split; auto. split; auto. apply round_to_compat.
  eapply percentile_unique; [|exact P']. eapply equal_weights; eauto.
Qed.
Lemma gp_equal_median argsort data w reverse digits : sorts_numbers argsort -> 0 < w -> data <> [] ->
  exists v v', get_percentiles argsort data (POne 50) (Some (repeat w (length data))) reverse digits = Ok (One v) /\
    get_percentiles argsort data (POne 50) None reverse digits = Ok (One v') /\ v == v'.
Proof.
  intros A W N.
  destruct (get_single argsort A data (POne 50) 50 (Some (repeat w (length data))) reverse digits) as (v & E & P); auto.
  { now apply repeat_usable. }
  destruct (get_single argsort A data (POne 50) 50 None reverse digits) as (v' & E' & P'); auto.
  { split; auto. intros x [<-|[]]. split; discriminate. }
  exists (round_to digits v), (round_to digits v'). split; auto. split; auto. apply round_to_compat.
  eapply percentile_unique; [|exact P']. eapply equal_weights_median; eauto.
Qed.
