(** Lemmas for [C173_logs]. *)
From Coq Require Import Reals Qreals Lra.
From Coq Require Lqa.
From Verif Require Import Base M_Values M_Ops M_Formulas M_Percentiles M_LogPercentiles SpecPercentiles SpecPctOrder SpecLogOrder
  P_Support P_Ctor P_Round P_Percentiles3 P_Percentiles4 P_PctOrder.
Open Scope Q_scope.

Lemma least_nonneg data : (forall x, In x data -> 0 <= x) -> exists hi, all_between 0 hi data.
Proof.
  induction data as [|a data IH]; intros H; [exists 1; intros x []|].
  destruct IH as (hi & B); [intros; apply H; now right|]. pose proof (H a (or_introl eq_refl)).
  exists (if Qle_bool a hi then hi else a). intros x [<-|I].
  - split; auto. destruct (Qle_bool a hi) eqn:C; [now apply Qle_bool_iff|apply Qle_refl].
  - destruct (B x I) as [X Y]. split; auto. destruct (Qle_bool a hi) eqn:C; auto.
    apply qle_false in C. eapply Qle_trans; [exact Y|]. now apply Qlt_le_weak.
Qed.
Lemma np_log10_le x y : 0 <= x -> x <= y -> log_le (np_log10 x) (np_log10 y) /\ np_log10 x <> RNan.
Proof.
  intros P L. unfold np_log10. destruct (Qlt_bool 0 x) eqn:A.
  - apply qlt_true in A. assert (0 < y) as B by (eapply Qlt_le_trans; eauto). apply qlt_true in B. rewrite B.
    split; [|discriminate]. cbn. apply Qle_Rle in L. apply Qlt_Rlt in A. rewrite RMicromega.Q2R_0 in A.
    assert (T : (0 < ln 10)%R) by (rewrite <- ln_1; apply ln_increasing; lra).
    apply Rmult_le_compat_r; [left; now apply Rinv_0_lt_compat|].
    destruct L as [L|L]; [left; now apply ln_increasing|right; now rewrite L].
  - apply qlt_false in A. assert (x == 0) as E by (now apply Qle_antisym). rewrite (proj2 (Qeq_bool_iff _ _) E).
    split; [|discriminate]. destruct (Qlt_bool 0 y) eqn:B; [exact I|]. apply qlt_false in B.
    assert (y == 0) as F by (apply Qle_antisym; auto; eapply Qle_trans; eauto). now rewrite (proj2 (Qeq_bool_iff _ _) F).
Qed.
Lemma round_log_le rr digits a b : rising_round rr -> (forall d, digits = Some d -> (0 < d)%Z) -> log_le a b ->
  exists c c', round_log rr digits a = Ok c /\ round_log rr digits b = Ok c' /\ log_le c c'.
Proof.
  intros R D L. unfold round_log. destruct digits as [d|]; [|exists a, b; auto].
  specialize (D d eq_refl). apply Z.leb_gt in D.
  destruct a, b; cbn in L; try contradiction; rewrite ?D; eexists; eexists; split; try reflexivity; split; try reflexivity; cbn; auto.
Qed.
Definition nonneg_le (x y : Q) : Prop := 0 <= x /\ x <= y.
Lemma logs_rise as1 as2 rr data data' w pa reverse display digits : sorts_numbers as1 -> sorts_numbers as2 -> rising_round rr ->
  good_call data w (plist pa) -> risen data data' -> w = None \/ (different data /\ same_order data data') ->
  (forall x, In x data -> 0 <= x) -> (forall d, digits = Some d -> (0 < d)%Z) -> (display = true -> digits <> None) ->
  exists l l', get_log_percentiles as1 rr data pa w reverse display digits = Ok l /\
    get_log_percentiles as2 rr data' pa w reverse display digits = Ok l' /\ logs_le l l'.
Proof.
  intros S1 S2 M G R K N D T. pose proof (risen_upto _ _ R) as U. pose proof (upto_length _ _ _ U) as L.
  pose proof (good_call_to data data' w _ (eq_sym L) G) as G'.
  destruct (gp_related nonneg_le as1 as2 data data' w pa reverse digits S1 S2 G G') as (o & o' & E & E' & F).
  { intros p I. destruct (least_nonneg data N) as (hi & B). destruct (pct_between as1 S1 data w _ p 0 hi G I B) as [P _]. split.
    - apply (Qle_trans _ (round_to digits 0)); [|now apply round_to_mono].
      destruct digits as [d|]; cbn [round_to]; [|apply Qle_refl]. 
      unfold np_round. assert (Z0 : 0 <= 0 * pow10 d) by Lqa.lra. apply round_half_even_mono in Z0.
      change (round_half_even 0) with 0%Z in Z0. rewrite Zle_Qle in Z0. apply Qle_shift_div_l; [apply pow10_pos|]. change (inject_Z 0) with 0 in Z0. Lqa.lra.
    - apply round_to_mono. pose proof (pct_upto 0 as1 as2 data data' w (plist pa) p ltac:(discriminate) S1 S2 G G' K U I). Lqa.lra. }
  unfold get_log_percentiles. rewrite E, E'. cbn [bind].
  destruct o as [v|d], o' as [v'|d']; cbn in F; try contradiction.
  - destruct display.
    + destruct digits as [n|]; [|now destruct (T eq_refl)]. specialize (D n eq_refl). unfold scientific.
      destruct (n <? 0)%Z eqn:C; [apply Z.ltb_lt in C; lia|]. exists LNone, LNone. cbn. auto.
    + destruct F as [P Q]. destruct (np_log10_le v v' P Q) as [X _]. destruct (round_log_le rr digits _ _ M D X) as (c & c' & A & B & H).
      rewrite A, B. exists (LLog c), (LLog c'). cbn. auto.
  - destruct display.
    + destruct digits as [n|]; [|now destruct (T eq_refl)]. specialize (D n eq_refl). unfold scientific.
      destruct (n <? 0)%Z eqn:C; [apply Z.ltb_lt in C; lia|]. cbn [bind].
      assert (V : forall l, mapM (fun kv : Q * Q => Ok (fst kv, (snd kv, n))) l = Ok (map (fun kv => (fst kv, (snd kv, n))) l)).
      { induction l as [|x l IH]; [reflexivity|]. cbn [mapM map bind]. rewrite IH. reflexivity. }
      rewrite !V. cbn [bind]. eexists; eexists. split; [reflexivity|]. split; [reflexivity|]. cbn [logs_le].
      clear - F. induction F as [|x y d d' [A [_ B]] F IH]; constructor; auto. split; [exact A|]. split; [exact B|reflexivity].
    + assert (V : exists l l', mapM (fun kv => do x <- round_log rr digits (np_log10 (snd kv)); Ok (fst kv, x)) d = Ok l /\
        mapM (fun kv => do x <- round_log rr digits (np_log10 (snd kv)); Ok (fst kv, x)) d' = Ok l' /\
        Forall2 (fun x y => fst x = fst y /\ log_le (snd x) (snd y)) l l').
      { clear - F M D. induction F as [|x y d d' [A [P Q]] F IH]; [exists [], []; repeat split; constructor|].
        destruct IH as (l & l' & X & Y & H). destruct (np_log10_le _ _ P Q) as [Z _].
        destruct (round_log_le rr digits _ _ M D Z) as (c & c' & B & B' & J).
        exists ((fst x, c) :: l), ((fst y, c') :: l'). cbn [mapM]. rewrite B, B', X, Y. cbn [bind]. repeat split. constructor; auto. }
      destruct V as (l & l' & X & Y & H). rewrite X, Y. exists (LLogs l), (LLogs l'). cbn. auto.
Qed.
