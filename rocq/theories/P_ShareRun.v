(** Shares of equally likely draws, counted on the runs of the model. *)
From Coq Require Import Qabs Qround ZArith Lia Lqa FinFun.
From Verif Require Import Base M_Values M_Sampler M_Ops M_SampleApi M_Float M_Double M_DoubleProb SpecWeights SpecSampler SpecMixture SpecCtor
  SpecOps SpecDouble SpecShare P_Pick P_Mixture P_Share P_Ops P_Build P_Api P_DoubleProb.
Open Scope Q_scope.

Lemma falls_compat ws u v i : u == v -> falls ws u i -> falls ws v i.
Proof.
  intros E (L & B & C). split; auto. split; [destruct B as [B|B]; [now left|right; lra]|destruct C as [C|C]; [now left|right; lra]].
Qed.
Lemma event_counted Or : right_length Or -> in_support Or -> forall p q N s, as_x p = Some (Fin q) -> 0 <= q -> q <= 1 ->
  (0 < N)%nat -> each_draw Or N s ->
  exists c, counted (fun k => (k < N)%nat /\ fst (event_occurs Or (OLit p) (s k)) = Ok true) c /\
    q * qnat N <= qnat c /\ qnat c < q * qnat N + 1.
Proof.
  intros RL IS p q N s P Q0 Q1 NP D. destruct (below_count N q NP Q0 Q1) as (c & C & B). exists c. split; auto.
  eapply counted_iff; [|exact C]. intros k. cbn beta. split; intros [L H]; split; auto; destruct (D k L) as (u & g & Du & E);
    destruct (event_runs Or RL IS p q (s k) [u] g P Du) as (u' & b & U & _ & R & I); injection U as <-; rewrite R in *; cbn [fst] in *.
  - f_equal. apply I. lra.
  - injection H as ->. assert (u < q) by now apply I. lra.
Qed.
Lemma constants_counted Or : right_length Or -> forall ws vs N s i v, ready ws vs -> total ws == 1 -> (2 <= length vs)%nat -> NoDup vs ->
  (0 < N)%nat -> each_draw Or N s -> nth_error vs i = Some v ->
  exists c, counted (fun k => (k < N)%nat /\ fst (smp Or (ODist (DMixture ws (map OLit vs) None None)) 1 None None (s k)) = Ok (Scalar v)) c /\
    Qabs (qnat c - nth i ws 0 * qnat N) <= 1.
Proof.
  intros RL ws vs N s i v R T L U NP D I. pose proof R as (Ln & Pw & R1 & R2).
  assert (R' : ready ws (map (@OLit (G Or)) vs)) by (split; [now rewrite map_length|auto]).
  assert (Hi : (i < length ws)%nat) by (rewrite Ln; apply nth_error_Some; congruence).
  assert (Wn : ws <> []) by (intros ->; simpl in *; lia).
  destruct (share ws N (positive_nn _ Pw) T NP i Hi) as (c & C & B). exists c. split; auto.
  assert (Lw : forall k, (k < N)%nat -> exists j w, falls ws (grid N k) j /\ nth_error vs j = Some w /\
                 fst (smp Or (ODist (DMixture ws (map OLit vs) None None)) 1 None None (s k)) = Ok (Scalar w)).
  { intros k Lk. destruct (D k Lk) as (u & g & Du & E).
    destruct (small_pick_total ws u Wn) as (j & J & _). apply (falls_small ws u j (positive_nn _ Pw)) in J.
    assert (Hj : (j < length vs)%nat) by (rewrite <- Ln; apply J).
    destruct (nth_error vs j) as [w|] eqn:W; [|apply nth_error_None in W; lia].
    exists j, w. split; [now apply (falls_compat ws u)|]. split; auto.
    pose proof (proj2 (one_sample Or RL ws (map OLit vs) (s k) u g j (OLit w) w (mkState g (corr (s k))) R'
      ltac:(now rewrite map_length) Du J ltac:(now rewrite nth_error_map, W)) (lit_one Or w _)) as S. now rewrite S. }
  eapply counted_iff; [|exact C]. intros k. cbn beta. unfold selects. split; intros [Lk H]; split; auto;
    destruct (Lw k Lk) as (j & w & F & W & S).
  - assert (j = i) as -> by (eapply falls_unique; eauto; apply positive_nn, Pw). congruence.
  - rewrite S in H. injection H as ->. assert (j = i) as -> by
      (eapply (proj1 (NoDup_nth_error vs)); eauto; [apply nth_error_Some; congruence|congruence]). exact F.
Qed.
Lemma zero_counted Or : right_length Or -> forall p d D N s, 0 < p -> p < 1 -> (0 < N)%nat -> each_draw Or N s ->
  zero_inflated (PZNum p) d = Ok D ->
  (forall t, fst (smp Or d 1 None None t) <> Ok (Scalar (PInt 0))) ->
  exists c, counted (fun k => (k < N)%nat /\ fst (smp Or (ODist D) 1 None None (s k)) = Ok (Scalar (PInt 0))) c /\
    p * qnat N < qnat c /\ qnat c <= p * qnat N + 1.
Proof.
  intros RL p d D N s P0 P1 NP Ds Z NZ. destruct (upto_count N p NP (Qlt_le_weak _ _ P0) P1) as (c & C & B). exists c. split; auto.
  eapply counted_iff; [|exact C]. intros k. cbn beta. split; intros [L H]; split; auto; destruct (Ds k L) as (u & g & Du & E).
  - assert (S : smp Or (ODist D) 1 None None (s k) = (Ok (Scalar (PInt 0)), mkState g (corr (s k)))).
    { apply (zi_small Or RL p d D 1 (s k) (Scalar (PInt 0)) _ P0 P1 ltac:(lia) Z). exists [PInt 0]. split; [|reflexivity].
      eapply zs_zero; eauto; [lra|constructor]. }
    now rewrite S.
  - destruct (smp Or (ODist D) 1 None None (s k)) as [r s'] eqn:S. cbn [fst] in H. subst r.
    apply (zi_small Or RL p d D 1 (s k) _ _ P0 P1 ltac:(lia) Z) in S. destruct S as (xs & X & V).
    inversion X as [|? ? u' g' ? ? Du' Up T|? ? u' g' x s1 ? ? Du' Up Sx T]; subst; inversion T; subst; rewrite Du in Du'; injection Du' as <- <-.
    + lra.
    + exfalso. rewrite one_array in V. cbn [simplify] in V. injection V as <-. eapply NZ. rewrite Sx. reflexivity.
Qed.
Lemma fl_event_counted p : 0 <= p -> p <= 1 ->
  exists c, counted (fun k => (0 <= k < 2 ^ 53)%Z /\ fl_event_occurs p k = true) c /\
    0 <= qnat c * pow2 (-53) - p /\ qnat c * pow2 (-53) - p < pow2 (-53) /\
    ((exists k, p == inject_Z k * pow2 (-53)) -> qnat c * pow2 (-53) == p).
Proof.
  intros P0 P1. destruct (event_share p P0 P1) as (B & L & U & X). set (z := Qceiling (p * inject_Z (2 ^ 53))) in *.
  exists (Z.to_nat z).
  assert (E : qnat (Z.to_nat z) * pow2 (-53) == (z # 2 ^ 53)).
  { unfold qnat. rewrite Z2Nat.id by lia. assert (pow2 (-53) == (1 # 2 ^ 53)) as -> by reflexivity. unfold Qeq. simpl. lia. }
  assert (H : pow2 (-53) == (1 # 2 ^ 53)) by reflexivity.
  split; [|split; [lra|split; [lra|intros K; rewrite E; now apply X]]].
  exists (map Z.of_nat (seq 0 (Z.to_nat z))). split; [|split].
  - apply FinFun.Injective_map_NoDup; [intros a b; apply Nat2Z.inj|apply seq_NoDup].
  - intros k. rewrite in_map_iff. split.
    + intros (j & <- & J). apply in_seq in J. split; [lia|]. apply event_draws. fold z. lia.
    + intros [Hk V]. apply event_draws in V. fold z in V. exists (Z.to_nat k). split; [lia|]. apply in_seq. lia.
  - now rewrite map_length, seq_length.
Qed.
