(** Shares of equally likely draws (C09, C150). *)
From Coq Require Import Qabs Lqa Qround.
From Verif Require Import Base M_Weights M_Values M_Sampler SpecWeights SpecSampler SpecMixture SpecShare P_Weights P_Pick P_Mixture.
Open Scope Q_scope.

Lemma counted_iff {A} (P Q : A -> Prop) c : (forall a, P a <-> Q a) -> counted P c -> counted Q c.
Proof. intros H (l & N & I & L). exists l. split; auto. split; auto. intros a. rewrite I. apply H. Qed.
Lemma counted_seq lo n : counted (fun k => lo <= k < lo + n)%nat n.
Proof. exists (seq lo n). split; [apply seq_NoDup|]. split; [intros a; apply in_seq|apply seq_length]. Qed.
Lemma NoDup_map_inj {A B} (f : A -> B) : (forall x y, f x = f y -> x = y) -> forall l, NoDup l -> NoDup (map f l).
Proof.
  intros I l H. induction H as [|x l Hn H IH]; simpl; constructor; auto. intros Hi. apply in_map_iff in Hi as (y & E & Hy).
  apply I in E. now subst.
Qed.
Lemma NoDup_app' {A} (l m : list A) : NoDup l -> NoDup m -> (forall x, In x l -> ~ In x m) -> NoDup (l ++ m).
Proof.
  induction 1 as [|x l Hn H IH]; simpl; intros Hm D; auto. constructor.
  - intros Hi. apply in_app_or in Hi as [Hi|Hi]; auto. apply (D x); auto.
  - apply IH; auto.
Qed.
Lemma counted_map2 {A B C} (f : A -> B -> C) (P : A -> Prop) (R : B -> Prop) c d :
  (forall a b a' b', f a b = f a' b' -> a = a' /\ b = b') -> counted P c -> counted R d ->
  counted (fun z => exists a b, z = f a b /\ P a /\ R b) (c * d).
Proof.
  intros I (l & Nl & Il & <-) (m & Nm & Im & <-). exists (flat_map (fun a => map (f a) m) l). split; [|split].
  - clear Il. induction Nl as [|a l Hn H IH]; simpl; [constructor|]. apply NoDup_app'; auto.
    + apply NoDup_map_inj; auto. intros x y E. now apply I in E.
    + intros z Hz Hz'. apply in_map_iff in Hz as (b & <- & _). apply in_flat_map in Hz' as (a' & Ha' & Hz').
      apply in_map_iff in Hz' as (b' & E & _). apply I in E as [-> _]. contradiction.
  - intros z. rewrite in_flat_map. split.
    + intros (a & Ha & Hz). apply in_map_iff in Hz as (b & <- & Hb). exists a, b. rewrite <- Il, <- Im. auto.
    + intros (a & b & -> & Pa & Rb). exists a. split; [now apply Il|]. apply in_map. now apply Im.
  - clear. induction l as [|a l IH]; simpl; auto. now rewrite app_length, map_length, IH.
Qed.

Lemma grid_le N k q : (0 < N)%nat -> (grid N k <= q <-> (Z.of_nat k <= Qfloor (q * qnat N))%Z).
Proof.
  intros H. assert (0 < qnat N) as P by (unfold qnat; change 0 with (inject_Z 0); rewrite <- Zlt_Qlt; lia).
  unfold grid. fold (qnat N). split; intros L.
  - assert (inject_Z (Z.of_nat k) <= q * qnat N) as L'.
    { apply (Qmult_le_r _ _ _ P) in L. unfold Qdiv in L. rewrite <- Qmult_assoc, (Qmult_comm (/ _)), Qmult_inv_r, Qmult_1_r in L; auto. lra. }
    apply Qfloor_resp_le in L'. now rewrite Qfloor_Z in L'.
  - apply Qle_shift_div_r; auto. apply Qle_trans with (inject_Z (Qfloor (q * qnat N))); [now rewrite <- Zle_Qle|apply Qfloor_le].
Qed.
Lemma grid_lt N k q : (0 < N)%nat -> (q < grid N k <-> (Qfloor (q * qnat N) < Z.of_nat k)%Z).
Proof.
  intros H. pose proof (grid_le N k q H) as [A B]. split; intros L.
  - apply Z.nle_gt. intros C. apply B in C. lra.
  - destruct (Qlt_le_dec q (grid N k)) as [X|X]; auto. apply A in X. lia.
Qed.

Section Shares.
  Variables (ws : list Q) (N : nat).
  Hypotheses (NN : nonneg ws) (TT : total ws == 1) (NP : (0 < N)%nat).
  (** The draws up to the end of component [i - 1]. *)
  Let upto (i : nat) : Z := Qfloor (total (firstn i ws) * qnat N).
  Lemma qnat_pos : 0 < qnat N.
  Proof. unfold qnat. change 0 with (inject_Z 0). rewrite <- Zlt_Qlt. lia. Qed.
  Lemma part_range i : 0 <= total (firstn i ws) /\ total (firstn i ws) <= total (firstn (S i) ws) /\ total (firstn i ws) <= 1.
  Proof.
    assert (forall l j, nonneg l -> 0 <= total (firstn j l) /\ total (firstn j l) <= total (firstn (S j) l) /\ total (firstn j l) <= total l) as H.
    { clear. intros l. induction l as [|x l IH]; intros j H.
      - destruct j; cbn [firstn total]; lra.
      - assert (0 <= x) as X by (inversion H; auto). assert (nonneg l) as L by (inversion H; auto).
        assert (0 <= total l) as TL by (destruct (IH (length l) L) as (A & _ & C); lra).
        destruct j as [|j].
        + change (firstn 1 (x :: l)) with [x]. cbn [firstn total]. lra.
        + destruct (IH j L) as (A & B & C).
          change (firstn (S (S j)) (x :: l)) with (x :: firstn (S j) l). change (firstn (S j) (x :: l)) with (x :: firstn j l). cbn [total]. lra. }
    destruct (H ws i NN) as (A & B & C). repeat split; auto. lra.
  Qed.
  Lemma upto_range i : (0 <= upto i <= Z.of_nat N)%Z /\ (upto i <= upto (S i))%Z.
  Proof.
    pose proof qnat_pos as P. destruct (part_range i) as (A & B & C). unfold upto. split; [split|].
    - rewrite <- (Qfloor_Z 0). apply Qfloor_resp_le. apply Qmult_le_0_compat; lra.
    - rewrite <- (Qfloor_Z (Z.of_nat N)). apply Qfloor_resp_le. fold (qnat N).
      rewrite <- (Qmult_1_l (qnat N)) at 2. apply Qmult_le_compat_r; lra.
    - apply Qfloor_resp_le. apply Qmult_le_compat_r; lra.
  Qed.
  Lemma floor_near q : q - 1 < inject_Z (Qfloor q) /\ inject_Z (Qfloor q) <= q.
  Proof. split; [|apply Qfloor_le]. pose proof (Qlt_floor q) as H. rewrite inject_Z_plus in H. change (inject_Z 1) with 1 in H. lra. Qed.

  Lemma share i : (i < length ws)%nat -> exists c, counted (selects ws N i) c /\ Qabs (qnat c - nth i ws 0 * qnat N) <= 1.
  Proof.
    intros Hi. pose proof qnat_pos as P. destruct (upto_range i) as [U1 U2], (upto_range (S i)) as [U3 _].
    pose proof (interval_length ws i Hi) as IL. destruct (part_range i) as (A & B & C), (part_range (S i)) as (_ & _ & C').
    set (lo := if Nat.eqb i 0 then 0%nat else Z.to_nat (upto i + 1)).
    set (hi := if Nat.eqb (S i) (length ws) then N else Nat.min N (Z.to_nat (upto (S i) + 1))).
    exists (hi - lo)%nat. split.
    - eapply counted_iff; [|apply (counted_seq lo (hi - lo))]. intros k. cbn beta. unfold selects, falls.
      assert (i = 0%nat \/ total (firstn i ws) < grid N k <-> (lo <= k)%nat) as L1.
      { unfold lo. destruct (Nat.eqb_spec i 0) as [E|E]; [intuition lia|]. rewrite (grid_lt N k _ NP). fold (upto i). intuition lia. }
      assert (S i = length ws \/ grid N k <= total (firstn (S i) ws) <-> (S i = length ws \/ (Z.of_nat k <= upto (S i))%Z)) as L2.
      { rewrite (grid_le N k _ NP). reflexivity. }
      rewrite L1, L2. unfold hi. destruct (Nat.eqb_spec (S i) (length ws)) as [E|E]; intuition lia.
    - assert (nth i ws 0 * qnat N == total (firstn (S i) ws) * qnat N - total (firstn i ws) * qnat N) as -> by (rewrite <- IL; ring).
      destruct (floor_near (total (firstn i ws) * qnat N)) as [F1 F2]. destruct (floor_near (total (firstn (S i) ws) * qnat N)) as [F3 F4].
      fold (upto i) in F1, F2. fold (upto (S i)) in F3, F4.
      set (p := total (firstn i ws) * qnat N) in *. set (q := total (firstn (S i) ws) * qnat N) in *.
      assert (q <= qnat N) as QN by (unfold q; rewrite <- (Qmult_1_l (qnat N)) at 2; apply Qmult_le_compat_r; lra).
      assert (p <= q) as PQ by (unfold p, q; apply Qmult_le_compat_r; lra).
      assert (p <= qnat N) as PN by lra.
      assert (i = 0%nat -> p == 0) as P0 by (intros ->; unfold p; cbn [firstn total]; ring).
      assert (S i = length ws -> q == qnat N) as Q0 by (intros E; unfold q; rewrite E, firstn_all, TT; ring).
      assert (exists z, qnat (hi - lo) == inject_Z z /\ z = Z.of_nat (hi - lo)) as (z & Ez & Dz) by (eexists; split; [reflexivity|reflexivity]).
      rewrite Ez.
      assert (inject_Z (Z.of_nat N) == qnat N) as EN by reflexivity.
      (* the bounds of [z] as integers *)
      set (a := upto i) in *. set (b := upto (S i)) in *.
      assert (forall m n : Z, (m <= n)%Z -> inject_Z m <= inject_Z n) as ZQ by (intros m n H; now rewrite <- Zle_Qle).
      apply Qabs_Qle_condition.
      destruct (Nat.eqb_spec i 0) as [Ei|Ei], (Nat.eqb_spec (S i) (length ws)) as [Es|Es]; subst lo hi; cbn in Dz.
      + assert (z = Z.of_nat N) as -> by lia. specialize (P0 Ei). specialize (Q0 Es). rewrite EN. lra.
      + assert (z = Z.min (Z.of_nat N) (b + 1))%Z as -> by lia. specialize (P0 Ei).
        destruct (Z.min_spec (Z.of_nat N) (b + 1)) as [[L ->]|[L ->]].
        * rewrite EN. assert (b = Z.of_nat N) as Eb by lia. rewrite Eb in *. rewrite EN in F3, F4. lra.
        * rewrite inject_Z_plus. change (inject_Z 1) with 1. lra.
      + specialize (Q0 Es). assert (z = Z.max 0 (Z.of_nat N - a - 1))%Z as -> by lia.
        destruct (Z.max_spec 0 (Z.of_nat N - a - 1)) as [[L ->]|[L ->]].
        * unfold Z.sub. rewrite !inject_Z_plus, !inject_Z_opp. change (inject_Z 1) with 1. rewrite EN. lra.
        * assert (Z.of_nat N - 1 <= a)%Z as Ea by lia. apply ZQ in Ea. unfold Z.sub in Ea. rewrite inject_Z_plus, inject_Z_opp, EN in Ea.
          change (inject_Z 1) with 1 in Ea. change (inject_Z 0) with 0. lra.
      + assert (z = Z.max 0 (Z.min (Z.of_nat N) (b + 1) - (a + 1)))%Z as -> by lia.
        assert (Z.max 0 (Z.min (Z.of_nat N) (b + 1) - (a + 1)) = b - a \/ (b = Z.of_nat N /\ Z.max 0 (Z.min (Z.of_nat N) (b + 1) - (a + 1)) = Z.max 0 (b - a - 1)))%Z as [-> |[Eb ->]] by lia.
        * unfold Z.sub. rewrite !inject_Z_plus, !inject_Z_opp. lra.
        * rewrite Eb, EN in F3, F4. destruct (Z.max_spec 0 (b - a - 1)) as [[L ->]|[L ->]].
          -- unfold Z.sub. rewrite !inject_Z_plus, !inject_Z_opp. change (inject_Z 1) with 1. rewrite Eb, EN. lra.
          -- assert (Z.of_nat N - 1 <= a)%Z as Ea by lia. apply ZQ in Ea. unfold Z.sub in Ea. rewrite inject_Z_plus, inject_Z_opp, EN in Ea.
             change (inject_Z 1) with 1 in Ea. change (inject_Z 0) with 0. lra.
  Qed.
End Shares.

Lemma counted_le N (P : nat -> Prop) c : counted (fun k => (k < N)%nat /\ P k) c -> (c <= N)%nat.
Proof.
  intros (l & D & I & <-). rewrite <- (seq_length N 0). apply NoDup_incl_length; auto.
  intros k Hk. apply I in Hk. apply in_seq. lia.
Qed.
Lemma sequences ws N : forall is cs, Forall2 (fun i c => counted (selects ws N i) c) is cs ->
  counted (fun ks => Forall2 (selects ws N) is ks) (fold_right Nat.mul 1%nat cs).
Proof.
  induction 1 as [|i c is cs H F IH]; simpl.
  - exists [[]]. split; [repeat constructor; auto|]. split; [|reflexivity]. intros ks. simpl. split.
    + intros [<-|[]]. constructor.
    + intros H. inversion H. auto.
  - eapply counted_iff; [|apply (counted_map2 (fun k ks => k :: ks)); [|exact H|exact IH]].
    + intros ks. split.
      * intros (k & ks' & -> & A & B). now constructor.
      * intros A. inversion A; subst. eauto.
    + intros a b a' b' E. now inversion E.
Qed.
Lemma pairs ws vs N i j : nonneg ws -> total ws == 1 -> nonneg vs -> total vs == 1 -> (0 < N)%nat -> (i < length ws)%nat -> (j < length vs)%nat ->
  exists c, counted (fun p => selects ws N i (fst p) /\ selects vs N j (snd p)) c /\
    Qabs (qnat c - nth i ws 0 * nth j vs 0 * (qnat N * qnat N)) <= 2 * qnat N.
Proof.
  intros W0 W1 V0 V1 NP Hi Hj. destruct (share ws N W0 W1 NP i Hi) as (c & Cc & Ec), (share vs N V0 V1 NP j Hj) as (d & Cd & Ed).
  exists (c * d)%nat. split.
  - eapply counted_iff; [|apply (counted_map2 (fun a b => (a, b))); [|exact Cc|exact Cd]].
    + intros [a b]. simpl. split; [intros (x & y & E & A & B); inversion E; subst; auto|intros [A B]; eauto].
    + intros a b a' b' E. now inversion E.
  - pose proof (qnat_pos N NP) as P. pose proof (counted_le _ _ _ Cd) as Dd.
    assert (qnat (c * d) == qnat c * qnat d) as -> by (unfold qnat; rewrite Nat2Z.inj_mul, inject_Z_mult; reflexivity).
    set (w := nth i ws 0) in *. set (v := nth j vs 0) in *. set (n := qnat N) in *.
    assert (0 <= qnat d <= n) as [D0 D1] by (unfold n, qnat; change 0 with (inject_Z 0); rewrite <- !Zle_Qle; lia).
    assert (0 <= w /\ w <= 1) as [w0 w1].
    { pose proof (interval_length ws i Hi) as IL. destruct (part_range ws W0 W1 i) as (A & B & C).
      destruct (part_range ws W0 W1 (S i)) as (A' & _ & C'). fold w in IL. lra. }
    pose proof (Qabs_triangle ((qnat c - w * n) * qnat d) (w * n * (qnat d - v * n))) as T.
    assert ((qnat c - w * n) * qnat d + w * n * (qnat d - v * n) == qnat c * qnat d - w * v * (n * n)) as E by ring.
    rewrite E in T. rewrite !Qabs_Qmult, (Qabs_pos (qnat d)), (Qabs_pos w), (Qabs_pos n) in T by lra.
    assert (Qabs (qnat c - w * n) * qnat d <= 1 * qnat d) as Y1 by (apply Qmult_le_compat_r; auto).
    assert (w * n * Qabs (qnat d - v * n) <= n * 1) as Y2.
    { apply Qle_trans with (n * Qabs (qnat d - v * n)).
      - apply Qmult_le_compat_r; [|apply Qabs_nonneg]. rewrite <- (Qmult_1_l n) at 2. apply Qmult_le_compat_r; lra.
      - rewrite !(Qmult_comm n). apply Qmult_le_compat_r; lra. }
    lra.
Qed.

Section Nested.
  Variable Or : oracle.
  Hypothesis RL : right_length Or.
  Lemma one_array fmt x : np_array fmt [x] = [x].
  Proof. destruct x; reflexivity. Qed.
  Lemma falls_unique ws u i j : nonneg ws -> falls ws u i -> falls ws u j -> i = j.
  Proof.
    intros NN (A & B & C) (A' & B' & C').
    assert (forall a b, (a <= b)%nat -> total (firstn a ws) <= total (firstn b ws)) as M.
    { intros a b L. induction L; [apply Qle_refl|]. eapply Qle_trans; [exact IHL|].
      clear -NN. revert m. induction ws as [|x l IH]; intros m; [destruct m; apply Qle_refl|].
      assert (0 <= x) by (inversion NN; auto). assert (nonneg l) as L by (inversion NN; auto).
      destruct m; [cbn [firstn total]; lra|]. change (firstn (S (S m)) (x :: l)) with (x :: firstn (S m) l).
      change (firstn (S m) (x :: l)) with (x :: firstn m l). cbn [total]. specialize (IH L m). lra. }
    destruct (Nat.lt_trichotomy i j) as [H|[H|H]]; auto; exfalso.
    - destruct C as [C|C]; [lia|]. destruct B' as [B'|B']; [lia|]. pose proof (M (S i) j H). lra.
    - destruct C' as [C'|C']; [lia|]. destruct B as [B|B]; [lia|]. pose proof (M (S j) i H). lra.
  Qed.
  Lemma positive_nn ws : positive ws -> nonneg ws.
  Proof. intros H. unfold positive, nonneg in *. eapply Forall_impl; [|exact H]. intros. simpl in *. lra. Qed.
  (** One sample of a mixture: one draw, then one sample of the component it selects. *)
  Lemma one_sample ws ds s u g i o x s' : ready ws ds -> (2 <= length ds)%nat ->
    drawf Or (RUniform 0 1) 1 (rng s) = (Ok [u], g) -> falls ws u i -> nth_error ds i = Some o ->
    (smp Or (ODist (DMixture ws ds None None)) 1 None None s = (Ok (Scalar x), s') <->
     smp Or o 1 None None (mkState g (corr s)) = (Ok (Scalar x), s')).
  Proof.
    intros R L D F O. rewrite (mixture_small Or RL ws ds 1) by (auto; lia). split.
    - intros (xs & H & E). inversion H as [|? ? u' g' i' o' x' s1 xs' s2 D' F' O' S' T]; subst. inversion T; subst.
      rewrite one_array in E. cbn [simplify] in E. injection E as ->.
      rewrite D in D'. injection D' as <- <-. assert (i' = i) as -> by (eapply falls_unique; eauto; apply positive_nn, R).
      rewrite O in O'. injection O' as <-. exact S'.
    - intros S. exists [x]. split; [|now rewrite one_array]. eapply obo_step; eauto. constructor.
  Qed.
  Lemma nested_sample ws ds vs es s u g u' g' i j o x s' :
    ready ws ds -> (2 <= length ds)%nat -> ready vs es -> (2 <= length es)%nat ->
    drawf Or (RUniform 0 1) 1 (rng s) = (Ok [u], g) -> drawf Or (RUniform 0 1) 1 g = (Ok [u'], g') ->
    falls ws u i -> nth_error ds i = Some (ODist (DMixture vs es None None)) -> falls vs u' j -> nth_error es j = Some o ->
    (smp Or (ODist (DMixture ws ds None None)) 1 None None s = (Ok (Scalar x), s') <->
     smp Or o 1 None None (mkState g' (corr s)) = (Ok (Scalar x), s')).
  Proof.
    intros R L R' L' D D' F N F' N'. rewrite (one_sample ws ds s u g i _ x s' R L D F N).
    exact (one_sample vs es (mkState g (corr s)) u' g' j o x s' R' L' D' F' N').
  Qed.
End Nested.

(** Draws below (or up to) a probability. *)
Lemma below_count N q : (0 < N)%nat -> 0 <= q -> q <= 1 ->
  exists c, counted (fun k => (k < N)%nat /\ grid N k < q) c /\ q * qnat N <= qnat c /\ qnat c < q * qnat N + 1.
Proof.
  intros NP A B. assert (0 < qnat N) as P by (unfold qnat; change 0 with (inject_Z 0); rewrite <- Zlt_Qlt; lia).
  set (x := q * qnat N). assert (0 <= x) as X0 by (unfold x; apply Qmult_le_0_compat; lra).
  assert (x <= qnat N) as X1 by (unfold x; rewrite <- (Qmult_1_l (qnat N)) at 2; apply Qmult_le_compat_r; lra).
  assert (0 <= Qceiling x)%Z as C0 by (change 0%Z with (Qceiling 0); now apply Qceiling_resp_le).
  assert (Qceiling x <= Z.of_nat N)%Z as C1 by (rewrite <- (Qceiling_Z (Z.of_nat N)); now apply Qceiling_resp_le).
  exists (Z.to_nat (Qceiling x)). split; [|split].
  - eapply counted_iff; [|apply (counted_seq 0)]. intros k. simpl. unfold grid. fold (qnat N). fold (qnat k).
    assert (qnat k / qnat N < q <-> qnat k < x) as E.
    { unfold x. split; intros H.
      - apply (Qmult_lt_r _ _ _ P) in H. unfold Qdiv in H. rewrite <- Qmult_assoc, (Qmult_comm (/ _)), Qmult_inv_r, Qmult_1_r in H; auto. lra.
      - apply Qlt_shift_div_r; auto. }
    rewrite E. assert (qnat k < x <-> (Z.of_nat k < Qceiling x)%Z) as E'.
    { split; intros H.
      - apply Z.nle_gt. intros C. pose proof (Qle_ceiling x). rewrite Zle_Qle in C. unfold qnat in H. lra.
      - destruct (Qlt_le_dec (qnat k) x) as [L|L]; auto. apply Qceiling_resp_le in L. unfold qnat in L. rewrite Qceiling_Z in L. lia. }
    rewrite E'. lia.
  - unfold qnat at 1. rewrite Z2Nat.id by lia. apply Qle_ceiling.
  - unfold qnat at 1. rewrite Z2Nat.id by lia. pose proof (Qceiling_lt x) as H. unfold Z.sub in H. rewrite inject_Z_plus, inject_Z_opp in H.
    change (inject_Z 1) with 1 in H. lra.
Qed.
Lemma upto_count N q : (0 < N)%nat -> 0 <= q -> q < 1 ->
  exists c, counted (fun k => (k < N)%nat /\ grid N k <= q) c /\ q * qnat N < qnat c /\ qnat c <= q * qnat N + 1.
Proof.
  intros NP A B. assert (0 < qnat N) as P by (unfold qnat; change 0 with (inject_Z 0); rewrite <- Zlt_Qlt; lia).
  set (x := q * qnat N). assert (0 <= x) as X0 by (unfold x; apply Qmult_le_0_compat; lra).
  assert (x < qnat N) as X1 by (unfold x; rewrite <- (Qmult_1_l (qnat N)) at 2; apply Qmult_lt_r; auto).
  assert (0 <= Qfloor x)%Z as C0 by (change 0%Z with (Qfloor 0); now apply Qfloor_resp_le).
  assert (Qfloor x < Z.of_nat N)%Z as C1.
  { pose proof (Qfloor_le x). rewrite Zlt_Qlt. unfold qnat in X1. lra. }
  exists (Z.to_nat (Qfloor x + 1)). split; [|split].
  - eapply counted_iff; [|apply (counted_seq 0)]. intros k. simpl. rewrite (grid_le N k q NP). fold x. lia.
  - unfold qnat at 1. rewrite Z2Nat.id by lia. apply Qlt_floor.
  - unfold qnat at 1. rewrite Z2Nat.id by lia. rewrite inject_Z_plus. pose proof (Qfloor_le x). change (inject_Z 1) with 1. lra.
Qed.
