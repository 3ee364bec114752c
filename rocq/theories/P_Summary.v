(** Lemmas for [Props_Summary]. *)
From Coq Require Import Qabs Lia Lqa.
From Verif Require Import Base M_Values M_Ops M_Sampler M_Percentiles M_Double M_DoublePct M_Ieee M_DoubleMean M_DoubleExpr SpecPercentiles SpecPctOrder SpecPctUnits SpecSampler SpecRising SpecFloat SpecDouble SpecDoubleMean SpecAccuracy SpecSummary
  P_Percentiles P_Percentiles2 P_Percentiles3 P_Percentiles4 P_PctOrder P_PctUnits P_Double P_DoublePct P_IeeePct P_DoubleMean P_Float P_Count P_Clip P_Ops P_Ops2 P_Support P_Dominance P_Accuracy.
Open Scope Q_scope.

Lemma related_chain (R S T : Q -> Q -> Prop) : (forall x y z, R x y -> S y z -> T x z) -> forall a b c, related R a b -> related S b c -> related T a c.
Proof.
  intros H a b c A B. destruct a, b; cbn in A; try contradiction; destruct c; cbn in B; try contradiction; cbn; [eauto|].
  revert d1 B. induction A as [|x y l m [K A0] A IH]; intros l' B; inversion B as [|? z ? ? [K' B0] B']; subst; constructor; [split; [congruence|eauto]|now apply IH].
Qed.
Lemma related_both (R S : Q -> Q -> Prop) : forall a b, related R a b -> related S a b -> related (fun x y => R x y /\ S x y) a b.
Proof.
  intros a b A B. destruct a, b; cbn in *; try contradiction; [auto|].
  induction A as [|x y l m [K A0] A IH]; inversion B as [|? ? ? ? [K' B0] B']; subst; constructor; [tauto|now apply IH].
Qed.
Lemma related_weaken (R S : Q -> Q -> Prop) : (forall x y, R x y -> S x y) -> forall a b, related R a b -> related S a b.
Proof. intros H a b A. destruct a, b; cbn in *; try contradiction; auto. induction A as [|x y l m [K A0] A IH]; constructor; auto. Qed.
Lemma related_turn (R S : Q -> Q -> Prop) : (forall x y, R x y -> S y x) -> forall a b, related R a b -> related S b a.
Proof. intros H a b A. destruct a, b; cbn in *; try contradiction; auto. induction A as [|x y l m [K A0] A IH]; constructor; auto. Qed.
Lemma mapped f a b : same_out (out_map f a) b -> related (fun x y => f x == y) a b.
Proof.
  destruct a as [v|d], b as [v'|d']; cbn; auto. revert d'. induction d as [|x d IH]; intros d' H; inversion H as [|? ? ? ? [K E] H']; subst; constructor; auto.
Qed.
Lemma percentiles_within t as1 as2 xs ys pa reverse : sorts_numbers as1 -> sorts_numbers as2 -> 0 <= t -> t < 1 ->
  good_call xs None (plist pa) -> all_within t xs ys ->
  exists o o', get_percentiles as1 xs pa None reverse None = Ok o /\ get_percentiles as2 ys pa None reverse None = Ok o' /\ out_within t o o'.
Proof.
  intros A1 A2 T0 T1 G W.
  destruct (gp_affine as1 as1 xs None pa reverse (1 - t) 0 A1 A1 ltac:(lra) G (or_introl eq_refl)) as (o & oL & E & EL & SL).
  destruct (gp_affine as1 as1 xs None pa reverse (1 + t) 0 A1 A1 ltac:(lra) G (or_introl eq_refl)) as (o2 & oH & E2 & EH & SH).
  rewrite E in E2. inversion E2; subst o2.
  assert (GL : good_call (map (affine (1 - t) 0) xs) None (plist pa)) by (destruct G as [N P]; split; auto; destruct xs; [congruence|discriminate]).
  assert (GY : good_call ys None (plist pa)) by (destruct G as [N P]; split; auto; intros ->; inversion W; congruence).
  assert (RL : risen (map (affine (1 - t) 0) xs) ys).
  { clear -W. unfold risen. induction W as [|x y xs ys H W IH]; cbn [map]; constructor; auto. unfold affine, within in *. apply Qabs_Qle_condition in H. lra. }
  assert (RH : risen ys (map (affine (1 + t) 0) xs)).
  { clear -W. unfold risen. induction W as [|x y xs ys H W IH]; cbn [map]; constructor; auto. unfold affine, within in *. apply Qabs_Qle_condition in H. lra. }
  destruct (gp_rise as1 as2 _ _ None pa reverse None A1 A2 GL RL (or_introl eq_refl)) as (p1 & o' & F1 & F2 & L).
  destruct (gp_rise as2 as1 _ _ None pa reverse None A2 A1 GY RH (or_introl eq_refl)) as (p2 & p3 & F3 & F4 & H).
  rewrite EL in F1. rewrite F2 in F3. rewrite EH in F4. inversion F1; inversion F3; inversion F4; subst p1 p2 p3.
  exists o, o'. split; [exact E|]. split; [exact F2|]. apply mapped in SL. apply mapped in SH.
  assert (B1 : related (fun x y => affine (1 - t) 0 x <= y) o o').
  { eapply related_chain; [|exact SL|exact L]. cbv beta. intros x y z K1 K2. rewrite K1. exact K2. }
  assert (B2 : related (fun x y => y <= affine (1 + t) 0 x) o o').
  { eapply related_chain; [|exact SH|exact (related_turn Qle (fun y z => z <= y) (fun _ _ K => K) _ _ H)]. cbv beta. intros x y z K1 K2. rewrite K1. exact K2. }
  eapply related_weaken; [|exact (related_both _ _ _ _ B1 B2)]. intros x y [K1 K2]. unfold affine, within in *. apply Qabs_Qle_condition. lra.
Qed.
Lemma pct_within t as1 as2 xs ys p : sorts_numbers as1 -> sorts_numbers as2 -> 0 <= t -> t < 1 -> xs <> [] -> percent p -> all_within t xs ys ->
  within t (pct as1 xs None p) (pct as2 ys None p).
Proof.
  intros A1 A2 T0 T1 N P W. assert (NY : ys <> []) by (intros ->; inversion W; congruence).
  assert (G : forall zs, zs <> [] -> good_call zs None (plist (POne p))) by (intros zs Z; split; auto; intros q [<-|[]]; auto).
  destruct (percentiles_within t as1 as2 xs ys (POne p) false A1 A2 T0 T1 (G _ N) W) as (o & o' & E & E' & R).
  rewrite (get_vals as1) in E by (auto). rewrite (get_vals as2) in E' by (auto). inversion E; inversion E'; subst o o'. exact R.
Qed.
Lemma ci_within t as1 as2 xs ys c : sorts_numbers as1 -> sorts_numbers as2 -> 0 <= t -> t < 1 -> xs <> [] -> percent c -> all_within t xs ys ->
  exists r r' m m', get_median_and_ci as1 xs c None None = Ok r /\ get_median_and_ci as2 ys c None None = Ok r' /\
    get_mean_and_ci as1 xs c None None = Ok m /\ get_mean_and_ci as2 ys c None None = Ok m' /\
    within t (md_low r) (md_low r') /\ within t (md_median r) (md_median r') /\ within t (md_high r) (md_high r') /\
    within t (mc_low m) (mc_low m') /\ within t (mc_high m) (mc_high m').
Proof.
  intros A1 A2 T0 T1 N C W. assert (NY : ys <> []) by (intros ->; inversion W; congruence).
  destruct (median_ci_run as1 A1 xs c None None N C) as (r & E1 & B1 & B2 & B3).
  destruct (median_ci_run as2 A2 ys c None None NY C) as (r' & E2 & D1 & D2 & D3).
  destruct (mean_ci_run as1 A1 xs c None None N C) as (m & E3 & B4 & _ & B5).
  destruct (mean_ci_run as2 A2 ys c None None NY C) as (m' & E4 & D4 & _ & D5).
  exists r, r', m, m'. do 4 (split; [assumption|]). destruct (lowp_percent c C) as (P1 & P2 & _). assert (P5 : percent 50) by (split; discriminate).
  cbn [round_to] in *. unfold within. rewrite B1, B2, B3, B4, B5, D1, D2, D3, D4, D5. repeat split; apply pct_within; auto.
Qed.
Lemma sums_within t xs ys : all_within t xs ys -> within t (fold_right Qplus 0 xs) (fold_right Qplus 0 ys).
Proof.
  induction 1 as [|x y xs ys H W IH]; cbn [fold_right]; unfold within in *; [apply Qabs_Qle_condition; lra|]. apply Qabs_Qle_condition in H. apply Qabs_Qle_condition in IH. apply Qabs_Qle_condition. lra.
Qed.
Lemma within_nonneg t xs ys : 0 <= t -> t <= 1 -> all_within t xs ys -> Forall (Qle 0) xs -> magnitude ys == fold_right Qplus 0 ys.
Proof.
  intros T0 T1 W. induction W as [|x y xs ys H W IH]; intros F; cbn [magnitude fold_right]; [reflexivity|]. inversion F; subst. fold (magnitude ys). rewrite IH by auto.
  unfold within in H. apply Qabs_Qle_condition in H. assert (t * x <= 1 * x) by (apply Qmult_le_compat_r; auto). rewrite Qabs_pos by lra. reflexivity.
Qed.
Lemma average_within t xs ys m : 0 <= t -> t <= 1 # 2 -> xs <> [] -> Forall (Qle 0) xs -> all_within t xs ys -> short_for double_u (length ys) -> averages_to ys m ->
  within (t + 2 * inject_Z (Z.of_nat (length xs)) * double_u) (average xs) m.
Proof.
  intros T0 T1 N F W S A. pose proof (mean_error ys m S A) as E. pose proof (within_nonneg t xs ys T0 ltac:(lra) W F) as M. rewrite M in E.
  pose proof (sums_within t xs ys W) as B. assert (L : length ys = length xs) by (symmetry; clear -W; induction W; cbn; congruence).
  rewrite L in E. unfold average, within in *. change (SpecDoubleMean.exactly ys) with (fold_right Qplus 0 ys) in E.
  set (n := inject_Z (Z.of_nat (length xs))) in *. set (X := fold_right Qplus 0 xs) in *. set (Y := fold_right Qplus 0 ys) in *.
  assert (Pn : 0 < n) by (unfold n; change 0 with (inject_Z 0); rewrite <- Zlt_Qlt; destruct xs; [congruence|cbn; lia]).
  assert (PX : 0 <= X) by (unfold X; clear -F; induction F; cbn; lra).
  assert (U : 0 < double_u) by reflexivity.
  clearbody n X Y. set (u := double_u) in *. clearbody u. clear - E B Pn PX U T0 T1.
  apply Qabs_Qle_condition in E. apply Qabs_Qle_condition in B.
  assert (XN : X / n * n == X) by (field; lra). assert (YN : Y / n * n == Y) by (field; lra).
  assert (TX : t * X <= (1 # 2) * X) by (apply Qmult_le_compat_r; lra).
  assert (Z0 : 0 <= u * X) by (apply Qmult_le_0_compat; lra).
  assert (G : (1002 # 1000) * u * Y <= 2 * (u * X)).
  { assert (u * Y <= u * ((3 # 2) * X)) by (rewrite !(Qmult_comm u); apply Qmult_le_compat_r; lra). lra. }
  assert (D : - (t * (X / n)) <= Y / n - X / n <= t * (X / n)).
  { split; apply (Qmult_le_r _ _ n Pn).
    - setoid_replace (- (t * (X / n)) * n) with (- (t * X)) by (field; lra). setoid_replace ((Y / n - X / n) * n) with (Y - X) by (field; lra). lra.
    - setoid_replace (t * (X / n) * n) with (t * X) by (field; lra). setoid_replace ((Y / n - X / n) * n) with (Y - X) by (field; lra). lra. }
  assert (Q : (t + 2 * n * u) * (X / n) == t * (X / n) + 2 * (u * X)) by (field; lra).
  apply Qabs_Qle_condition. rewrite Q. lra.
Qed.
(** Also with the percentile itself computed in double precision. *)
Lemma machine_percentile t xs ys p r lo hi : 0 <= t -> t < 1 -> xs <> [] -> all_within t xs ys -> Forall is_double ys ->
  (Z.of_nat (length xs) <= 2 ^ 53)%Z -> percent p -> 0 <= lo -> all_between lo hi xs -> percentile_of xs p r ->
  Qabs (fl_percentile ys p - r) <= t * r + double_u * (3 * inject_Z (Z.of_nat (length xs - 1)) * ((1 + t) * hi - (1 - t) * lo) + 7 * ((1 + t) * hi)).
Proof.
  intros T0 T1 N W D L P Lo B R. assert (NY : ys <> []) by (intros ->; inversion W; congruence).
  assert (LE : length ys = length xs) by (symmetry; clear -W; induction W; cbn; congruence).
  pose proof (pct_within t argsort0 argsort0 xs ys p argsort0_sorts argsort0_sorts T0 T1 N P W) as E. cbn [pct] in E.
  pose proof (percentile_unique _ _ _ _ R (np_percentile_spec xs p N P)) as Er.
  assert (BY : all_between ((1 - t) * lo) ((1 + t) * hi) ys).
  { clear -W B T0 T1. revert B. induction W as [|x y xs ys H W IH]; intros B z Z; [destruct Z|]. destruct Z as [<-|Z].
    - destruct (B x (or_introl eq_refl)) as [B1 B2]. unfold within in H. apply Qabs_Qle_condition in H.
      pose proof (Qmult_le_compat_r lo x (1 - t) B1 ltac:(lra)). pose proof (Qmult_le_compat_r x hi (1 + t) B2 ltac:(lra)). lra.
    - apply IH; auto. intros q I. apply B. now right. }
  assert (LH : lo <= hi) by (destruct xs as [|x xs]; [congruence|]; destruct (B x (or_introl eq_refl)); lra).
  pose proof (Qmult_le_compat_r 0 lo (1 - t) Lo ltac:(lra)) as Q1. pose proof (Qmult_le_compat_r lo hi (1 - t) LH ltac:(lra)) as Q2.
  pose proof (Qmult_le_compat_r 0 hi t ltac:(lra) T0) as Q3.
  assert (C := fl_percentile_close ys NY D ltac:(rewrite LE; exact L) p (np_percentile ys p) ((1 - t) * lo) ((1 + t) * hi) ((1 + t) * hi) P BY).
  specialize (C ltac:(apply Qabs_Qle_condition; lra) ltac:(apply Qabs_Qle_condition; lra) (np_percentile_spec ys p NY P)). rewrite LE in C.
  unfold within in E. rewrite <- Er in E. apply Qabs_Qle_condition in C. apply Qabs_Qle_condition in E. apply Qabs_Qle_condition. lra.
Qed.
Lemma round64_double x r : round64 x = Fin r -> is_double r.
Proof.
  destruct x as [q| | |]; try discriminate. intros H. assert (E : r = r64 q); [|rewrite E; apply u_double_is, r64_u]. revert H. unfold round64, r64.
  assert (G : forall x z, round64_pos x = z -> z = Fin (r64_pos x) \/ z = PInf).
  { intros x z <-. unfold round64_pos. cbv zeta. fold (r64_pos x). change (inject_Z (round_half_even (x * pow2 (- Z.max (last_digit x) (-1074)))) * pow2 (Z.max (last_digit x) (-1074))) with (r64_pos x). destruct (Qlt_bool _ _); auto. }
  destruct (Qnum q).
  - now intros [= <-].
  - intros H. destruct (G _ _ H) as [K|K]; congruence.
  - destruct (G _ _ (eq_refl (round64_pos (- q)))) as [->| ->]; cbn; congruence.
Qed.

Section Run.
  Variable Or : oracle.
  Lemma run_rounded n e : forall s zs s', fl_run Or e n s = (Ok zs, s') -> Forall (fun z => exists x, z = round64 x) zs.
  Proof.
    induction e as [d|o a IHa b IHb]; intros s zs s'; cbn [fl_run]; unfold bindS.
    - destruct (smp Or d n None None s) as [[v|] s1]; [|discriminate]. unfold lift. set (l := match v with Scalar x => [x] | Arr l => l end). clearbody l.
      intros [= E _]. revert zs E. induction l as [|x l IH]; cbn [doubles]; intros zs E; [inversion E; constructor|].
      destruct (as_x x); [|discriminate]. destruct (doubles l); [|discriminate]. cbn [bind] in E. inversion E; subst. constructor; eauto.
    - destruct (fl_run Or a n s) as [[xs|] s1]; [|discriminate]. destruct (fl_run Or b n s1) as [[ys|] s2]; [|discriminate]. intros [= <- _].
      apply Forall_forall. intros z I. apply in_map_iff in I. destruct I as (q & <- & _). unfold fl_op. eauto.
  Qed.
  Lemma run_doubles n e s ys s' : fl_run Or e n s = (Ok (map Fin ys), s') -> Forall is_double ys.
  Proof.
    intros H. apply run_rounded in H. rewrite Forall_map in H. eapply Forall_impl; [|exact H]. intros y (x & E). now apply (round64_double x).
  Qed.
  Definition share (k : nat) : Q := inject_Z (Z.of_nat (S k)) * double_u.
  Lemma share_small k : (k <= 1000)%nat -> 0 <= share k /\ share k <= 1 # 2.
  Proof.
    intros K. unfold share. assert (N0 : 0 <= inject_Z (Z.of_nat (S k))) by (change 0 with (inject_Z 0); rewrite <- Zle_Qle; lia).
    assert (N1 : inject_Z (Z.of_nat (S k)) <= 1001) by (rewrite <- (Zle_Qle _ 1001); lia). assert (U : 0 < double_u) by reflexivity.
    assert (1001 * double_u <= 1 # 2) by (vm_compute; discriminate). split; [apply Qmult_le_0_compat; lra|].
    apply Qle_trans with (1001 * double_u); [apply Qmult_le_compat_r; lra|auto].
  Qed.
  Lemma summaries n e s xs s' : (1 <= n)%nat -> estimates Or n e s xs s' -> (steps e <= 1000)%nat ->
    exists v ys, smp Or (fobj e) n None None s = (Ok v, s') /\ numbers n v xs /\ fl_run Or e n s = (Ok (map Fin ys), s') /\
    (forall as1 as2 pa reverse, sorts_numbers as1 -> sorts_numbers as2 -> (forall p, In p (plist pa) -> percent p) ->
      exists o o', get_percentiles as1 xs pa None reverse None = Ok o /\ get_percentiles as2 ys pa None reverse None = Ok o' /\
        out_within (inject_Z (Z.of_nat (S (steps e))) * double_u) o o') /\
    (forall m, short_for double_u n -> averages_to ys m -> within (inject_Z (Z.of_nat (S (steps e) + 2 * n)) * double_u) (average xs) m) /\
    (forall p r lo hi, (Z.of_nat n <= 2 ^ 53)%Z -> percent p -> 0 <= lo -> all_between lo hi xs -> percentile_of xs p r ->
      let t := inject_Z (Z.of_nat (S (steps e))) * double_u in
      Qabs (fl_percentile ys p - r) <= t * r + double_u * (3 * inject_Z (Z.of_nat (n - 1)) * ((1 + t) * hi - (1 - t) * lo) + 7 * ((1 + t) * hi))).
  Proof.
    intros Hn H K. destruct (estimate_accurate Or n e s xs s' Hn H K) as (v & ys & R & [Nv P] & E & F). exists v, ys.
    assert (L : length xs = n) by (rewrite <- (n_elems _ _ Nv); clear -P; induction P; cbn; congruence).
    assert (NE : xs <> []) by (destruct xs; [cbn in L; lia|discriminate]).
    assert (LY : length ys = n) by (rewrite <- L; clear -F; induction F; cbn; congruence).
    destruct (share_small _ K) as [S0 S1]. fold (share (steps e)) in *.
    split; [exact R|]. split; [now split|]. split; [exact E|]. split; [|split].
    - intros as1 as2 pa reverse A1 A2 G. apply percentiles_within; auto; [lra|]. now split.
    - intros m S A. rewrite <- LY in S.
      pose proof (average_within (share (steps e)) xs ys m S0 S1 NE ltac:(eapply Forall_impl; [|eapply estimates_moderate; eassumption]; intros x X; apply Qlt_le_weak; now apply moderate_pos) F S A) as W.
      unfold within in *. eapply Qle_trans; [exact W|]. rewrite L, Nat2Z.inj_add, Nat2Z.inj_mul, inject_Z_plus, inject_Z_mult. unfold share. change (inject_Z (Z.of_nat 2)) with 2.
      apply Qle_lteq. right. ring.
    - intros p r lo hi LN P1 Lo B R1. cbv zeta. fold (share (steps e)). rewrite <- L in LN |- *. apply machine_percentile; auto; [lra|].
      eapply run_doubles. exact E.
  Qed.
End Run.
