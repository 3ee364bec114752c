(** Percentiles of samples near the percentiles of the law (C194). *)
From Coq Require Import Qabs Qminmax ZArith Lia Lqa.
From Verif Require Import Base M_Values M_Sampler M_Percentiles SpecWeights SpecSampler SpecShare SpecPercentiles SpecPctOrder P_Support P_Percentiles P_Percentiles3 P_Percentiles4 P_Percentiles5 P_PctOrder P_Program P_Program2 P_Large P_Indep P_Columns P_Columns2 P_BayesRule P_Weights.
From Verif Require Import M_SampleApi M_Bayesnet SpecBayes SpecProgram SpecLarge SpecIndep SpecColumns SpecPctNear.
Open Scope Q_scope.

Definition frac (P : Q -> bool) (n : nat) (l : list Q) : Q := total (map (ind P) l) / qnat n.
Lemma rank_low l p r a : percent p -> (1 <= length l)%nat -> percentile_of l p r -> r < a -> qnat (length l) * (p / 100) - 1 < qnat (count_below l a).
Proof.
  intros [P0 P1] Hl (i & x & y & V1 & V2 & Ox & Oy & Er) Ha. cbv zeta in *. set (v := inject_Z (Z.of_nat (length l - 1)) * (p / 100)) in *.
  assert (Hi : (i <= Nat.min (S i) (length l - 1))%nat \/ (length l - 1 < i)%nat) by lia. destruct Hi as [Hi|Hi].
  - pose proof (order_stat_mono l _ _ x y Hi Ox Oy) as Lxy. assert (T0 : 0 <= v - inject_Z (Z.of_nat i)) by lra. assert (T1 : v - inject_Z (Z.of_nat i) <= 1) by lra. destruct (step_value x y _ Lxy T0 T1) as [S1 _].
    assert (Hx : x < a) by lra. pose proof (counts_le l x a Hx) as C. destruct Ox as (_ & _ & Ox).
    assert (G : (S i <= count_below l a)%nat) by lia. apply inject_nat_le in G. rewrite inject_S in G. unfold qnat.
    assert (E : inject_Z (Z.of_nat (length l)) == inject_Z (Z.of_nat (length l - 1)) + 1) by (rewrite <- inject_S; replace (S (length l - 1)) with (length l) by lia; reflexivity).
    rewrite E. assert (X : (inject_Z (Z.of_nat (length l - 1)) + 1) * (p / 100) == v + p / 100) by (unfold v; ring). rewrite X. assert (p / 100 <= 1) by (apply Qle_shift_div_r; lra). lra.
  - exfalso. apply inject_nat_lt in Hi. assert (v <= inject_Z (Z.of_nat (length l - 1))); [|lra]. unfold v. assert (p / 100 <= 1) by (apply Qle_shift_div_r; lra).
    assert (0 <= inject_Z (Z.of_nat (length l - 1))) by (change 0 with (inject_Z 0); rewrite <- Zle_Qle; lia). nra.
Qed.
Lemma rank_high l p r b : percent p -> (1 <= length l)%nat -> percentile_of l p r -> b < r -> qnat (count_upto l b) <= qnat (length l) * (p / 100) + 1.
Proof.
  intros [P0 P1] Hl (i & x & y & V1 & V2 & Ox & Oy & Er) Hb. cbv zeta in *. set (v := inject_Z (Z.of_nat (length l - 1)) * (p / 100)) in *.
  assert (Pp : 0 <= p / 100) by (apply Qle_shift_div_l; lra).
  assert (Hi : (i <= Nat.min (S i) (length l - 1))%nat \/ (length l - 1 < i)%nat) by lia. destruct Hi as [Hi|Hi].
  - pose proof (order_stat_mono l _ _ x y Hi Ox Oy) as Lxy. assert (T0 : 0 <= v - inject_Z (Z.of_nat i)) by lra. assert (T1 : v - inject_Z (Z.of_nat i) <= 1) by lra. destruct (step_value x y _ Lxy T0 T1) as [_ S1].
    assert (Hy : b < y) by lra. pose proof (counts_le l b y Hy) as C. destruct Oy as (_ & Oy & _).
    assert (G : (count_upto l b <= S i)%nat) by lia. apply inject_nat_le in G. rewrite inject_S in G. unfold qnat.
    assert (E : inject_Z (Z.of_nat (length l)) == inject_Z (Z.of_nat (length l - 1)) + 1) by (rewrite <- inject_S; replace (S (length l - 1)) with (length l) by lia; reflexivity).
    rewrite E. assert (X : (inject_Z (Z.of_nat (length l - 1)) + 1) * (p / 100) == v + p / 100) by (unfold v; ring). rewrite X. lra.
  - exfalso. apply inject_nat_lt in Hi. assert (v <= inject_Z (Z.of_nat (length l - 1))); [|lra]. unfold v. assert (p / 100 <= 1) by (apply Qle_shift_div_r; lra).
    assert (0 <= inject_Z (Z.of_nat (length l - 1))) by (change 0 with (inject_Z 0); rewrite <- Zle_Qle; lia). nra.
Qed.
Lemma within_iff a b x : within a b x = true <-> a <= x <= b.
Proof. unfold within. rewrite andb_true_iff, !Qle_bool_iff. reflexivity. Qed.
Lemma frac_count P n l : frac P n l == qnat (count P l) / qnat n.
Proof. unfold frac. now rewrite total_ind. Qed.
Lemma enclosed e p n d a b l r : percent p -> (1 <= n)%nat -> encloses e p n d a b -> length l = n -> percentile_of l p r ->
  far d (frac (fun x => Qlt_bool x a) n l) (chance (prog_of e) (fun x => Qlt_bool x a)) = false ->
  far d (frac (fun x => Qle_bool x b) n l) (chance (prog_of e) (fun x => Qle_bool x b)) = false -> a <= r <= b.
Proof.
  intros Hp Hn [E1 E2] Hl Pr F1 F2. apply near in F1, F2. apply Qabs_Qle_condition in F1, F2. rewrite frac_count in F1, F2. destruct F1 as [_ F1], F2 as [F2 _].
  pose proof (qnat_pos n ltac:(lia)) as Pn. split.
  - apply Qnot_lt_le. intros H. pose proof (rank_low l p r a Hp ltac:(lia) Pr H) as G. rewrite Hl in G. unfold count_below in G. rewrite <- P_BayesRule.count_filter in G.
    assert (p / 100 - 1 / qnat n < qnat (count (fun x => Qlt_bool x a) l) / qnat n); [|lra]. apply Qlt_shift_div_l; [exact Pn|].
    assert (X : (p / 100 - 1 / qnat n) * qnat n == qnat n * (p / 100) - 1) by (field; intros Z; rewrite Z in Pn; now apply Qlt_irrefl in Pn). rewrite X. exact G.
  - apply Qnot_lt_le. intros H. pose proof (rank_high l p r b Hp ltac:(lia) Pr H) as G. rewrite Hl in G. unfold count_upto in G. rewrite <- P_BayesRule.count_filter in G.
    assert (qnat (count (fun x => Qle_bool x b) l) / qnat n <= p / 100 + 1 / qnat n); [|lra]. apply Qle_shift_div_r; [exact Pn|].
    assert (X : (p / 100 + 1 / qnat n) * qnat n == qnat n * (p / 100) + 1) by (field; intros Z; rewrite Z in Pn; now apply Qlt_irrefl in Pn). rewrite X. exact G.
Qed.
(** Rare exceptions add up. *)
Definition rare {A} (p : prog A) (P : A -> bool) (x : Q) : Prop := chance p P <= x.
Lemma rare_frac e P n d : sound e -> (1 <= n)%nat -> 0 < d -> rare (repeated n (prog_of e)) (fun l => far d (frac P n l) (chance (prog_of e) P)) (1 / (4 * qnat n * (d * d))).
Proof.
  intros S Hn Hd. unfold rare. assert (B : returns (prog_of e) (fun a => 0 <= ind P a <= 1)) by (apply returns_all; intros a; unfold ind; destruct (P a); lra).
  pose proof (chebyshev (prog_of e) (ind P) 0 1 _ _ n d (fits_prog e S) B Hn Hd) as C.
  assert (X : (1 - 0) * (1 - 0) / (4 * qnat n * (d * d)) == 1 / (4 * qnat n * (d * d))) by (unfold Qdiv; ring). rewrite X in C.
  eapply Qle_trans; [|exact C]. rewrite (expect_chance _ (fun l => far d (frac P n l) _)), (expect_chance _ (fun l => far d (total (map (ind P) l) / qnat n) _)).
  apply Qle_lteq. right. apply expect_ext. intros l. unfold frac.
  rewrite (far_compat d (total (map (ind P) l) / qnat n) (chance (prog_of e) P) (total (map (ind P) l) / qnat n) (expect (prog_of e) (ind P))); [reflexivity|reflexivity|]. apply expect_chance.
Qed.
Lemma rare_or {A} (p : prog A) P R x y L c : fits p L c -> rare p P x -> rare p R y -> rare p (fun a => P a || R a) (x + y).
Proof.
  intros F HP HR. unfold rare in *. rewrite expect_chance in *.
  eapply Qle_trans; [|apply Qplus_le_compat; [exact HP|exact HR]].
  assert (X : expect p (fun a => if P a then 1 else 0) + expect p (fun a => if R a then 1 else 0) == expect p (fun a => 1 * (if P a then 1 else 0) + 1 * (if R a then 1 else 0))) by (rewrite expect_linear; ring).
  rewrite X. apply (expect_le_sure p (fun _ => True) _ _ (returns_all p _ (fun _ => I))) with (L := L) (c := c); [|exact F]. intros a _. destruct (P a), (R a); cbn [orb]; lra.
Qed.
Lemma usual {A} (p : prog A) (S : A -> Prop) P R x L c : fits p L c -> returns p S -> (forall a, S a -> R a = false -> P a = true) -> rare p R x -> 1 - x <= chance p P.
Proof.
  intros F HS H HR. unfold rare in HR. rewrite expect_chance in *.
  assert (X : expect p (fun a => 1 * 1 + (-1) * (if R a then 1 else 0)) <= expect p (fun a => if P a then 1 else 0)).
  { apply (expect_le_sure p S _ _ HS) with (L := L) (c := c); auto. intros a Sa. specialize (H a Sa). destruct (R a), (P a); try lra. }
  rewrite expect_linear, (expect_const p 1 _ _ F) in X. lra.
Qed.

Lemma equal_upto xs ys : Forall2 Qeq xs ys -> Forall2 (upto 0) xs ys /\ Forall2 (upto 0) ys xs.
Proof. induction 1 as [|x y xs ys E F [A B]]; split; constructor; auto; unfold upto; lra. Qed.
Lemma percentile_equal xs ys p r s : Forall2 Qeq xs ys -> percentile_of xs p r -> percentile_of ys p s -> r == s.
Proof. intros F R S. destruct (equal_upto xs ys F) as [A B]. pose proof (percentile_upto 0 xs ys p r s A R S). pose proof (percentile_upto 0 ys xs p s r B S R). lra. Qed.
Lemma within_same a b x y : x == y -> within a b x = within a b y.
Proof. intros E. apply Bool.eq_true_iff_eq. rewrite !within_iff, E. reflexivity. Qed.
Lemma percentile_numbers argsort p a b : sorts_numbers argsort -> percent p -> of_number_lists (percentile_within argsort p a b).
Proof.
  intros HS Hp xs ys F. assert (D : xs = [] /\ ys = [] \/ xs <> [] /\ ys <> []) by (destruct F; [left|right]; split; congruence).
  destruct D as [[-> ->]|[X Y]]; [reflexivity|]. unfold percentile_within.
  assert (PP : forall q, In q [p] -> percent q) by (intros q [<-|[]]; exact Hp).
  destruct (get_single argsort HS xs (POne p) p None false None eq_refl (conj X PP)) as (v & -> & V). destruct (get_single argsort HS ys (POne p) p None false None eq_refl (conj Y PP)) as (w & -> & W).
  cbn [round_to]. apply within_same. eapply percentile_equal; eauto.
Qed.
Lemma interval_numbers argsort c low mid high : sorts_numbers argsort -> percent c -> of_number_lists (interval_within argsort c low mid high).
Proof.
  intros HS Hp xs ys F. assert (D : xs = [] /\ ys = [] \/ xs <> [] /\ ys <> []) by (destruct F; [left|right]; split; congruence).
  destruct D as [[-> ->]|[X Y]]; [reflexivity|]. unfold interval_within.
  destruct (median_ci argsort HS xs c None None X Hp) as (r & l & m & h & -> & L & M & H & E1 & E2 & E3 & _).
  destruct (median_ci argsort HS ys c None None Y Hp) as (r' & l' & m' & h' & -> & L' & M' & H' & E1' & E2' & E3' & _). cbn [round_to] in *.
  f_equal; [f_equal|]; apply within_same; [rewrite E1, E1'|rewrite E2, E2'|rewrite E3, E3']; eapply percentile_equal; eauto.
Qed.
Lemma in_range (l : list Q) : exists lo hi, all_between lo hi l.
Proof.
  induction l as [|x l (lo & hi & H)]; [exists 0, 0; intros y []|]. exists (Qmin x lo), (Qmax x hi). intros y [<-|I]; [split; [apply Q.le_min_l|apply Q.le_max_l]|].
  destruct (H y I) as [A B]. split; [eapply Qle_trans; [apply Q.le_min_r|exact A]|eapply Qle_trans; [exact B|apply Q.le_max_r]].
Qed.
Lemma mean_ci_plain argsort data c : sorts_numbers argsort -> data <> [] -> percent c ->
  exists r l h, get_mean_and_ci argsort data c None None = Ok r /\ percentile_of data ((100 - c) / 2) l /\ percentile_of data (100 - (100 - c) / 2) h /\
    mc_low r == l /\ mc_high r == h /\ mc_mean r == total data / qnat (length data).
Proof.
  intros HS Nd Hc. destruct (in_range data) as (lo & hi & AB). destruct (mean_ci_spec argsort HS data c None None lo hi Nd Hc AB) as (r & l & h & E & L & H & Q1 & Q2 & _ & M & _).
  exists r, l, h. cbn [round_to] in *. split; [exact E|]. split; [exact L|]. split; [exact H|]. split; [exact Q1|]. split; [exact Q2|]. rewrite M, qsum_total. reflexivity.
Qed.
Lemma mean_interval_numbers argsort c t y low high : sorts_numbers argsort -> percent c -> of_number_lists (mean_interval_within argsort c t y low high).
Proof.
  intros HS Hp xs ys F. assert (D : xs = [] /\ ys = [] \/ xs <> [] /\ ys <> []) by (destruct F; [left|right]; split; congruence).
  destruct D as [[-> ->]|[X Y]]; [reflexivity|]. unfold mean_interval_within.
  destruct (mean_ci_plain argsort xs c HS X Hp) as (r & l & h & -> & L & H & E1 & E2 & E3).
  destruct (mean_ci_plain argsort ys c HS Y Hp) as (r' & l' & h' & -> & L' & H' & E1' & E2' & E3').
  f_equal; [f_equal|].
  - f_equal. apply far_compat; [|reflexivity]. rewrite E3, E3', (total_compat xs ys F). assert (LE : length xs = length ys) by (clear -F; induction F; cbn [length]; congruence). rewrite LE. reflexivity.
  - apply within_same. rewrite E1, E1'. eapply percentile_equal; eauto.
  - apply within_same. rewrite E2, E2'. eapply percentile_equal; eauto.
Qed.
Section Samples.
  Variables (Or : oracle) (N : nat) (ahead : G Or -> nat -> nat).
  Hypotheses (HN : (0 < N)%nat) (RL : right_length Or) (RA : reads_all Or N ahead).
  Lemma samples_usual e n P x ss : sound e -> (1 <= n)%nat -> of_number_lists P -> each_once N (n * work e) (map (coming Or ahead (n * work e)) ss) ->
    1 - x <= chance (repeated n (prog_of e)) P -> 1 - x - qnat (n * spread e) / qnat N <= qnat (count (samples_in Or (obj_of e) n P) ss) / qnat (N ^ (n * work e)).
  Proof. intros S Hn HP Eo H. pose proof (samples_share Or N ahead HN RL RA e n P ss S Hn HP Eo) as B. apply Qabs_Qle_condition in B. lra. Qed.
  Lemma percentile_near argsort e n p d a b ss : sorts_numbers argsort -> sound e -> (1 <= n)%nat -> 0 < d -> percent p -> encloses e p n d a b ->
    each_once N (n * work e) (map (coming Or ahead (n * work e)) ss) ->
    1 - 1 / (2 * qnat n * (d * d)) - qnat (n * spread e) / qnat N <= qnat (count (samples_in Or (obj_of e) n (percentile_within argsort p a b)) ss) / qnat (N ^ (n * work e)).
  Proof.
    intros HS S Hn Hd Hp En Eo. apply samples_usual; auto using percentile_numbers. pose proof (fits_repeated _ _ _ n (fits_prog e S)) as F.
    pose proof (rare_or _ _ _ _ _ _ _ F (rare_frac e (fun x => Qlt_bool x a) n d S Hn Hd) (rare_frac e (fun x => Qle_bool x b) n d S Hn Hd)) as R.
    pose proof (qnat_pos n ltac:(lia)) as Pn. assert (~ qnat n == 0 /\ ~ d == 0) as [Nn Nd] by (split; lra).
    assert (X : 1 / (4 * qnat n * (d * d)) + 1 / (4 * qnat n * (d * d)) == 1 / (2 * qnat n * (d * d))) by (field; auto).
    unfold rare in R. rewrite X in R. apply (usual _ (fun l => length l = n) _ _ _ _ _ F (returns_repeated _ n)) with (2 := R).
    intros l Hl H. assert (Nl : l <> []) by (intros Z; rewrite Z in Hl; cbn in Hl; lia). apply orb_false_iff in H. destruct H as [H1 H2]. unfold percentile_within.
    assert (PP : forall q, In q [p] -> percent q) by (intros q [<-|[]]; exact Hp).
    destruct (get_single argsort HS l (POne p) p None false None eq_refl (conj Nl PP)) as (v & -> & V). cbn [round_to]. apply within_iff.
    eapply enclosed; eauto.
  Qed.
  Lemma interval_near argsort e n c d low mid high ss : sorts_numbers argsort -> sound e -> (1 <= n)%nat -> 0 < d -> percent c ->
    encloses e ((100 - c) / 2) n d (fst low) (snd low) -> encloses e 50 n d (fst mid) (snd mid) -> encloses e (100 - (100 - c) / 2) n d (fst high) (snd high) ->
    each_once N (n * work e) (map (coming Or ahead (n * work e)) ss) ->
    1 - 3 / (2 * qnat n * (d * d)) - qnat (n * spread e) / qnat N <= qnat (count (samples_in Or (obj_of e) n (interval_within argsort c low mid high)) ss) / qnat (N ^ (n * work e)).
  Proof.
    intros HS S Hn Hd Hp E1 E2 E3 Eo. apply samples_usual; auto using interval_numbers. pose proof (fits_repeated _ _ _ n (fits_prog e S)) as F.
    pose proof (fun a b => rare_or _ _ _ _ _ _ _ F (rare_frac e (fun x => Qlt_bool x a) n d S Hn Hd) (rare_frac e (fun x => Qle_bool x b) n d S Hn Hd)) as R2.
    pose proof (rare_or _ _ _ _ _ _ _ F (rare_or _ _ _ _ _ _ _ F (R2 (fst low) (snd low)) (R2 (fst mid) (snd mid))) (R2 (fst high) (snd high))) as R. clear R2.
    pose proof (qnat_pos n ltac:(lia)) as Pn. assert (~ qnat n == 0 /\ ~ d == 0) as [Nn Nd] by (split; lra). set (z := 1 / (4 * qnat n * (d * d))) in *.
    assert (X : z + z + (z + z) + (z + z) == 3 / (2 * qnat n * (d * d))) by (unfold z; field; auto).
    unfold rare in R. rewrite X in R. apply (usual _ (fun l => length l = n) _ _ _ _ _ F (returns_repeated _ n)) with (2 := R).
    intros l Hl H. assert (Nl : l <> []) by (intros Z; rewrite Z in Hl; cbn in Hl; lia). rewrite !orb_false_iff in H. destruct H as [[[H1 H2] [H3 H4]] [H5 H6]]. unfold interval_within.
    destruct (median_ci argsort HS l c None None Nl Hp) as (r & lo & m & h & -> & L & M & H & Q1 & Q2 & Q3 & _). cbn [round_to] in *. destruct Hp as [Hp0 Hp1].
    assert (H0 : percent ((100 - c) / 2)) by (split; [apply Qle_shift_div_l|apply Qle_shift_div_r]; lra).
    assert (H6' : percent (100 - (100 - c) / 2)) by (destruct H0; split; lra). assert (H7 : percent 50) by (split; lra).
    rewrite (within_same _ _ _ _ Q1), (within_same _ _ _ _ Q2), (within_same _ _ _ _ Q3). rewrite !andb_true_iff, !within_iff. split; [split|]; [apply (enclosed e _ n d _ _ l lo H0 Hn E1 Hl L H1 H2)|apply (enclosed e _ n d _ _ l m H7 Hn E2 Hl M H3 H4)|apply (enclosed e _ n d _ _ l h H6' Hn E3 Hl H H5 H6)].
  Qed.
  Lemma mean_interval_near argsort e n c d t lo hi low high ss : sorts_numbers argsort -> sound e -> (1 <= n)%nat -> 0 < d -> 0 < t -> percent c ->
    returns (prog_of e) (fun x => lo <= x <= hi) ->
    encloses e ((100 - c) / 2) n d (fst low) (snd low) -> encloses e (100 - (100 - c) / 2) n d (fst high) (snd high) ->
    each_once N (n * work e) (map (coming Or ahead (n * work e)) ss) ->
    1 - ((hi - lo) * (hi - lo) / (4 * qnat n * (t * t)) + 1 / (qnat n * (d * d))) - qnat (n * spread e) / qnat N <=
    qnat (count (samples_in Or (obj_of e) n (mean_interval_within argsort c t (expected e) low high)) ss) / qnat (N ^ (n * work e)).
  Proof.
    intros HS S Hn Hd Ht Hp Ra E1 E2 Eo. apply samples_usual; auto using mean_interval_numbers. pose proof (fits_repeated _ _ _ n (fits_prog e S)) as F.
    pose proof (fun a b => rare_or _ _ _ _ _ _ _ F (rare_frac e (fun x => Qlt_bool x a) n d S Hn Hd) (rare_frac e (fun x => Qle_bool x b) n d S Hn Hd)) as R2.
    pose proof (chebyshev (prog_of e) (fun x => x) lo hi _ _ n t (fits_prog e S) Ra Hn Ht) as Ch.
    pose proof (rare_or _ _ _ _ _ _ _ F Ch (rare_or _ _ _ _ _ _ _ F (R2 (fst low) (snd low)) (R2 (fst high) (snd high)))) as R. clear R2 Ch.
    pose proof (qnat_pos n ltac:(lia)) as Pn. assert (~ qnat n == 0 /\ ~ d == 0) as [Nn Nd] by (split; lra). set (z := 1 / (4 * qnat n * (d * d))) in *.
    assert (X : z + z + (z + z) == 1 / (qnat n * (d * d))) by (unfold z; field; auto).
    unfold rare in R. rewrite X in R. apply (usual _ (fun l => length l = n) _ _ _ _ _ F (returns_repeated _ n)) with (2 := R).
    intros l Hl H. assert (Nl : l <> []) by (intros Z; rewrite Z in Hl; cbn in Hl; lia). rewrite !orb_false_iff in H. destruct H as [H0 [[H1 H2] [H5 H6]]]. unfold mean_interval_within.
    destruct (mean_ci_plain argsort l c HS Nl Hp) as (r & l0 & h & -> & L & H & Q1 & Q2 & Q3). destruct Hp as [Hp0 Hp1].
    assert (P0 : percent ((100 - c) / 2)) by (split; [apply Qle_shift_div_l|apply Qle_shift_div_r]; lra).
    assert (P1 : percent (100 - (100 - c) / 2)) by (destruct P0; split; lra).
    rewrite (within_same _ _ _ _ Q1), (within_same _ _ _ _ Q2). rewrite !andb_true_iff, !within_iff. split; [split|]; [|apply (enclosed e _ n d _ _ l l0 P0 Hn E1 Hl L H1 H2)|apply (enclosed e _ n d _ _ l h P1 Hn E2 Hl H H5 H6)].
    rewrite map_id in H0. unfold expected. rewrite (far_compat t (mc_mean r) (expect (prog_of e) (fun x => x)) (total l / qnat n) (expect (prog_of e) (fun x => x))); [now rewrite H0| |reflexivity]. rewrite Q3, Hl. reflexivity.
  Qed.
End Samples.
