(** The law of large numbers for runs of programs (C191). *)
From Coq Require Import Qabs ZArith Lia Lqa Permutation.
From Verif Require Import Base M_Weights M_Values M_Sampler M_Ops SpecWeights SpecSampler SpecMixture SpecShare P_DiceShare P_Mean P_Support
  M_SampleApi M_Bayesnet SpecBayes SpecConversation P_Bayesnet P_Conversation SpecSampler2 P_Sampler2 P_Pure P_Program P_Program2.
From Verif Require Import SpecProgram SpecLarge.
Open Scope Q_scope.

Lemma sq_nn x : 0 <= x * x.
Proof. destruct (Qlt_le_dec x 0); nra. Qed.
(** Expected values. *)
Lemma weigh_ext l f g : (forall w v, In (w, v) l -> f v == g v) -> weigh l f == weigh l g.
Proof. induction l as [|[w v] l IH]; intros H; cbn [weigh]; [reflexivity|]. rewrite IH by (intros w0 v0 I; apply (H w0 v0); now right). now rewrite (H w v (or_introl eq_refl)). Qed.
Lemma expect_ext {A} (p : prog A) f g : (forall a, f a == g a) -> expect p f == expect p g.
Proof. intros H. induction p as [a|c next IH]; cbn [expect]; [apply H|]. apply weigh_ext. intros w v _. apply IH. Qed.
Lemma expect_after {A B} (p : prog A) (k : A -> prog B) f : expect (after p k) f == expect p (fun a => expect (k a) f).
Proof. induction p as [a|c next IH]; cbn [after expect]; [reflexivity|]. apply weigh_ext. intros w v _. apply IH. Qed.
Lemma expect_const {A} (p : prog A) x : forall L c, fits p L c -> expect p (fun _ => x) == x.
Proof.
  induction p as [a|ch next IH]; intros L c F; cbn [expect]; [reflexivity|]. destruct F as (Pr & L' & c' & -> & -> & F).
  rewrite (weigh_ext _ _ (fun _ => x)) by (intros w v I; apply (IH v L' c'), (F w v I)). pose proof (law_weights_total ch Pr) as T.
  assert (forall l, weigh l (fun _ => x) == total (map fst l) * x) as ->; [|rewrite T; ring].
  unfold total. induction l as [|[w v] l IHl]; cbn [weigh map fold_right fst]; [ring|]. rewrite IHl. ring.
Qed.
Lemma fits_more {A} (p : prog A) : forall L c M d, fits p L c -> (L <= M)%nat -> (c <= d)%nat -> fits p M d.
Proof.
  induction p as [a|ch next IH]; intros L c M d F LM CD; [exact I|]. destruct F as (Pr & L' & c' & -> & -> & F). split; [exact Pr|].
  exists (M - 1)%nat, (d - length (law ch))%nat. split; [lia|]. split; [lia|]. intros w v I. apply (IH v L' c'); [now apply (F w v)|lia|lia].
Qed.
Lemma fits_after {A B} (p : prog A) (k : A -> prog B) L' c' : (forall a, fits (k a) L' c') -> forall L c, fits p L c -> fits (after p k) (L + L') (c + c').
Proof.
  intros K. induction p as [a|ch next IH]; intros L c F; cbn [after]; [apply (fits_more _ L' c'); [apply K|lia|lia]|].
  destruct F as (Pr & L1 & c1 & -> & -> & F). split; [exact Pr|]. exists (L1 + L')%nat, (c1 + c')%nat. split; [lia|]. split; [lia|].
  intros w v I. apply IH, (F w v I).
Qed.
Lemma fits_repeated {A} (p : prog A) L c n : fits p L c -> fits (repeated n p) (n * L) (n * c).
Proof.
  intros F. induction n as [|n IH]; cbn [repeated]; [exact I|]. cbn [Nat.mul]. apply fits_after; [|exact F]. intros a.
  apply (fits_more _ (n * L + 0) (n * c + 0)); [|lia|lia]. apply fits_after; [intros; exact I|exact IH].
Qed.
(** The sum of centred results has mean zero and variance [n v]. *)
Lemma repeated_mean {A} (p : prog A) g L c n : fits p L c -> expect p g == 0 -> expect (repeated n p) (fun l => total (map g l)) == 0.
Proof.
  intros F Z. induction n as [|n IH]; [reflexivity|]. cbn [repeated]. rewrite expect_after.
  rewrite (expect_ext p _ (fun a => 1 * g a + 0 * 0)); [rewrite expect_linear, Z; ring|]. intros a. rewrite expect_after. cbn [expect].
  rewrite (expect_ext _ _ (fun l => g a * 1 + 1 * total (map g l))) by (intros l; unfold total; cbn [map fold_right]; ring).
  rewrite expect_linear, IH, (expect_const _ _ _ _ (fits_repeated p L c n F)). ring.
Qed.
Lemma repeated_variance {A} (p : prog A) g L c n : fits p L c -> expect p g == 0 ->
  expect (repeated n p) (fun l => total (map g l) * total (map g l)) == qnat n * expect p (fun a => g a * g a).
Proof.
  intros F Z. induction n as [|n IH]; [unfold qnat; cbn; ring|]. cbn [repeated]. rewrite expect_after.
  set (T := qnat n * expect p (fun a => g a * g a)) in *.
  rewrite (expect_ext p _ (fun a => 1 * (g a * g a) + T * 1)); [rewrite expect_linear, (expect_const p 1 L c F), qnat_S; unfold T; ring|]. intros a. rewrite expect_after. cbn [expect].
  rewrite (expect_ext _ _ (fun l => 1 * ((g a * g a) * 1 + (2 * g a) * total (map g l)) + 1 * (total (map g l) * total (map g l)))) by (intros l; unfold total; cbn [map fold_right]; ring).
  rewrite expect_linear, expect_linear, IH, (repeated_mean p g L c n F Z), (expect_const _ _ _ _ (fits_repeated p L c n F)). unfold T. ring.
Qed.
Lemma returns_all {A} (p : prog A) (P : A -> Prop) : (forall a, P a) -> returns p P.
Proof. intros H. induction p as [a|c next IH]; cbn; auto. Qed.
Lemma returns_after {A B} (p : prog A) (k : A -> prog B) P Q : returns p P -> (forall a, P a -> returns (k a) Q) -> returns (after p k) Q.
Proof. induction p as [a|c next IH]; cbn; eauto. Qed.
Lemma returns_repeated {A} (p : prog A) n : returns (repeated n p) (fun l => length l = n).
Proof.
  induction n as [|n IH]; [reflexivity|]. cbn [repeated]. eapply returns_after; [apply (returns_all p (fun _ => True)); auto|]. intros a _.
  eapply returns_after; [exact IH|]. intros l Hl. cbn. congruence.
Qed.
Lemma expect_le_sure {A} (p : prog A) (S : A -> Prop) f g : returns p S -> (forall a, S a -> f a <= g a) -> forall L c, fits p L c -> expect p f <= expect p g.
Proof.
  intros Hs H. induction p as [a|ch next IH]; intros L c F; cbn [expect]; [apply H, Hs|]. destruct F as (Pr & L' & c' & -> & -> & F). cbn [returns] in Hs.
  pose proof (law_weights_nonneg ch Pr) as NN. clear Pr. unfold nonneg in NN. induction (law ch) as [|[w v] l IHl]; cbn [weigh map fst] in *; [lra|].
  inversion NN; subst. pose proof (IHl (fun w0 v0 I => Hs w0 v0 (or_intror I)) (fun w0 v0 I => F w0 v0 (or_intror I)) H3) as A1.
  pose proof (IH v (Hs w v (or_introl eq_refl)) _ _ (F w v (or_introl eq_refl))) as A2. nra.
Qed.
Lemma variance_bound {A} (p : prog A) f lo hi L c : fits p L c -> returns p (fun a => lo <= f a <= hi) ->
  let m := expect p f in expect p (fun a => (f a - m) * (f a - m)) <= (hi - lo) * (hi - lo) / 4.
Proof.
  intros F H m. set (h := (lo + hi) / 2).
  assert (E : expect p (fun a => (f a - h) * (f a - h)) == expect p (fun a => (f a - m) * (f a - m)) + (m - h) * (m - h)).
  { rewrite (expect_ext p _ (fun a => 1 * ((f a - m) * (f a - m)) + (m - h) * (2 * f a + (- m - h) * 1))) by (intros a; ring).
    rewrite expect_linear, (expect_linear p f (fun _ => 1)), (expect_const p 1 L c F). fold m. ring. }
  assert (expect p (fun a => (f a - h) * (f a - h)) <= (hi - lo) * (hi - lo) / 4).
  { rewrite <- (expect_const p ((hi - lo) * (hi - lo) / 4) L c F). apply (expect_le_sure p _ _ _ H) with (L := L) (c := c); [|exact F]. intros a Ha.
    assert ((hi - lo) * (hi - lo) / 4 - (f a - h) * (f a - h) == (hi - f a) * (f a - lo)) by (unfold h; field). nra. }
  pose proof (sq_nn (m - h)). lra.
Qed.
Lemma length_total {A} (f : A -> Q) m l : total (map (fun a => f a - m) l) == total (map f l) - qnat (length l) * m.
Proof. unfold total. induction l as [|x l IH]; [cbn; unfold qnat; cbn; ring|]. cbn [map fold_right length]. rewrite IH, qnat_S. ring. Qed.
Lemma chebyshev {A} (p : prog A) f lo hi L c n e : fits p L c -> returns p (fun a => lo <= f a <= hi) -> (1 <= n)%nat -> 0 < e ->
  chance (repeated n p) (fun l => far e (total (map f l) / qnat n) (expect p f)) <= (hi - lo) * (hi - lo) / (4 * qnat n * (e * e)).
Proof.
  intros F H Hn He. set (m := expect p f). set (g := fun a => f a - m). pose proof (qnat_pos n ltac:(lia)) as Pn.
  assert (Z : expect p g == 0).
  { unfold g. rewrite (expect_ext p _ (fun a => 1 * f a + - m * 1)) by (intros; ring). rewrite expect_linear, (expect_const p 1 L c F). fold m. ring. }
  pose proof (repeated_variance p g L c n F Z) as V. pose proof (variance_bound p f lo hi L c F H) as VB. cbv zeta in VB. fold m in VB.
  change (expect p (fun a => (f a - m) * (f a - m))) with (expect p (fun a => g a * g a)) in VB.
  set (d := qnat n * e). assert (Pd : 0 < d) by (unfold d; nra).
  assert (C : d * d * chance (repeated n p) (fun l => far e (total (map f l) / qnat n) m) <= expect (repeated n p) (fun l => total (map g l) * total (map g l))).
  { rewrite expect_chance. assert (X : forall x y, x * y == x * y + 0 * expect (repeated n p) (fun _ => 0)) by (intros; ring). rewrite X, <- expect_linear. clear X.
    apply (expect_le_sure _ (fun l => length l = n)) with (L := (n * L)%nat) (c := (n * c)%nat); [apply returns_repeated| |now apply fits_repeated]. intros l Hl. unfold g. rewrite length_total, Hl.
    set (t := total (map f l)). destruct (far e (t / qnat n) m) eqn:Fr.
    - unfold far in Fr. apply qlt_true in Fr. assert (t - qnat n * m == qnat n * (t / qnat n - m)) as -> by (field; intros E; rewrite E in Pn; now apply Qlt_irrefl in Pn).
      set (u := t / qnat n - m) in *. assert (Q : e * e <= u * u).
      { assert (u * u == Qabs u * Qabs u) as -> by (rewrite <- Qabs_Qmult, Qabs_pos; [reflexivity|apply sq_nn]). nra. }
      assert (K : (e * e) * (qnat n * qnat n) <= (u * u) * (qnat n * qnat n)) by (apply Qmult_le_compat_r; [exact Q|apply sq_nn]). unfold d. lra.
    - pose proof (sq_nn (t - qnat n * m)). lra. }
  rewrite V in C. assert (Pdd : 0 < 4 * qnat n * (e * e)) by (apply Qmult_lt_0_compat; [lra|now apply Qmult_lt_0_compat]). apply Qle_shift_div_l; [exact Pdd|].
  set (x := chance _ _) in *. assert (qnat n * (4 * qnat n * (e * e) * x) <= qnat n * ((hi - lo) * (hi - lo))).
  { assert (VN : expect p (fun a => g a * g a) * qnat n <= (hi - lo) * (hi - lo) / 4 * qnat n) by (apply Qmult_le_compat_r; [exact VB|lra]).
    assert (H0 : 4 * (d * d * x) <= 4 * (qnat n * ((hi - lo) * (hi - lo) / 4))) by lra.
    assert (4 * (qnat n * ((hi - lo) * (hi - lo) / 4)) == qnat n * ((hi - lo) * (hi - lo))) as E4 by field. rewrite E4 in H0. unfold d in H0.
    assert (4 * (qnat n * e * (qnat n * e) * x) == qnat n * (4 * qnat n * (e * e) * x)) as E5 by ring. rewrite E5 in H0. exact H0. }
  rewrite (Qmult_comm x). rewrite <- (Qmult_le_l _ _ (qnat n)) by exact Pn. exact H0.
Qed.
Lemma far_compat e x y x' y' : x == x' -> y == y' -> far e x y = far e x' y'.
Proof.
  intros X Y. unfold far. assert (E : Qabs (x - y) == Qabs (x' - y')) by (rewrite X, Y; reflexivity).
  destruct (Qlt_bool e (Qabs (x - y))) eqn:A, (Qlt_bool e (Qabs (x' - y'))) eqn:B; auto; try apply qlt_true in A; try apply qlt_true in B; try apply qlt_false in A; try apply qlt_false in B; lra.
Qed.
Lemma near e x y : far e x y = false -> Qabs (x - y) <= e.
Proof. unfold far. intros H. now apply qlt_false in H. Qed.
Lemma near_inv e x y : Qabs (x - y) <= e -> far e x y = false.
Proof. unfold far. intros H. destruct (Qlt_bool _ _) eqn:E; auto. apply qlt_true in E. lra. Qed.
Lemma count_le2 {A} (f g : A -> bool) l : (forall x, f x = true -> g x = true) -> (count f l <= count g l)%nat.
Proof. intros H. induction l as [|x l IH]; cbn; [lia|]. specialize (H x). destruct (f x), (g x); lia. Qed.
Lemma count_or {A} (f g : A -> bool) l : (count (fun x => f x || g x) l <= count f l + count g l)%nat.
Proof. induction l as [|x l IH]; cbn; [lia|]. destruct (f x), (g x); cbn; lia. Qed.
Lemma count_same2 {A} (f g : A -> bool) l : (forall x, f x = g x) -> count f l = count g l.
Proof. intros H. induction l as [|x l IH]; cbn; [reflexivity|]. now rewrite H, IH. Qed.
Definition ind {A} (P : A -> bool) (a : A) : Q := if P a then 1 else 0.
Lemma total_ind {A} (P : A -> bool) l : total (map (ind P) l) == qnat (count P l).
Proof. unfold total, ind. induction l as [|x l IH]; cbn [map fold_right count]; [reflexivity|]. rewrite IH, qnat_add. destruct (P x); reflexivity. Qed.

Section Runs.
  Variable Or : oracle.
  Notation St := (state (G Or)).
  Variable N : nat.
  Variable ahead : G Or -> nat -> nat.
  Hypothesis HN : (0 < N)%nat.
  Hypothesis RL : right_length Or.
  Hypothesis R : reads Or N ahead.
  Lemma run_after {A B} (p : prog A) (k : A -> prog B) : forall s, run Or (after p k) s = match run Or p s with (Ok a, s1) => run Or (k a) s1 | (Err e, s1) => (Err e, s1) end.
  Proof. induction p as [a|c next IH]; intros s; cbn [after run]; [reflexivity|]. unfold bindS. destruct (make Or c s) as [[v|e] s1]; [apply IH|reflexivity]. Qed.
  Lemma run_repeated {A} (p : prog A) k : forall n s es s', calls St A (fun _ => run Or p) k s es s' -> length es = n -> run Or (repeated n p) s = (Ok es, s').
  Proof.
    intros n s es s' C. revert n. induction C as [s|s x s1 es s2 E C IH]; intros n Hn; cbn in Hn; subst n; cbn [repeated]; [reflexivity|].
    rewrite run_after, E, run_after, (IH _ eq_refl). reflexivity.
  Qed.
  Lemma share_far {A} (p : prog A) f lo hi L c n e ss : fits p L c -> returns p (fun a => lo <= f a <= hi) -> (1 <= n)%nat -> 0 < e ->
    each_once N (n * L) (map (coming Or ahead (n * L)) ss) ->
    qnat (count (fun s => far e (mean_of_runs Or p f n s) (expect p f)) ss) / qnat (N ^ (n * L)) <=
    (hi - lo) * (hi - lo) / (4 * qnat n * (e * e)) + qnat (n * c) / qnat N.
  Proof.
    intros F H Hn He Eo. pose proof (share_of_runs Or N ahead HN RL R (repeated n p) (n * L) (n * c) (fun l => far e (total (map f l) / qnat n) (expect p f)) ss (fits_repeated p L c n F) Eo) as S.
    pose proof (chebyshev p f lo hi L c n e F H Hn He) as C. apply Qabs_Qle_condition in S.
    assert (X : count (fun s => far e (mean_of_runs Or p f n s) (expect p f)) ss = count (ends_in Or (repeated n p) (fun l => far e (total (map f l) / qnat n) (expect p f))) ss).
    { apply count_same2. intros s. unfold ends_in, mean_of_runs. destruct (runs_are_calls2 Or N ahead HN RL R p L c 0 F n s) as (es & s' & Cs & Le & _ & Cf).
      rewrite (run_repeated p 0 n s es s' Cs Le). cbn [fst]. now rewrite <- Cf. }
    rewrite X. lra.
  Qed.
  Section Net.
    Variables (A Y : Type) (p : prog A) (L c n : nat) (find given : A -> bool) (wire : A -> res A) (q : bcall St A Y) (w : St -> bworld St A) (k : nat).
    Hypothesis F : fits p L c.
    Hypothesis Q1 : q_fn _ _ _ q = Some k.
    Hypothesis Q2 : wonders St A Y q find given.
    Hypothesis Q3 : q_cores _ _ _ q = 1%nat.
    Hypothesis Q4 : q_dump _ _ _ q = None.
    Hypothesis Q5 : forall s, uncached St A Y q (w s).
    Hypothesis Q6 : forall s, b_st _ _ (w s) = s.
    Hypothesis Qn : q_n _ _ _ q = n.
    Hypothesis Hn : (1 <= n)%nat.
    Lemma answer_is s : exists es, length es = n /\ (forall P, mean_of_runs Or p (ind P) n s == qnat (count P es) / qnat n) /\
      ((0 < count given es)%nat -> exists x, fst (bayesnet St A Y (fun _ => run Or p) wire q (w s)) = Ok (OMean A Y (PFlt (Fin x))) /\ x == fraction find given es).
    Proof.
      destruct (runs_are_calls2 Or N ahead HN RL R p L c k F n s) as (es & s' & Cs & Le & _ & Cf). exists es. split; [exact Le|]. split.
      - intros P. unfold mean_of_runs. rewrite <- Cf, total_ind. reflexivity.
      - intros K. rewrite <- (Q6 s) in Cs. rewrite <- Qn in Le.
        rewrite (bayesnet_uncached St A Y (fun _ => run Or p) wire q (w s) k Q1 (Q5 s)), (single_core St A Y (fun _ => run Or p) wire q (w s) k es s' Q3 Cs Le), nodump_outcome by assumption. cbn [fst].
        apply (wonders_mean Or q find given es Q2 K).
    Qed.
    Lemma ind_range {B} (P : B -> bool) a : 0 <= ind P a <= 1.
    Proof. unfold ind. destruct (P a); lra. Qed.
    Lemma off_conditional e s : 0 < e -> e < chance p given ->
      answer_off (fun _ => run Or p) wire q w (2 * e / (chance p given - e)) (chance p (fun a => given a && find a) / chance p given) s = true ->
      far e (mean_of_runs Or p (ind (fun a => given a && find a)) n s) (expect p (ind (fun a => given a && find a))) || far e (mean_of_runs Or p (ind given) n s) (expect p (ind given)) = true.
    Proof.
      intros He Eg O. destruct (answer_is s) as (es & Le & Ms & An).
      destruct (far e (mean_of_runs Or p (ind (fun a => given a && find a)) n s) _) eqn:F1; [reflexivity|]. cbn [orb].
      destruct (far e (mean_of_runs Or p (ind given) n s) _) eqn:F2; [reflexivity|]. exfalso.
      apply near in F1. apply near in F2. rewrite Ms in F1, F2.
      assert (E1 : expect p (ind (fun a => given a && find a)) == chance p (fun a => given a && find a)) by (symmetry; apply expect_chance).
      assert (E2 : expect p (ind given) == chance p given) by (symmetry; apply expect_chance). rewrite E1 in F1. rewrite E2 in F2.
      destruct (ratio_close _ _ _ _ _ F1 F2 (proj1 (chance_and p find given L c F)) (proj2 (chance_and p find given L c F)) Eg) as [G0 Cl].
      pose proof (qnat_pos n ltac:(lia)) as Pn.
      assert (Pc : 0 < qnat (count given es)).
      { assert (qnat (count given es) == qnat (count given es) / qnat n * qnat n) as -> by (field; intros X; rewrite X in Pn; now apply Qlt_irrefl in Pn). apply Qmult_lt_0_compat; auto. }
      destruct An as (x & X & E). { unfold qnat in Pc. change 0 with (inject_Z 0) in Pc. rewrite <- Zlt_Qlt in Pc. lia. }
      unfold answer_off in O. rewrite X in O. rewrite (far_compat _ x _ _ _ E (Qeq_refl _)) in O. rewrite near_inv in O; [discriminate|].
      unfold fraction. fold (qnat (count (fun x0 => given x0 && find x0) es)) (qnat (count given es)).
      assert (E3 : qnat (count (fun x0 => given x0 && find x0) es) / qnat (count given es) ==
        qnat (count (fun x0 => given x0 && find x0) es) / qnat n / (qnat (count given es) / qnat n)).
      { field. split; intros Y0; [rewrite Y0 in Pn; now apply Qlt_irrefl in Pn|rewrite Y0 in Pc; now apply Qlt_irrefl in Pc]. }
      rewrite E3. exact Cl.
    Qed.
    Lemma share_off e ss : 0 < e -> e < chance p given -> each_once N (n * L) (map (coming Or ahead (n * L)) ss) ->
      qnat (count (answer_off (fun _ => run Or p) wire q w (2 * e / (chance p given - e)) (chance p (fun a => given a && find a) / chance p given)) ss) / qnat (N ^ (n * L)) <=
      1 / (2 * qnat n * (e * e)) + 2 * qnat (n * c) / qnat N.
    Proof.
      intros He Eg Eo.
      pose proof (share_far p (ind (fun a => given a && find a)) 0 1 L c n e ss F (returns_all p _ (ind_range _)) Hn He Eo) as S1.
      pose proof (share_far p (ind given) 0 1 L c n e ss F (returns_all p _ (ind_range _)) Hn He Eo) as S2.
      pose proof (count_le2 _ _ ss (fun s => off_conditional e s He Eg)) as C1.
      pose proof (count_or (fun s => far e (mean_of_runs Or p (ind (fun a => given a && find a)) n s) (expect p (ind (fun a => given a && find a)))) (fun s => far e (mean_of_runs Or p (ind given) n s) (expect p (ind given))) ss) as C2.
      pose proof (Nat.le_trans _ _ _ C1 C2) as C3. clear C1 C2.
      set (a := count (answer_off _ _ _ _ _ _) ss) in *. set (b := count (fun s => far e (mean_of_runs Or p (ind (fun a0 => given a0 && find a0)) n s) _) ss) in *.
      set (d := count (fun s => far e (mean_of_runs Or p (ind given) n s) _) ss) in *.
      assert (PT : 0 < qnat (N ^ (n * L))) by (apply qnat_pos, Nat.neq_0_lt_0, Nat.pow_nonzero; lia). pose proof (qnat_pos n ltac:(lia)) as Pn.
      assert (K : qnat a <= qnat b + qnat d) by (rewrite <- qnat_add; unfold qnat; rewrite <- Zle_Qle; lia).
      assert (T : qnat a / qnat (N ^ (n * L)) <= qnat b / qnat (N ^ (n * L)) + qnat d / qnat (N ^ (n * L))).
      { unfold Qdiv. rewrite <- Qmult_plus_distr_l. apply Qmult_le_compat_r; [exact K|]. apply Qinv_le_0_compat. lra. }
      assert (E : 1 / (2 * qnat n * (e * e)) + 2 * qnat (n * c) / qnat N == ((1 - 0) * (1 - 0) / (4 * qnat n * (e * e)) + qnat (n * c) / qnat N) + ((1 - 0) * (1 - 0) / (4 * qnat n * (e * e)) + qnat (n * c) / qnat N)).
      { pose proof (qnat_pos N HN) as PN. field. split; [intros X; rewrite X in PN; now apply Qlt_irrefl in PN|]. split; [intros X; rewrite X in He; now apply Qlt_irrefl in He|intros X; rewrite X in Pn; now apply Qlt_irrefl in Pn]. }
      rewrite E. lra.
    Qed.
    Lemma share_off_plain e ss : 0 < e -> given = anything A -> each_once N (n * L) (map (coming Or ahead (n * L)) ss) ->
      qnat (count (answer_off (fun _ => run Or p) wire q w e (chance p find)) ss) / qnat (N ^ (n * L)) <= 1 / (4 * qnat n * (e * e)) + qnat (n * c) / qnat N.
    Proof.
      intros He Eg Eo. pose proof (share_far p (ind find) 0 1 L c n e ss F (returns_all p _ (ind_range _)) Hn He Eo) as S1.
      assert (E0 : (1 - 0) * (1 - 0) / (4 * qnat n * (e * e)) == 1 / (4 * qnat n * (e * e))) by reflexivity. rewrite E0 in S1.
      rewrite (count_same2 _ (fun s => far e (mean_of_runs Or p (ind find) n s) (expect p (ind find)))); [exact S1|]. intros s.
      destruct (answer_is s) as (es & Le & Ms & An). destruct An as (x & X & E). { rewrite Eg, count_all. lia. }
      unfold answer_off. rewrite X. apply far_compat; [|apply expect_chance]. rewrite E, Ms. unfold fraction. rewrite Eg, count_all, Le. reflexivity.
    Qed.
  End Net.
  Lemma add_up_floats xs : exists t, add_up (map (fun x => PFlt (Fin x)) xs) = Some t /\ t == total xs.
  Proof. induction xs as [|x xs (t & IH & E)]; [exists 0; split; reflexivity|]. cbn [map add_up]. rewrite IH. exists (x + t). split; [reflexivity|]. rewrite E. reflexivity. Qed.
  Lemma model_off (p : prog Q) lo hi L c n e ss : fits p L c -> returns p (fun x => lo <= x <= hi) -> (1 <= n)%nat -> 0 < e ->
    each_once N (n * L) (map (coming Or ahead (n * L)) ss) ->
    qnat (count (sample_off Or (OCall (model_of Or p)) n e (expect p (fun x => x))) ss) / qnat (N ^ (n * L)) <=
    (hi - lo) * (hi - lo) / (4 * qnat n * (e * e)) + qnat (n * c) / qnat N.
  Proof.
    intros F H Hn He Eo. pose proof (share_far p (fun x => x) lo hi L c n e ss F H Hn He Eo) as S.
    erewrite count_same2; [exact S|]. intros s. cbn beta.
    destruct (runs_are_calls2 Or N ahead HN RL R p L c 0 F n s) as (es & s' & Cs & Le & _ & Cf). unfold sample_off, mean_of_runs. rewrite <- (Cf (fun x => x)), map_id.
    assert (X : smp Or (OCall (model_of Or p)) n None None s = (Ok (simplify (map (fun x => PFlt (Fin x)) es)), s')).
    { apply (model_function Or); [exact Hn|]. exists (map (fun x => OLit (PFlt (Fin x))) es), s', (map (fun x => PFlt (Fin x)) es).
      split; [now apply model_called with (k := 0%nat)|]. split; [apply model_resolved|]. rewrite np_array_uniform; [reflexivity|]. left.
      apply Forall_forall. intros v Hv. apply in_map_iff in Hv as (x & <- & _). eauto. }
    rewrite X. cbn [fst]. destruct es as [|x [|y es]]; [cbn in Le; lia| |].
    - cbn [map simplify add_up]. cbn in Le. subst n. cbn [Nat.eqb negb orb]. apply far_compat; [|reflexivity]. unfold total, qnat. cbn. field.
    - assert (SA : simplify (map (fun x => PFlt (Fin x)) (x :: y :: es)) = Arr (map (fun x => PFlt (Fin x)) (x :: y :: es))) by reflexivity. rewrite SA.
      destruct (add_up_floats (x :: y :: es)) as (t & -> & E). rewrite map_length, Le, Nat.eqb_refl. cbn [negb orb]. apply far_compat; [|reflexivity]. now rewrite E.
  Qed.
End Runs.
