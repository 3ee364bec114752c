(** Statistics of samples averaged over all sequences of draws (C200). *)
From Coq Require Import Qabs ZArith Lia Lqa Permutation.
From Verif Require Import Base M_Weights M_Values M_Sampler M_Ops SpecWeights SpecSampler SpecOps SpecShare P_DiceShare P_Support P_Count P_Ops P_Program P_Program2 P_Large P_Indep P_Columns P_Columns2 P_Algebra.
From Verif Require Import M_SampleApi M_Bayesnet SpecBayes SpecProgram SpecLarge SpecIndep SpecColumns SpecAlgebra SpecUnbiased.
Open Scope Q_scope.

(** Values on some path. *)
Fixpoint reach {A} (p : prog A) (a : A) : Prop :=
  match p with Return b => b = a | Choose c next => exists w v, In (w, v) (law c) /\ reach (next v) a end.
Lemma reach_after {A B} (p : prog A) (k : A -> prog B) a b : reach p a -> reach (k a) b -> reach (after p k) b.
Proof. induction p as [x|c next IH]; cbn [reach after]; [intros ->; auto|]. intros (w & v & I & H) K. exists w, v. auto. Qed.
Lemma returns_reach {A} (p : prog A) : returns p (reach p).
Proof.
  assert (M : forall q : prog A, forall (P R : A -> Prop), (forall a, P a -> R a) -> returns q P -> returns q R) by (intros q P R H; induction q; cbn; eauto).
  induction p as [a|c next IH]; cbn [returns reach]; [reflexivity|]. intros w v I. apply (M _ (reach (next v))); [|apply IH]. intros a H. exists w, v. auto.
Qed.
Lemma reach_returns {A} (p : prog A) R a : returns p R -> reach p a -> R a.
Proof. induction p as [x|c next IH]; cbn [reach returns]; [intros H <-; exact H|]. intros H (w & v & I & K). exact (IH v (H w v I) K). Qed.
Definition list_in (n : nat) (P : Q -> Prop) (l : list Q) : Prop := length l = n /\ Forall P l.
Lemma returns_list (p : prog Q) P n : returns p P -> returns (repeated n p) (list_in n P).
Proof.
  intros H. induction n as [|n IH]; [split; [reflexivity|constructor]|]. cbn [repeated]. eapply returns_after; [exact H|]. intros a A. eapply returns_after; [exact IH|]. intros l [L F].
  split; [cbn; congruence|now constructor].
Qed.
Lemma zip_in (f : Q -> Q -> Q) (P R S : Q -> Prop) : (forall x y, P x -> R y -> S (f x y)) -> forall n xs ys, list_in n P xs -> list_in n R ys -> list_in n S (zip f xs ys).
Proof.
  intros H. induction n as [|n IH]; intros [|x xs] [|y ys] [L F] [L' F']; try discriminate; [split; [reflexivity|constructor]|]. inversion F; inversion F'; subst.
  destruct (IH xs ys) as [A B]; [split; [cbn in L; lia|auto]|split; [cbn in L'; lia|auto]|]. cbn [zip]. split; [cbn; lia|constructor; auto].
Qed.
Lemma chosen_in (S : Q -> Prop) (Ps : list (Q -> Prop)) : (forall P x, In P Ps -> P x -> S x) -> forall n picks cols, length picks = n -> Forall (fun i => (i < length Ps)%nat) picks ->
  Forall2 (list_in n) Ps cols -> list_in n S (chosen picks cols).
Proof.
  intros H. induction n as [|n IH]; intros [|i picks] cols L B F; try discriminate; [split; [reflexivity|constructor]|]. cbn [chosen]. inversion B as [|? ? Bi B']; subst.
  assert (T : Forall2 (list_in n) Ps (map (@tl Q) cols)).
  { clear -F. induction F as [|P col Ps cols [Lc Fc] F IH]; cbn [map]; constructor; [|exact IH]. destruct col as [|x col]; [discriminate|]. inversion Fc; subst. split; [cbn in *; lia|auto]. }
  destruct (IH picks (map (@tl Q) cols) ltac:(cbn in L; lia) B' T) as [A C]. split; [cbn; lia|]. constructor; [|exact C].
  clear -F Bi H. revert i Bi. induction F as [|P col Ps cols [Lc Fc] F IH]; intros i Bi; [cbn in Bi; lia|]. destruct i as [|i]; cbn [nth].
  - destruct col as [|x col]; [discriminate|]. inversion Fc; subst. cbn [hd]. apply (H P x); [now left|auto].
  - apply IH; [|cbn in Bi; lia]. intros P' x I. apply H. now right.
Qed.
Lemma returns_collect {A} (ps : list (prog A)) (Ps : list (A -> Prop)) : Forall2 returns ps Ps -> returns (collect ps) (fun row => Forall2 (fun P a => P a) Ps row).
Proof.
  induction 1 as [|p P ps Ps H F IH]; cbn [collect]; [constructor|]. eapply returns_after; [exact H|]. intros a A0. eapply returns_after; [exact IH|]. intros l L. now constructor.
Qed.
Lemma returns_picks (p : prog nat) P n : returns p P -> returns (repeated n p) (fun l => length l = n /\ Forall P l).
Proof.
  intros H. induction n as [|n IH]; [split; [reflexivity|constructor]|]. cbn [repeated]. eapply returns_after; [exact H|]. intros a A. eapply returns_after; [exact IH|]. intros l [L F].
  split; [cbn; congruence|now constructor].
Qed.
Lemma columns_reach e : forall n, returns (columns n e) (list_in n (reach (prog_of e))).
Proof.
  induction e as [x|c|o a b IHa IHb|l IH] using dexp_rect'; intros n.
  - cbn [columns prog_of]. split; [apply repeat_length|]. apply Forall_forall. intros y Y. apply repeat_spec in Y. cbn. congruence.
  - cbn [columns]. apply returns_list, returns_reach.
  - cbn [columns prog_of]. eapply returns_after; [apply IHa|]. intros xs X. eapply returns_after; [apply IHb|]. intros ys Y. cbn [returns].
    eapply zip_in; [|exact X|exact Y]. intros x y Rx Ry. eapply reach_after; [exact Rx|]. eapply reach_after; [exact Ry|]. reflexivity.
  - cbn [columns]. destruct (Nat.leb n 100); [apply returns_list, returns_reach|].
    eapply returns_after; [apply (returns_collect _ (map (fun e => list_in n (reach (prog_of (snd e)))) l))|].
    + clear -IH. induction IH as [|e l H F IH']; cbn [map]; constructor; [apply H|exact IH'].
    + intros cols C. eapply returns_after; [apply returns_picks, pick_returns|]. intros picks [Lp Bp]. cbn [returns].
      eapply (chosen_in _ (map (fun e => reach (prog_of (snd e))) l)); [|exact Lp|now rewrite map_length|].
      * intros P x I Px. apply in_map_iff in I as (e & <- & Ie). apply In_nth with (d := e) in Ie as (i & Hi & Ei).
        exists (fst (nth i (law (branches l)) (0, PNone))), (PInt (Z.of_nat i)). split.
        -- rewrite <- (branches_nth l i Hi), <- surjective_pairing. apply nth_In. now rewrite branches_length.
        -- rewrite Nat2Z.id. rewrite (nth_indep _ _ (prog_of (snd e))) by now rewrite map_length. rewrite (map_nth (fun e => prog_of (snd e))). now rewrite Ei.
      * clear -C. revert cols C. induction l as [|e l IHl]; cbn [map]; intros cols C; inversion C; subst; constructor; auto.
Qed.
Lemma walk_reach {A} N (p : prog A) st : (forall i, (st i < N)%nat) -> forall L c k, fits p L c -> reach p (fst (walk N p st k)).
Proof.
  intros B. induction p as [a|ch next IH]; intros L c k F; cbn [walk reach]; [reflexivity|]. destruct F as (Pr & L' & c' & _ & _ & F). destruct (single ch) eqn:Sg.
  - apply Nat.eqb_eq in Sg. destruct (law ch) as [|[w v] [|]] eqn:El; try discriminate Sg. cbn [nth snd]. exists w, v. split; [now left|]. apply (IH v L' c' k). apply (F w v). now left.
  - unfold value_of. pose proof (nth_In (law ch) (0, PNone) (pick_bound N ch (st k) Pr (B k))) as I. destruct (nth _ (law ch) _) as [w v]. cbn [snd]. exists w, v. split; [exact I|].
    apply (IH v L' c'). exact (F w v I).
Qed.

(** [F] where all numbers are in range. *)
Definition fenced (n : nat) (lo hi : Q) (F : list Q -> Q) (xs : list Q) : Q :=
  if forallb (fun x => Qle_bool lo x && Qle_bool x hi) xs && Nat.eqb (length xs) n then F xs else 0.
Lemma fence lo hi xs : forallb (fun x => Qle_bool lo x && Qle_bool x hi) xs = true <-> Forall (fun x => lo <= x <= hi) xs.
Proof.
  rewrite forallb_forall, Forall_forall. split; intros H x I; specialize (H x I).
  - apply andb_prop in H as [A B]. now apply Qle_bool_iff in A, B.
  - apply andb_true_intro. destruct H. split; now apply Qle_bool_iff.
Qed.
Lemma fenced_in n lo hi F xs : list_in n (fun x => lo <= x <= hi) xs -> fenced n lo hi F xs = F xs.
Proof. intros [L H]. unfold fenced. apply fence in H. rewrite H, L, Nat.eqb_refl. reflexivity. Qed.
Lemma fenced_most n lo hi B F xs : 0 <= B -> at_most n lo hi B F -> Qabs (fenced n lo hi F xs) <= B.
Proof.
  intros B0 H. unfold fenced. destruct (forallb _ xs && Nat.eqb (length xs) n) eqn:E; [|exact B0]. apply andb_prop in E as [E L]. apply fence in E. apply Nat.eqb_eq in L.
  apply Qabs_Qle_condition. now apply H.
Qed.
Section Runs.
  Variables (Or : oracle) (N : nat) (ahead : G Or -> nat -> nat).
  Hypotheses (HN : (0 < N)%nat) (RL : right_length Or) (RA : reads_all Or N ahead).

  Lemma statistic_follow e n lo hi F s : sound e -> (1 <= n)%nat -> of_lists F -> ranges e lo hi ->
    statistic Or (obj_of e) n F s == num (fenced n lo hi F) (follow N (columns n e) (coming Or ahead (n * work e) s)).
  Proof.
    intros S Hn HF Rg. destruct (expr_follows Or N ahead HN RL RA e S n s Hn) as (v & s' & xs & k & E & [Nv Pv] & W & _).
    rewrite (follow_walk N (columns n e) (ahead (rng s)) (rd_b Or N ahead (proj1 RA) (rng s)) (n * work e) (n * spread e) 0 _ (fits_columns e S n)).
    - pose proof (walk_reach N (columns n e) (ahead (rng s)) (rd_b Or N ahead (proj1 RA) (rng s)) _ _ 0%nat (fits_columns e S n)) as K.
      rewrite W in *. cbn [fst num] in *. unfold statistic. rewrite E. cbn [fst]. rewrite (n_elems _ _ Nv), Nat.eqb_refl. destruct (plain_values _ _ Pv) as [-> Q]. cbn [andb].
      rewrite fenced_in; [now apply HF|]. destruct (reach_returns _ _ _ (columns_reach e n) K) as [L C]. split; [exact L|]. eapply Forall_impl; [|exact C]. intros x Hx. exact (reach_returns _ _ _ Rg Hx).
    - unfold coming. rewrite map_length, seq_length. lia.
    - unfold coming. rewrite map_length, seq_length. intros i Hi. rewrite (nth_indep _ 0%nat (ahead (rng s) 0%nat)) by (rewrite map_length, seq_length; lia). rewrite map_nth, seq_nth by lia. reflexivity.
  Qed.
  Lemma statistic_average e n lo hi B F ss : sound e -> (1 <= n)%nat -> of_lists F -> ranges e lo hi -> 0 <= B -> at_most n lo hi B F ->
    each_once N (n * work e) (map (coming Or ahead (n * work e)) ss) ->
    Qabs (total (map (statistic Or (obj_of e) n F) ss) / qnat (N ^ (n * work e)) - expect (repeated n (prog_of e)) F) <= qnat (n * spread e) * B / qnat N.
  Proof.
    intros S Hn HF Rg B0 HB [ND I].
    pose proof (sequences_average N (columns n e) (fenced n lo hi F) B HN B0 (fun xs => fenced_most n lo hi B F xs B0 HB) _ _ (fits_columns e S n) _ (le_n _)) as H.
    assert (P : Permutation (map (coming Or ahead (n * work e)) ss) (seqs N (n * work e))).
    { apply NoDup_Permutation; auto using seqs_nodup. intros x. rewrite I, seqs_in. reflexivity. }
    rewrite <- (total_perm _ _ (Permutation_map _ P)), map_map in H.
    assert (E : total (map (statistic Or (obj_of e) n F) ss) == total (map (fun s => num (fenced n lo hi F) (follow N (columns n e) (coming Or ahead (n * work e) s))) ss)).
    { clear -S Hn HF Rg HN RL RA. induction ss as [|s ss IH]; [reflexivity|]. unfold total in *. cbn [map fold_right]. rewrite IH, (statistic_follow e n lo hi F s S Hn HF Rg). reflexivity. }
    assert (X : expect (columns n e) (fenced n lo hi F) == expect (repeated n (prog_of e)) F).
    { rewrite (columns_law e S). apply (expect_same _ _ _ _ (returns_list _ _ n Rg)). intros xs L. rewrite fenced_in by exact L. reflexivity. }
    rewrite E, <- X. exact H.
  Qed.
End Runs.
(** The mean. *)
Lemma mean_lists n : of_lists (mean n).
Proof. intros xs ys F. unfold mean. rewrite (total_compat xs ys F). reflexivity. Qed.
Lemma error2_lists n m : of_lists (error2 n m).
Proof. intros xs ys F. unfold error2. rewrite (mean_lists n xs ys F). reflexivity. Qed.
Lemma total_range lo hi xs : Forall (fun x => lo <= x <= hi) xs -> qnat (length xs) * lo <= total xs <= qnat (length xs) * hi.
Proof.
  unfold total. induction 1 as [|x xs H F IH]; cbn [fold_right length]; [assert (Z : qnat 0 == 0) by reflexivity; rewrite Z; lra|]. rewrite qnat_S. lra.
Qed.
Lemma mean_range n lo hi xs : (1 <= n)%nat -> length xs = n -> Forall (fun x => lo <= x <= hi) xs -> lo <= mean n xs <= hi.
Proof.
  intros Hn L F. apply total_range in F. rewrite L in F. assert (P : 0 < qnat n) by (apply qnat_pos; lia). unfold mean.
  split; [apply Qle_shift_div_l|apply Qle_shift_div_r]; auto; lra.
Qed.
Lemma expected_range e lo hi : sound e -> ranges e lo hi -> lo <= expected e <= hi.
Proof.
  intros S H. pose proof (expect_const (prog_of e) lo _ _ (fits_prog e S)) as A. pose proof (expect_const (prog_of e) hi _ _ (fits_prog e S)) as B.
  pose proof (expect_le_sure (prog_of e) _ (fun _ => lo) (fun x => x) H ltac:(intros a Ha; apply Ha) _ _ (fits_prog e S)) as C.
  pose proof (expect_le_sure (prog_of e) _ (fun x => x) (fun _ => hi) H ltac:(intros a Ha; apply Ha) _ _ (fits_prog e S)) as D. unfold expected. lra.
Qed.
Lemma mean_law e n : sound e -> (1 <= n)%nat -> expect (repeated n (prog_of e)) (mean n) == expected e /\ expect (repeated n (prog_of e)) (error2 n (expected e)) == variance e / qnat n.
Proof.
  intros S Hn. assert (P : 0 < qnat n) by (apply qnat_pos; lia). set (g := fun x => x - expected e). pose proof (centred e S) as Z. fold g in Z.
  assert (M : forall l, length l = n -> mean n l == expected e + total (map g l) / qnat n).
  { intros l L. pose proof (length_total (fun x => x) (expected e) l) as T. rewrite map_id, L in T. fold g in T. rewrite T. unfold mean. field. lra. }
  pose proof (fits_repeated _ _ _ n (fits_prog e S)) as F. split.
  - rewrite (expect_same _ _ (mean n) (fun l => expected e * 1 + / qnat n * total (map g l)) (returns_repeated (prog_of e) n)) by (intros l L; rewrite (M l L); unfold Qdiv; ring).
    rewrite expect_linear, (expect_const _ 1 _ _ F), (repeated_mean _ g _ _ n (fits_prog e S) Z). ring.
  - rewrite (expect_same _ _ _ (fun l => (/ qnat n * / qnat n) * (total (map g l) * total (map g l))) (returns_repeated (prog_of e) n)) by (intros l L; unfold error2; rewrite (M l L); unfold Qdiv; ring).
    rewrite expect_scale, (repeated_variance _ g _ _ n (fits_prog e S) Z). unfold variance. fold g. unfold g. field. lra.
Qed.
Lemma mean_most n B : (1 <= n)%nat -> at_most n (- B) B B (mean n).
Proof. intros Hn xs L F. now apply mean_range. Qed.
Lemma error2_most e n lo hi : sound e -> (1 <= n)%nat -> ranges e lo hi -> at_most n lo hi (square (hi - lo)) (error2 n (expected e)).
Proof.
  intros S Hn Rg xs L F. pose proof (mean_range n lo hi xs Hn L F). pose proof (expected_range e lo hi S Rg). unfold error2, square. nra.
Qed.
Section Means.
  Variables (Or : oracle) (N : nat) (ahead : G Or -> nat -> nat).
  Hypotheses (HN : (0 < N)%nat) (RL : right_length Or) (RA : reads_all Or N ahead).
  Lemma mean_unbiased e n B ss : sound e -> (1 <= n)%nat -> 0 <= B -> ranges e (- B) B -> each_once N (n * work e) (map (coming Or ahead (n * work e)) ss) ->
    Qabs (total (map (statistic Or (obj_of e) n (mean n)) ss) / qnat (N ^ (n * work e)) - expected e) <= qnat (n * spread e) * B / qnat N.
  Proof.
    intros S Hn B0 Rg Eo. pose proof (statistic_average Or N ahead HN RL RA e n (- B) B B (mean n) ss S Hn (mean_lists n) Rg B0 (mean_most n B Hn) Eo) as H.
    rewrite (proj1 (mean_law e n S Hn)) in H. exact H.
  Qed.
  Lemma mean_error e n lo hi ss : sound e -> (1 <= n)%nat -> ranges e lo hi -> each_once N (n * work e) (map (coming Or ahead (n * work e)) ss) ->
    Qabs (total (map (statistic Or (obj_of e) n (error2 n (expected e))) ss) / qnat (N ^ (n * work e)) - variance e / qnat n) <= qnat (n * spread e) * square (hi - lo) / qnat N.
  Proof.
    intros S Hn Rg Eo. pose proof (statistic_average Or N ahead HN RL RA e n lo hi (square (hi - lo)) (error2 n (expected e)) ss S Hn (error2_lists n _) Rg (sq_nn _) (error2_most e n lo hi S Hn Rg) Eo) as H.
    rewrite (proj2 (mean_law e n S Hn)) in H. exact H.
  Qed.
End Means.
(** Variances of products and mixtures. *)
Lemma about e m : sound e -> expect (prog_of e) (fun x => (x - m) * (x - m)) == variance e + square (expected e - m).
Proof.
  intros S. set (k := expected e - m). rewrite (expect_ext _ _ (fun x => 1 * ((x - expected e) * (x - expected e)) + 1 * ((2 * k) * (x - expected e) + (k * k) * 1))) by (intros x; unfold k; ring).
  rewrite expect_linear, expect_linear, (centred e S), (expect_const _ 1 _ _ (fits_prog e S)). unfold variance, square. ring.
Qed.
Lemma total_variance l : sound (XMix l) ->
  variance (XMix l) == total (map (fun e => fst e * variance (snd e)) l) + total (map (fun e => fst e * square (expected (snd e) - expected (XMix l))) l).
Proof.
  intros S. destruct S as (_ & _ & _ & S). apply sound_parts in S. unfold variance at 1. rewrite expect_mix. generalize (expected (XMix l)). intros m. unfold total.
  induction S as [|e l H F IH]; cbn [map fold_right]; [ring|]. rewrite IH, (about (snd e) m H). ring.
Qed.
Lemma product_variance a b : sound a -> sound b ->
  variance (XOp BProd a b) == variance a * variance b + variance a * square (expected b) + variance b * square (expected a).
Proof.
  intros A B. assert (E : expected (XOp BProd a b) == expected a * expected b) by apply (means a b A B). unfold variance at 1.
  rewrite expect_op. cbn [exact]. set (c := expected (XOp BProd a b)) in *. pose proof (about a 0 A) as Ma. pose proof (about b 0 B) as Mb.
  set (u := variance b + square (expected b - 0)) in *.
  assert (X : forall x, expect (prog_of b) (fun y => (x * y - c) * (x * y - c)) == u * (x * x) + (- (2 * c * expected b)) * x + c * c * 1).
  { intros x. rewrite (expect_ext _ _ (fun y => (x * x) * ((y - 0) * (y - 0)) + 1 * ((- (2 * x * c)) * y + (c * c) * 1))) by (intros y; ring).
    rewrite expect_linear, expect_linear, Mb, (expect_const _ 1 _ _ (fits_prog b B)). unfold expected. ring. }
  rewrite (expect_ext _ _ _ X).
  rewrite (expect_ext _ _ (fun x => u * ((x - 0) * (x - 0)) + 1 * ((- (2 * c * expected b)) * x + (c * c) * 1))) by (intros x; ring).
  rewrite expect_linear, expect_linear, Ma, (expect_const _ 1 _ _ (fits_prog a A)). change (expect (prog_of a) (fun x => x)) with (expected a). rewrite E. unfold u, square. ring.
Qed.
Lemma variance_nonneg e : sound e -> 0 <= variance e.
Proof.
  intros S. unfold variance. pose proof (expect_const (prog_of e) 0 _ _ (fits_prog e S)) as A.
  pose proof (expect_le_sure (prog_of e) (fun _ => True) (fun _ => 0) (fun x => (x - expected e) * (x - expected e)) (returns_all _ _ (fun _ => I)) ltac:(intros a _; apply sq_nn) _ _ (fits_prog e S)) as C. lra.
Qed.
Lemma mixture_or_average a b : sound a -> sound b -> let mix := XMix [(1#2, a); (1#2, b)] in let average := XOp BProd (XNum (1#2)) (XOp BSum a b) in
  expected mix == expected average /\ 2 * variance average <= variance mix.
Proof.
  intros A B mix average. assert (S : sound mix).
  { split; [cbn; lia|]. split; [repeat constructor|]. split; [reflexivity|]. cbn [fold_right snd]. auto. }
  assert (AB : sound (XOp BSum a b)) by (split; assumption).
  destruct (means a b A B) as (M1 & _). destruct (constant_parts (1#2) _ AB) as (M2 & V2 & _). destruct (variances a b A B) as (V1 & _).
  pose proof (mixed_mean [(1#2, a); (1#2, b)]) as M3. pose proof (total_variance _ S) as V3. fold mix in M3, V3. fold average in M2, V2. rewrite M1 in M2. rewrite V1 in V2.
  unfold total in M3, V3. cbn [map fst snd fold_right] in M3, V3. pose proof (variance_nonneg a A). pose proof (variance_nonneg b B).
  pose proof (sq_nn (expected a - expected mix)). pose proof (sq_nn (expected b - expected mix)). unfold square in V3. split; lra.
Qed.
