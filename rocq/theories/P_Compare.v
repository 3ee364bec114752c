(** Comparisons of expressions (C197). *)
From Coq Require Import Qabs ZArith Lia Lqa.
From Verif Require Import Base M_Weights M_Values M_Sampler M_Ops SpecWeights SpecSampler SpecOps SpecShare P_Support P_Count P_Ops P_Rising P_Program P_Program2 P_Large P_Indep P_Columns P_Columns2 P_PctNear.
From Verif Require Import M_SampleApi M_Bayesnet SpecBayes SpecProgram SpecLarge SpecIndep SpecColumns SpecCompare.
Open Scope Q_scope.

Lemma holds_compare o x y : comparison o -> compare o x y = Some (holds o x y).
Proof. intros [->|[->|[->| ->]]]; reflexivity. Qed.
Lemma bool_eq (b c : bool) : (b = true <-> c = true) -> b = c.
Proof. destruct b, c; intros [A B]; try reflexivity; [now specialize (A eq_refl)|now specialize (B eq_refl)]. Qed.
Lemma holds_difference o x y d : comparison o -> d == x - y -> holds o x y = holds o d 0.
Proof.
  intros C E. destruct C as [->|[->|[->| ->]]]; cbn; apply bool_eq; rewrite ?Qle_bool_iff, ?qlt_true; lra.
Qed.
Lemma bool_array f hs : np_array f (map PBool hs) = map PBool hs.
Proof.
  unfold np_array. assert (X : forall g, (forall h, g (PBool h) = false) -> existsb g (map PBool hs) = false) by (intros g H; induction hs; cbn; [reflexivity|rewrite H; exact IHhs]).
  rewrite !X; reflexivity.
Qed.
Lemma pointwise_bools (f : pv -> pv -> res pv) g : (forall a b x y, plain a x -> plain b y -> f a b = Ok (PBool (g x y))) ->
  forall l xs, Forall2 plain l xs -> forall m ys, Forall2 plain m ys -> length l = length m ->
  pointwise f l m (map PBool (map (fun p => g (fst p) (snd p)) (combine xs ys))).
Proof.
  intros F l xs P. induction P as [|a x l xs A P IH]; intros m ys Q L; destruct m as [|b m]; try discriminate; [constructor|].
  inversion Q as [|? y ? ys' B Q']; subst. cbn. constructor; [now apply F|]. apply IH; [exact Q'|]. cbn in L. lia.
Qed.
Section Runs.
  Variables (Or : oracle) (N : nat) (ahead : G Or -> nat -> nat).
  Hypotheses (HN : (0 < N)%nat) (RL : right_length Or) (RA : reads_all Or N ahead).
  Lemma question_run o a b n s : comparison o -> sound a -> sound b -> (1 <= n)%nat ->
    exists v w s', smp Or (question o a b) n None None s = (Ok v, s') /\ smp Or (obj_of (XOp BDiff a b)) n None None s = (Ok w, s') /\
      length (elems v) = n /\ elems v = map (fun d => PBool (holds o (value d) 0)) (elems w).
  Proof.
    intros C Sa Sb Hn. destruct (expr_follows Or N ahead HN RL RA a Sa n s Hn) as (u & s1 & xs & k & A & [Na Pa] & _).
    destruct (expr_follows Or N ahead HN RL RA b Sb n s1 Hn) as (t & s2 & ys & j & B & [Nb Pb] & _).
    destruct (two_place Or _ _ (fun arr => binop (pow_ Or) arr Sub) Qminus (FOp Sub) n s _ _ s1 s2 _ _ Hn (obj_some Or b) (op_result Or n Sub) (arith_op Or Sub n Qminus ltac:(reflexivity)) A B (conj Na Pa) (conj Nb Pb)) as (w & W & [Nw Pw]).
    pose proof (n_elems _ _ Na) as La. pose proof (n_elems _ _ Nb) as Lb.
    pose proof (pointwise_bools (binop (pow_ Or) (arrays n) o) (holds o) ltac:(intros p q x y P Q; apply (binop_compare _ _ _ _ _ x y); auto using holds_compare) _ _ Pa _ _ Pb ltac:(congruence)) as Z.
    apply zipM_pointwise in Z. pose proof (lift2_run (fun arr => binop (pow_ Or) arr o) n u t Na Nb) as L. cbv beta in L. rewrite Z in L. destruct L as (v & Ev & Nv & Ez).
    exists (finish_list Or v), w, s2. split; [|split; [exact W|]].
    - unfold question. rewrite (complex_run _ _ _ _ _ _ _ _ _ _ Hn (obj_some Or b) A B), op_result, Ev. reflexivity.
    - assert (X : elems (finish_list Or v) = elems v). { destruct v as [x|l]; [reflexivity|]. cbn [finish_list elems] in *. rewrite Ez. apply bool_array. }
      rewrite X. split; [now apply n_elems|]. rewrite Ez. clear -C Pw. revert Pw. generalize (combine xs ys). intros l. generalize (elems w). intros m Pw.
      remember (map (fun p => fst p - snd p) l) as ds eqn:D. revert l D. induction Pw as [|d q m ds P F IH]; intros [|[x y] l] D; try discriminate; [reflexivity|].
      cbn [map fst snd] in *. inversion D; subst. f_equal; [|now apply IH]. f_equal. apply holds_difference; [exact C|].
      destruct d as [z|[r| | |]| | |]; cbn in P; try contradiction; cbn [value]; exact P.
  Qed.
  Definition read (o : opn) (P : list bool -> bool) (ds : list Q) : bool := P (map (fun d => holds o d 0) ds).
  Lemma read_numbers o P : of_number_lists (read o P).
  Proof.
    intros xs ys F. unfold read. f_equal. induction F as [|x y xs ys E F IH]; [reflexivity|]. cbn [map]. f_equal; [|exact IH].
    destruct o; cbn; try reflexivity; apply bool_eq; rewrite ?Qle_bool_iff, ?qlt_true, ?E; reflexivity.
  Qed.
  Lemma question_in o a b n P s : comparison o -> sound a -> sound b -> (1 <= n)%nat ->
    answers_in Or (question o a b) n P s = samples_in Or (obj_of (XOp BDiff a b)) n (read o P) s.
  Proof.
    intros C Sa Sb Hn. destruct (question_run o a b n s C Sa Sb Hn) as (v & w & s' & V & W & L & E). unfold answers_in, samples_in. rewrite V, W. cbn [fst].
    assert (Lw : length (elems w) = length (elems v)) by (rewrite E, map_length; reflexivity). rewrite Lw, L, Nat.eqb_refl.
    assert (Bv : forallb is_bool (elems v) = true) by (rewrite E; clear; induction (elems w); cbn; auto). rewrite Bv.
    assert (Bw : forallb is_number (elems w) = true).
    { destruct (expr_follows Or N ahead HN RL RA (XOp BDiff a b) (conj Sa Sb) n s Hn) as (w' & s1 & xs & k & A & [Na Pa] & _). rewrite W in A. inversion A; subst. apply (plain_values _ _ Pa). }
    rewrite Bw. cbn [andb]. unfold read. f_equal. rewrite E, !map_map. reflexivity.
  Qed.
  Lemma duel_repeated o a b n : comparison o -> forall F : list bool -> Q,
    expect (repeated n (prog_of (XOp BDiff a b))) (fun ds => F (map (fun d => holds o d 0) ds)) == expect (repeated n (duel o a b)) F.
  Proof.
    intros C. induction n as [|n IH]; intros F; [reflexivity|]. cbn [repeated]. rewrite !expect_after. unfold duel at 1. rewrite expect_op, expect_after.
    apply expect_ext. intros x. rewrite expect_after. apply expect_ext. intros y. cbn [expect]. rewrite !expect_after. cbn [exact].
    rewrite <- (IH (fun l => expect (Return (holds o x y :: l)) F)). apply expect_ext. intros l. cbn [expect map]. rewrite (holds_difference o x y (x - y) C) by reflexivity. reflexivity.
  Qed.
  Lemma question_share o a b n P ss : comparison o -> sound a -> sound b -> (1 <= n)%nat ->
    each_once N (n * (work a + work b)) (map (coming Or ahead (n * (work a + work b))) ss) ->
    Qabs (qnat (count (answers_in Or (question o a b) n P) ss) / qnat (N ^ (n * (work a + work b))) - chance (repeated n (duel o a b)) P) <= qnat (n * (spread a + spread b)) / qnat N.
  Proof.
    intros C Sa Sb Hn Eo. rewrite (count_same2 _ (samples_in Or (obj_of (XOp BDiff a b)) n (read o P))) by (intros s; now apply question_in).
    assert (X : chance (repeated n (duel o a b)) P == chance (repeated n (prog_of (XOp BDiff a b))) (read o P)).
    { rewrite !expect_chance. rewrite <- (duel_repeated o a b n C (fun l => if P l then 1 else 0)). reflexivity. }
    rewrite X. apply (samples_share Or N ahead HN RL RA (XOp BDiff a b) n (read o P) ss (conj Sa Sb) Hn (read_numbers o P) Eo).
  Qed.
  Lemma fits_duel o a b : sound a -> sound b -> fits (duel o a b) (draws a + draws b) (outcomes a + outcomes b).
  Proof.
    intros Sa Sb. unfold duel. apply fits_after; [|now apply fits_prog]. intros x. rewrite <- (Nat.add_0_r (draws b)), <- (Nat.add_0_r (outcomes b)). apply fits_after; [|now apply fits_prog]. intros y. exact I.
  Qed.
  Lemma question_near o a b n d ss : comparison o -> sound a -> sound b -> (1 <= n)%nat -> 0 < d ->
    each_once N (n * (work a + work b)) (map (coming Or ahead (n * (work a + work b))) ss) ->
    1 - 1 / (4 * qnat n * (d * d)) - qnat (n * (spread a + spread b)) / qnat N <=
    qnat (count (answers_in Or (question o a b) n (share_near n d (odds_of o a b))) ss) / qnat (N ^ (n * (work a + work b))).
  Proof.
    intros C Sa Sb Hn Hd Eo. pose proof (question_share o a b n (share_near n d (odds_of o a b)) ss C Sa Sb Hn Eo) as H. apply Qabs_Qle_condition in H. destruct H as [H _].
    pose proof (fits_duel o a b Sa Sb) as F.
    assert (B : returns (duel o a b) (fun h => 0 <= yes h <= 1)) by (apply returns_all; intros []; cbn; lra).
    pose proof (chebyshev (duel o a b) yes 0 1 _ _ n d F B Hn Hd) as Ch.
    assert (X : (1 - 0) * (1 - 0) / (4 * qnat n * (d * d)) == 1 / (4 * qnat n * (d * d))) by (unfold Qdiv; ring). rewrite X in Ch.
    assert (K : 1 - 1 / (4 * qnat n * (d * d)) <= chance (repeated n (duel o a b)) (share_near n d (odds_of o a b))).
    { refine (usual _ (fun _ => True) _ _ _ _ _ (fits_repeated _ _ _ n F) (returns_all _ _ (fun _ => I)) _ Ch). intros l _ E. unfold share_near.
      rewrite (far_compat d (total (map yes l) / qnat n) (odds_of o a b) (total (map yes l) / qnat n) (expect (duel o a b) yes)); [now rewrite E|reflexivity|]. unfold odds_of. rewrite expect_chance. reflexivity. }
    lra.
  Qed.
End Runs.

(** The chances. *)
Lemma odds_expect o a b : odds_of o a b == expect (prog_of a) (fun x => expect (prog_of b) (fun y => yes (holds o x y))).
Proof. unfold odds_of, duel. rewrite expect_chance, expect_after. apply expect_ext. intros x. rewrite expect_after. apply expect_ext. intros y. reflexivity. Qed.
Lemma odds_opposite o a b : comparison o -> sound a -> sound b -> odds_of o a b + odds_of (opposite o) a b == 1.
Proof.
  intros C Sa Sb. rewrite !odds_expect.
  assert (X : forall (p : prog Q) f g, expect p f + expect p g == expect p (fun x => 1 * f x + 1 * g x)) by (intros; rewrite expect_linear; ring).
  rewrite X, <- (expect_const (prog_of a) 1 _ _ (fits_prog a Sa)). apply expect_ext. intros x. assert (Y : forall u v, 1 * u + 1 * v == u + v) by (intros; ring).
  rewrite Y, X, <- (expect_const (prog_of b) 1 _ _ (fits_prog b Sb)). apply expect_ext. intros y.
  assert (Z : holds (opposite o) x y = negb (holds o x y)).
  { destruct C as [->|[->|[->| ->]]]; cbn; apply bool_eq; rewrite negb_true_iff, ?qlt_true, ?Qle_bool_iff, ?qlt_false; try reflexivity;
    rewrite <- Bool.not_true_iff_false, Qle_bool_iff; split; lra. }
  rewrite Z. destruct (holds o x y); reflexivity.
Qed.
Lemma odds_mirrored o a b : comparison o -> odds_of o a b == odds_of (mirrored o) b a.
Proof.
  intros C. rewrite !odds_expect, swap. apply expect_ext. intros y. apply expect_ext. intros x. destruct C as [->|[->|[->| ->]]]; reflexivity.
Qed.
Lemma odds_twice e : sound e -> odds_of Lt e e == odds_of Gt e e /\ odds_of Le e e == 1 - odds_of Lt e e /\ odds_of Lt e e <= 1#2.
Proof.
  intros S. pose proof (odds_mirrored Lt e e ltac:(left; reflexivity)) as M. cbn [mirrored] in M. pose proof (odds_opposite Gt e e ltac:(right; right; left; reflexivity) S S) as P. cbn [opposite] in P.
  split; [exact M|]. split; [lra|].
  assert (K : odds_of Lt e e <= odds_of Le e e).
  { rewrite !odds_expect. eapply (expect_le_sure _ (fun _ => True)); [apply returns_all; auto| |apply (fits_prog e S)]. intros x _.
    eapply (expect_le_sure _ (fun _ => True)); [apply returns_all; auto| |apply (fits_prog e S)]. intros y _. cbn.
    destruct (Qlt_bool x y) eqn:A; [|destruct (Qle_bool x y); cbn; lra]. apply qlt_true in A. assert (B : Qle_bool x y = true) by (apply Qle_bool_iff; lra). rewrite B. cbn. lra. }
  lra.
Qed.
