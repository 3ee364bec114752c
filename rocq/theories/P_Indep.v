(** Expressions over discrete distributions make independent choices (C192). *)
From Coq Require Import Qabs ZArith Lia Lqa.
From Verif Require Import Base M_Weights M_Values M_Sampler M_Ops SpecWeights SpecSampler SpecOps SpecMixture SpecShare SpecDiscrete SpecRising
  P_Mixture P_Share P_ShareRun P_ShareRun2 P_Discrete P_Sampler P_Ops P_Ops2 P_Support P_Rising P_Program P_Program2 P_Large P_Pick.
From Verif Require Import M_SampleApi M_Bayesnet SpecBayes SpecProgram SpecLarge SpecIndep.
Open Scope Q_scope.

Lemma dexp_rect' (P : dexp -> Prop) : (forall x, P (XNum x)) -> (forall c, P (XChoice c)) -> (forall o a b, P a -> P b -> P (XOp o a b)) ->
  (forall l, Forall (fun e => P (snd e)) l -> P (XMix l)) -> forall e, P e.
Proof.
  intros A B C D. fix F 1. intros [x|c|o a b|l]; [apply A|apply B|apply C; apply F|]. apply D. induction l as [|[w e] l IH]; constructor; [apply F|exact IH].
Qed.
Lemma sound_parts l : fold_right (fun e P => sound (snd e) /\ P) True l <-> Forall (fun e : Q * dexp => sound (snd e)) l.
Proof. induction l as [|e l IH]; cbn; [split; auto|]. rewrite IH. split; [intros [A B]; now constructor|intros H; now inversion H]. Qed.
Lemma branches_fst {A} (l : list (Q * A)) : map fst (law (branches l)) = map fst l.
Proof.
  cbn [branches law]. generalize 0%nat. induction l as [|[w a] l IH]; intros k; cbn; [reflexivity|]. now rewrite IH.
Qed.
Lemma branches_length {A} (l : list (Q * A)) : length (law (branches l)) = length l.
Proof. cbn [branches law]. rewrite combine_length, !map_length, seq_length. lia. Qed.
Lemma branches_nth {A} (l : list (Q * A)) i : (i < length l)%nat -> snd (nth i (law (branches l)) (0, PNone)) = PInt (Z.of_nat i).
Proof.
  intros H. cbn [branches law]. rewrite combine_nth by now rewrite !map_length, seq_length. cbn [snd].
  rewrite (nth_indep _ PNone (PInt (Z.of_nat 0))) by now rewrite map_length, seq_length. rewrite (map_nth (fun i => PInt (Z.of_nat i))), seq_nth by exact H. reflexivity.
Qed.
Lemma branches_in {A} (l : list (Q * A)) w v : In (w, v) (law (branches l)) -> exists i, (i < length l)%nat /\ v = PInt (Z.of_nat i).
Proof.
  intros H. cbn [branches law] in H. apply in_combine_r, in_map_iff in H as (i & <- & I). apply in_seq in I. exists i. split; [lia|reflexivity].
Qed.
Lemma branches_proper {A} (l : list (Q * A)) : (2 <= length l)%nat -> positive (map fst l) -> total (map fst l) == 1 -> proper (branches l).
Proof.
  intros H P T. pose proof (branches_fst l) as E. pose proof (branches_length l) as EL. cbn [branches law] in E, EL. cbn [proper branches]. rewrite E. split; [|auto].
  intros X. rewrite X in EL. cbn in EL. lia.
Qed.
Lemma max_part (f : dexp -> nat) (l : list (Q * dexp)) e : In e l -> (f (snd e) <= fold_right (fun e m => Nat.max (f (snd e)) m) 0%nat l)%nat.
Proof. induction l as [|x l IH]; intros I; [destruct I|]. destruct I as [->|I]; cbn; [lia|]. pose proof (IH I). lia. Qed.
Lemma fits_prog e : sound e -> fits (prog_of e) (draws e) (outcomes e).
Proof.
  induction e as [x|c|o a b IHa IHb|l IH] using dexp_rect'; intros S.
  - exact I.
  - cbn [prog_of draws outcomes]. split; [apply S|]. exists 0%nat, 0%nat. split; [reflexivity|]. split; [lia|]. intros; exact I.
  - destruct S as [Sa Sb]. cbn [prog_of draws outcomes]. apply fits_after; [|auto]. intros x.
    rewrite <- (Nat.add_0_r (draws b)), <- (Nat.add_0_r (outcomes b)). apply fits_after; [|auto]. intros y. exact I.
  - destruct S as (H2 & P & T & S). apply sound_parts in S. cbn [prog_of draws outcomes]. split; [now apply branches_proper|]. eexists _, _. split; [reflexivity|].
    split; [now rewrite branches_length|]. intros w v I. apply branches_in in I as (i & Hi & ->). rewrite Nat2Z.id.
    destruct (nth_error l i) as [e|] eqn:E; [|apply nth_error_None in E; lia]. apply nth_error_In in E as Ie.
    assert (nth i (map (fun e => prog_of (snd e)) l) (Return 0) = prog_of (snd e)) as -> by (apply nth_error_nth; now rewrite nth_error_map, E).
    rewrite Forall_forall in IH, S. eapply fits_more; [apply (IH e Ie), (S e Ie)|now apply max_part|now apply (max_part outcomes)].
Qed.

Section Runs.
  Variable Or : oracle.
  Notation St := (state (G Or)).
  Variable N : nat.
  Variable ahead : G Or -> nat -> nat.
  Hypothesis HN : (0 < N)%nat.
  Hypothesis RL : right_length Or.
  Hypothesis R : reads Or N ahead.
  Lemma obj_some e : @obj_of (G Or) e <> OLit PNone.
  Proof. destruct e as [| |[] a b|]; discriminate. Qed.
  Lemma one_two (o : binary) a b s x y u w s1 s2 : smp Or (obj_of a) 1 None None s = (Ok (Scalar u), s1) -> plain u x ->
    smp Or (obj_of b) 1 None None s1 = (Ok (Scalar w), s2) -> plain w y ->
    exists v, smp Or (obj_of (XOp o a b)) 1 None None s = (Ok (Scalar v), s2) /\ plain v (exact o x y).
  Proof.
    intros A Pa B Pb.
    assert (X : exists v, smp Or (obj_of (XOp o a b)) 1 None None s = (Ok v, s2) /\ numbers 1 v (map (fun p => exact o (fst p) (snd p)) (combine [x] [y]))).
    { assert (Na : numbers 1 (Scalar u) [x]) by (split; [eexists; reflexivity|repeat constructor; exact Pa]).
      assert (Nb : numbers 1 (Scalar w) [y]) by (split; [eexists; reflexivity|repeat constructor; exact Pb]).
      destruct o; cbn [obj_of exact].
      - apply (two_place Or _ _ (fun arr => binop (pow_ Or) arr Add) Qplus (FOp Add) 1 s _ _ s1 s2 _ _ (le_n 1) (obj_some b) (op_result Or 1 Add) (arith_op Or Add 1 Qplus ltac:(reflexivity)) A B Na Nb).
      - apply (two_place Or _ _ (fun arr => binop (pow_ Or) arr Sub) Qminus (FOp Sub) 1 s _ _ s1 s2 _ _ (le_n 1) (obj_some b) (op_result Or 1 Sub) (arith_op Or Sub 1 Qminus ltac:(reflexivity)) A B Na Nb).
      - apply (two_place Or _ _ (fun arr => binop (pow_ Or) arr Mul) Qmult (FOp Mul) 1 s _ _ s1 s2 _ _ (le_n 1) (obj_some b) (op_result Or 1 Mul) (arith_op Or Mul 1 Qmult ltac:(reflexivity)) A B Na Nb).
      - apply (two_place Or _ _ (fun _ => max_pv) (fun x y => if Qlt_bool x y then y else x) _ 1 s _ _ s1 s2 _ _ (le_n 1) (obj_some b) (user_result Or 1 _) (fun p q x y P Q => max_plain p q x y P Q) A B Na Nb).
      - apply (two_place Or _ _ (fun _ => min_pv) (fun x y => if Qlt_bool y x then y else x) _ 1 s _ _ s1 s2 _ _ (le_n 1) (obj_some b) (user_result Or 1 _) (fun p q x y P Q => min_plain p q x y P Q) A B Na Nb). }
    destruct X as (v & E & [[z ->] F]). exists z. split; [exact E|]. cbn in F. now inversion F.
  Qed.
  Lemma make_leaf c s v s' : (forall p, c <> CEvent p) -> make Or c s = (Ok v, s') -> smp Or (ODist (DLeaf (leaf_of c) None None)) 1 None None s = (Ok (Scalar v), s').
  Proof.
    assert (O1 : forall k, one Or k s = (Ok v, s') -> smp Or (ODist (DLeaf k None None)) 1 None None s = (Ok (Scalar v), s')).
    { intros k H. unfold one, bindS in H. destruct (smp Or (ODist (DLeaf k None None)) 1 None None s) as [[[x|l]|e] s1]; try discriminate. inversion H; subst. reflexivity. }
    intros Ne H. destruct c; cbn [make leaf_of] in *; auto. now destruct (Ne p).
  Qed.
  Lemma value_plain c s v s' : proper c -> (forall w v, In (w, v) (law c) -> plain v (value v)) -> make Or c s = (Ok v, s') -> plain v (value v).
  Proof.
    intros P H M. pose proof (make_follow Or N ahead HN RL R c s P) as F. destruct (single c) eqn:Sg.
    - rewrite M in F. inversion F; subst. unfold single in Sg. apply Nat.eqb_eq in Sg. destruct (law c) as [|[w x] [|]]; try discriminate. cbn. apply (H w x). now left.
    - destruct F as (t & F & _). rewrite M in F. inversion F; subst. unfold value_of.
      pose proof (nth_In (law c) (0, PNone) (pick_bound N c (ahead (rng s) 0) P (rd_b Or N ahead R _ _))) as I. destruct (nth _ (law c) _) as [w x]. eapply H, I.
  Qed.
  Lemma make_branch {A} (l : list (Q * A)) s : (2 <= length l)%nat -> positive (map fst l) -> total (map fst l) == 1 ->
    exists u g i, drawf Or (RUniform 0 1) 1 (rng s) = (Ok [u], g) /\ falls (map fst l) u i /\ (i < length l)%nat /\
      make Or (branches l) s = (Ok (PInt (Z.of_nat i)), mkState g (corr s)).
  Proof.
    intros H2 P T. destruct (rd_u Or N ahead R (rng s)) as (u & g & D & U & _). set (m := law (branches l)).
    assert (Em : map fst m = map fst l) by apply branches_fst. assert (Lm : length m = length l) by apply branches_length.
    assert (Pm : positive (map fst m)) by now rewrite Em.
    assert (Hw : map fst l <> []) by (intros X; apply (f_equal (@length Q)) in X; rewrite map_length in X; cbn in X; lia).
    destruct (small_pick_total (map fst l) u Hw) as (i & I & B). rewrite map_length in B. apply (falls_small _ _ _ (positive_nn _ P)) in I.
    exists u, g, i. split; [exact D|]. split; [exact I|]. split; [exact B|].
    assert (C : cat_list (map (fun e => IPair (Num (fst e)) (snd e)) m) = Ok (map fst m, map (fun e => IPlain (snd e)) m)).
    { pose proof (pairs_processed m ltac:(intros X; rewrite X in Lm; cbn in Lm; lia) (positive_nn _ Pm) ltac:(rewrite Em; lra) ltac:(rewrite Em; lra)) as C.
      unfold positive_entries in C. now rewrite (pairs_kept m Pm) in C. }
    assert (S : smp Or (ODist (DLeaf (LCatList (map (fun e => IPair (Num (fst e)) (snd e)) m)) None None)) 1 None None s = (Ok (Scalar (PInt (Z.of_nat i))), mkState g (corr s))).
    { apply (discrete_values Or RL _ _ _ 1 s _ _ (or_introl (ex_intro _ _ (conj eq_refl C)))); [lia|rewrite map_length; lia|].
      exists [u], [PInt (Z.of_nat i)]. split; [|split].
      - unfold SpecDiscrete.uniform_draws. cbn. econstructor; [exact D|constructor].
      - constructor; [|constructor]. exists i, (IPlain (PInt (Z.of_nat i))). rewrite Em. split; [exact I|]. split; [lia|]. split; [|reflexivity].
        rewrite nth_error_map, (nth_error_nth' m (0, PNone)) by lia. cbn [option_map]. do 2 f_equal. now apply branches_nth.
      - now rewrite one_array. }
    unfold make. cbn [branches]. unfold one, bindS. cbn [branches law] in m. fold m. rewrite S. reflexivity.
  Qed.
  Lemma expr_run e : sound e -> forall s, exists v x s', smp Or (obj_of e) 1 None None s = (Ok (Scalar v), s') /\ run Or (prog_of e) s = (Ok x, s') /\ plain v x.
  Proof.
    induction e as [x|c|o a b IHa IHb|l IH] using dexp_rect'; intros S s.
    - exists (PFlt (Fin x)), x, s. split; [apply sample_lit; lia|]. split; [reflexivity|]. cbn. reflexivity.
    - destruct S as (P & Ne & V). destruct (run_total Or N ahead HN RL R (Choose c (fun v => Return v)) 1 (length (law c)) s) as (v & s' & E & _).
      { split; [exact P|]. exists 0%nat, 0%nat. repeat split. lia. }
      cbn [run] in E. unfold bindS in E. destruct (make Or c s) as [[v'|e] t] eqn:M; [|discriminate]. cbn in E. inversion E; subst.
      exists v, (value v), s'. split; [now apply make_leaf|]. split; [cbn [prog_of run]; unfold bindS; rewrite M; reflexivity|]. eapply value_plain; eauto.
    - destruct S as [Sa Sb]. destruct (IHa Sa s) as (u & x & s1 & A & Ra & Pa). destruct (IHb Sb s1) as (w & y & s2 & B & Rb & Pb).
      destruct (one_two o a b s x y u w s1 s2 A Pa B Pb) as (v & E & Pv). exists v, (exact o x y), s2. split; [exact E|]. split; [|exact Pv].
      cbn [prog_of]. rewrite (run_after Or), Ra, (run_after Or), Rb. reflexivity.
    - destruct S as (H2 & P & T & S). apply sound_parts in S. destruct (make_branch l s H2 P T) as (u & g & i & D & F & B & M).
      destruct (nth_error l i) as [e|] eqn:E; [|apply nth_error_None in E; lia]. apply nth_error_In in E as Ie.
      rewrite Forall_forall in IH, S. destruct (IH e Ie (S e Ie) (mkState g (corr s))) as (v & x & s' & A & Ra & Pa).
      exists v, x, s'. split; [|split; [|exact Pa]].
      + cbn [obj_of]. apply (one_sample Or RL (map fst l) (map (fun e => obj_of (snd e)) l) s u g i (obj_of (snd e)) v s'); [|rewrite map_length; lia|exact D|exact F|now rewrite nth_error_map, E|exact A].
        split; [now rewrite !map_length|]. split; [exact P|]. lra.
      + cbn [prog_of run]. unfold bindS. rewrite M. cbn beta iota. rewrite Nat2Z.id.
        assert (nth i (map (fun e => prog_of (snd e)) l) (Return 0) = prog_of (snd e)) as -> by (apply nth_error_nth; now rewrite nth_error_map, E). exact Ra.
  Qed.
  Lemma expr_in e P s : sound e -> of_numbers P -> sample_in Or (obj_of e) P s = ends_in Or (prog_of e) P s.
  Proof.
    intros S HP. destruct (expr_run e S s) as (v & x & s' & A & B & V). unfold sample_in, ends_in. rewrite A, B. cbn [fst]. apply HP.
    destruct v as [z|[q| | |]| | |]; cbn in *; try contradiction; exact V.
  Qed.
  Lemma expr_share e P ss : sound e -> of_numbers P -> each_once N (draws e) (map (coming Or ahead (draws e)) ss) ->
    Qabs (qnat (count (sample_in Or (obj_of e) P) ss) / qnat (N ^ draws e) - chance (prog_of e) P) <= qnat (outcomes e) / qnat N.
  Proof.
    intros S HP Eo. rewrite (count_same2 _ (ends_in Or (prog_of e) P)) by (intros s; now apply expr_in).
    apply (share_of_runs Or N ahead HN RL R); [now apply fits_prog|exact Eo].
  Qed.
End Runs.

(** Exact laws. *)
Lemma chance_after {A B} (p : prog A) (k : A -> prog B) P : chance (after p k) P == expect p (fun a => chance (k a) P).
Proof. induction p as [a|c next IH]; cbn [after chance expect]; [reflexivity|]. apply weigh_ext. intros w v _. apply IH. Qed.
Lemma combined o a b P : chance (prog_of (XOp o a b)) P == expect (prog_of a) (fun x => chance (prog_of b) (fun y => P (exact o x y))).
Proof. cbn [prog_of]. rewrite chance_after. apply expect_ext. intros x. rewrite chance_after, expect_chance. reflexivity. Qed.
Lemma expect_op o a b f : expect (prog_of (XOp o a b)) f == expect (prog_of a) (fun x => expect (prog_of b) (fun y => f (exact o x y))).
Proof. cbn [prog_of]. rewrite expect_after. apply expect_ext. intros x. rewrite expect_after. reflexivity. Qed.
Lemma expect_scale {A} (p : prog A) f x : expect p (fun a => x * f a) == x * expect p f.
Proof. rewrite (expect_ext p _ (fun a => x * f a + 0 * f a)) by (intros; ring). rewrite expect_linear. ring. Qed.
Lemma expect_shift (p : prog Q) f x L c : fits p L c -> expect p (fun a => x + f a) == x + expect p f.
Proof. intros F. rewrite (expect_ext p _ (fun a => x * 1 + 1 * f a)) by (intros; ring). rewrite expect_linear, (expect_const p 1 L c F). ring. Qed.
Lemma means a b : sound a -> sound b -> expected (XOp BSum a b) == expected a + expected b /\ expected (XOp BDiff a b) == expected a - expected b /\
  expected (XOp BProd a b) == expected a * expected b.
Proof.
  intros Sa Sb. pose proof (fits_prog a Sa) as Fa. pose proof (fits_prog b Sb) as Fb. unfold expected. rewrite !expect_op. cbn [exact]. split; [|split].
  - rewrite (expect_ext (prog_of a) _ (fun x => expected b + x)). { rewrite (expect_shift _ _ _ _ _ Fa). unfold expected. ring. }
    intros x. rewrite (expect_shift _ (fun y => y) x _ _ Fb). unfold expected. ring.
  - rewrite (expect_ext (prog_of a) _ (fun x => - expected b + x)). { rewrite (expect_shift _ _ _ _ _ Fa). unfold expected. ring. }
    intros x. rewrite (expect_ext (prog_of b) _ (fun y => x + -(1) * y)) by (intros; ring). rewrite (expect_shift _ (fun y => -(1) * y) x _ _ Fb), expect_scale. unfold expected. ring.
  - rewrite (expect_ext (prog_of a) _ (fun x => expected b * x)). { rewrite expect_scale. unfold expected. ring. }
    intros x. rewrite expect_scale. unfold expected. ring.
Qed.
Lemma squares a b (f g : Q -> Q) : sound a -> sound b -> expect (prog_of a) f == 0 -> expect (prog_of b) g == 0 ->
  expect (prog_of a) (fun x => expect (prog_of b) (fun y => (f x + g y) * (f x + g y))) == expect (prog_of a) (fun x => f x * f x) + expect (prog_of b) (fun y => g y * g y).
Proof.
  intros Sa Sb Ea Eb. pose proof (fits_prog a Sa) as Fa. pose proof (fits_prog b Sb) as Fb.
  rewrite (expect_ext (prog_of a) _ (fun x => expect (prog_of b) (fun y => g y * g y) + f x * f x)). { rewrite (expect_shift _ _ _ _ _ Fa). ring. }
  intros x. rewrite (expect_ext (prog_of b) _ (fun y => f x * f x + (1 * (g y * g y) + (2 * f x) * g y))) by (intros; ring).
  rewrite (expect_shift _ (fun y => 1 * (g y * g y) + (2 * f x) * g y) _ _ _ Fb), expect_linear, Eb. ring.
Qed.
Lemma centred e : sound e -> expect (prog_of e) (fun x => x - expected e) == 0.
Proof. intros S. rewrite (expect_ext _ _ (fun x => - expected e + x)) by (intros; ring). rewrite (expect_shift _ _ _ _ _ (fits_prog e S)). unfold expected. ring. Qed.
Lemma variances a b : sound a -> sound b -> variance (XOp BSum a b) == variance a + variance b /\ variance (XOp BDiff a b) == variance a + variance b.
Proof.
  intros Sa Sb. destruct (means a b Sa Sb) as (M1 & M2 & _). unfold variance. rewrite !expect_op. cbn [exact]. split.
  - rewrite <- (squares a b _ _ Sa Sb (centred a Sa) (centred b Sb)). apply expect_ext. intros x. apply expect_ext. intros y. rewrite M1. ring.
  - assert (Z : expect (prog_of b) (fun y => -(1) * (y - expected b)) == 0) by (rewrite expect_scale, (centred b Sb); ring).
    rewrite (expect_ext (prog_of b) (fun x => (x - expected b) * (x - expected b)) (fun y => (-(1) * (y - expected b)) * (-(1) * (y - expected b)))) by (intros; ring).
    rewrite <- (squares a b _ _ Sa Sb (centred a Sa) Z). apply expect_ext. intros x. apply expect_ext. intros y. rewrite M2. ring.
Qed.
Lemma weigh_branches (f : Q * dexp -> Q) (h : pv -> Q) : forall (l : list (Q * dexp)) k,
  (forall i e, nth_error l i = Some e -> h (PInt (Z.of_nat (k + i))) == f e) ->
  weigh (combine (map fst l) (map (fun i => PInt (Z.of_nat i)) (seq k (length l)))) h == total (map (fun e => fst e * f e) l).
Proof.
  induction l as [|e l IH]; intros k H; cbn [map length seq combine weigh total fold_right]; [reflexivity|]. rewrite (IH (S k)).
  - rewrite <- (H 0%nat e eq_refl), Nat.add_0_r. reflexivity.
  - intros i x E. rewrite <- (H (S i) x E). replace (k + S i)%nat with (S k + i)%nat by lia. reflexivity.
Qed.
Lemma mixed l P : chance (prog_of (XMix l)) P == total (map (fun e => fst e * chance (prog_of (snd e)) P) l).
Proof.
  cbn [prog_of chance branches law]. apply (weigh_branches (fun e => chance (prog_of (snd e)) P)). intros i e E. cbn [Nat.add]. rewrite Nat2Z.id.
  assert (nth i (map (fun e => prog_of (snd e)) l) (Return 0) = prog_of (snd e)) as -> by (apply nth_error_nth; now rewrite nth_error_map, E). reflexivity.
Qed.
Lemma mixed_mean l : expected (XMix l) == total (map (fun e => fst e * expected (snd e)) l).
Proof.
  unfold expected. cbn [prog_of expect branches law]. apply (weigh_branches (fun e => expect (prog_of (snd e)) (fun x => x))). intros i e E. cbn [Nat.add]. rewrite Nat2Z.id.
  assert (nth i (map (fun e => prog_of (snd e)) l) (Return 0) = prog_of (snd e)) as -> by (apply nth_error_nth; now rewrite nth_error_map, E). reflexivity.
Qed.
Lemma same_twice e : sound e -> expected (XOp BDiff e e) == 0 /\ variance (XOp BDiff e e) == 2 * variance e /\ variance (XOp BSum e e) == 2 * variance e.
Proof.
  intros S. destruct (means e e S S) as (_ & M & _). destruct (variances e e S S) as (V1 & V2). rewrite M, V1, V2. split; [ring|]. split; ring.
Qed.
Lemma constant_parts x e : sound e -> expected (XOp BProd (XNum x) e) == x * expected e /\ variance (XOp BProd (XNum x) e) == x * x * variance e /\
  variance (XOp BSum (XNum x) e) == variance e.
Proof.
  intros S. assert (Sx : sound (XNum x)) by exact I. destruct (means _ e Sx S) as (_ & _ & M). destruct (variances _ e Sx S) as (V & _).
  assert (E : expected (XNum x) == x) by reflexivity. split; [rewrite M, E; reflexivity|]. split.
  - unfold variance. rewrite expect_op. cbn [prog_of expect exact]. rewrite <- expect_scale. apply expect_ext. intros y. rewrite M, E. ring.
  - rewrite V. unfold variance at 1. cbn [prog_of expect]. rewrite E. ring.
Qed.
