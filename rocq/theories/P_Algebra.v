(** Laws of arithmetic for distributions (C196). *)
From Coq Require Import Qabs ZArith Lia Lqa.
From Verif Require Import Base M_Weights M_Values M_Sampler M_Ops SpecWeights SpecSampler SpecOps SpecShare P_Support P_Program P_Program2 P_Large P_Indep P_Columns P_Columns2.
From Verif Require Import M_SampleApi M_Bayesnet SpecBayes SpecProgram SpecLarge SpecIndep SpecColumns SpecAlgebra.
Open Scope Q_scope.

Lemma qlt_same x x' y y' : x == x' -> y == y' -> Qlt_bool x y = Qlt_bool x' y'.
Proof. intros X Y. apply Bool.eq_true_iff_eq. rewrite !qlt_true, X, Y. reflexivity. Qed.
Lemma exact_same o x x' y y' : x == x' -> y == y' -> exact o x y == exact o x' y'.
Proof.
  intros X Y. destruct o; cbn [exact]; try (rewrite X, Y; reflexivity).
  - rewrite (qlt_same x x' y y' X Y). destruct (Qlt_bool x' y'); assumption.
  - rewrite (qlt_same y y' x x' Y X). destruct (Qlt_bool y' x'); assumption.
Qed.
Lemma numeric_right f o x : numeric f -> numeric (fun y => f (exact o x y)).
Proof. intros H y y' E. apply H, exact_same; [reflexivity|exact E]. Qed.
Lemma numeric_expect f o b : numeric f -> numeric (fun x => expect (prog_of b) (fun y => f (exact o x y))).
Proof. intros H x x' E. apply expect_ext. intros y. apply H, exact_same; [exact E|reflexivity]. Qed.
Lemma same_refl a : same_law a a.
Proof. intros f _. reflexivity. Qed.
Lemma same_sym a b : same_law a b -> same_law b a.
Proof. intros H f N. symmetry. now apply H. Qed.
Lemma same_trans a b c : same_law a b -> same_law b c -> same_law a c.
Proof. intros H K f N. rewrite (H f N). now apply K. Qed.
Lemma same_op o a a' b b' : same_law a a' -> same_law b b' -> same_law (XOp o a b) (XOp o a' b').
Proof.
  intros Ha Hb f N. rewrite !expect_op. rewrite (Ha _ (numeric_expect f o b N)). apply expect_ext. intros x. apply Hb. now apply numeric_right.
Qed.
Lemma expect_mix l f : expect (prog_of (XMix l)) f == total (map (fun e => fst e * expect (prog_of (snd e)) f) l).
Proof.
  cbn [prog_of expect branches law]. apply (weigh_branches (fun e => expect (prog_of (snd e)) f)). intros i e E. cbn [Nat.add]. rewrite Nat2Z.id.
  assert (nth i (map (fun e => prog_of (snd e)) l) (Return 0) = prog_of (snd e)) as -> by (apply nth_error_nth; now rewrite nth_error_map, E). reflexivity.
Qed.
Lemma same_mix l l' : Forall2 (fun e e' => fst e == fst e' /\ same_law (snd e) (snd e')) l l' -> same_law (XMix l) (XMix l').
Proof.
  intros F f N. rewrite !expect_mix. induction F as [|e e' l l' [W H] F IH]; [reflexivity|]. cbn [map total fold_right]. change (fold_right Qplus 0) with total. unfold total in *. cbn [fold_right]. rewrite IH, W, (H f N). reflexivity.
Qed.
(** Reordering operands. *)
Lemma exact_comm o x y : o <> BDiff -> exact o x y == exact o y x.
Proof.
  intros H. destruct o; cbn [exact]; try ring; try congruence; destruct (Qlt_bool x y) eqn:A, (Qlt_bool y x) eqn:B; try reflexivity;
    repeat match goal with X : Qlt_bool _ _ = true |- _ => apply qlt_true in X | X : Qlt_bool _ _ = false |- _ => apply qlt_false in X end; lra.
Qed.
Lemma exact_assoc o x y z : o <> BDiff -> exact o (exact o x y) z == exact o x (exact o y z).
Proof.
  intros H. destruct o; cbn [exact]; try ring; try congruence.
  - destruct (Qlt_bool x y) eqn:A, (Qlt_bool y z) eqn:B; try reflexivity; try rewrite A; try rewrite B; try reflexivity; destruct (Qlt_bool x z) eqn:C; try reflexivity;
    repeat match goal with X : Qlt_bool _ _ = true |- _ => apply qlt_true in X | X : Qlt_bool _ _ = false |- _ => apply qlt_false in X end; lra.
  - destruct (Qlt_bool y x) eqn:A, (Qlt_bool z y) eqn:B; try reflexivity; try rewrite A; try rewrite B; try reflexivity; destruct (Qlt_bool z x) eqn:C; try reflexivity;
    repeat match goal with X : Qlt_bool _ _ = true |- _ => apply qlt_true in X | X : Qlt_bool _ _ = false |- _ => apply qlt_false in X end; lra.
Qed.
Lemma op_comm o a b : o <> BDiff -> same_law (XOp o a b) (XOp o b a).
Proof.
  intros H f N. rewrite !expect_op, swap. apply expect_ext. intros y. apply expect_ext. intros x. apply N. now apply exact_comm.
Qed.
Lemma op_assoc o a b c : o <> BDiff -> same_law (XOp o (XOp o a b) c) (XOp o a (XOp o b c)).
Proof.
  intros H f N. rewrite !expect_op. apply expect_ext. intros x. rewrite expect_op. apply expect_ext. intros y. apply expect_ext. intros z. apply N. now apply exact_assoc.
Qed.
(** Numbers. *)
Lemma op_units a : same_law (XOp BSum (XNum 0) a) a /\ same_law (XOp BProd (XNum 1) a) a /\ same_law (XOp BDiff a (XNum 0)) a.
Proof. split; [|split]; intros f N; rewrite expect_op; cbn [prog_of expect exact]; apply expect_ext; intros y; apply N; ring. Qed.
Lemma op_zero a : sound a -> same_law (XOp BProd (XNum 0) a) (XNum 0).
Proof.
  intros S f N. rewrite expect_op. cbn [prog_of expect exact]. rewrite (expect_ext _ _ (fun _ => f 0)) by (intros y; apply N; ring). apply (expect_const _ _ _ _ (fits_prog a S)).
Qed.
Lemma op_numbers o x y : same_law (XOp o (XNum x) (XNum y)) (XNum (exact o x y)).
Proof. intros f N. reflexivity. Qed.
Lemma op_difference a b : same_law (XOp BDiff a b) (XOp BSum a (XOp BProd (XNum (-(1))) b)).
Proof. intros f N. rewrite !expect_op. apply expect_ext. intros x. rewrite expect_op. cbn [prog_of expect exact]. apply expect_ext. intros y. apply N. ring. Qed.
Lemma num_op o x a f : expect (prog_of (XOp o (XNum x) a)) f == expect (prog_of a) (fun y => f (exact o x y)).
Proof. rewrite expect_op. reflexivity. Qed.
Lemma op_factor x a b : same_law (XOp BProd (XNum x) (XOp BSum a b)) (XOp BSum (XOp BProd (XNum x) a) (XOp BProd (XNum x) b)) /\
  same_law (XOp BProd (XNum x) (XOp BDiff a b)) (XOp BDiff (XOp BProd (XNum x) a) (XOp BProd (XNum x) b)).
Proof.
  split; intros f N; rewrite num_op, (expect_op _ a b), (expect_op _ (XOp BProd (XNum x) a)), num_op; apply expect_ext; intros y; rewrite num_op; apply expect_ext; intros z; apply N; cbn [exact]; ring.
Qed.
(** Mixtures. *)
Lemma total_scale {A} x (g : A -> Q) l : total (map (fun e => x * g e) l) == x * total (map g l).
Proof. induction l as [|a l IH]; cbn [map total fold_right]; [ring|]. unfold total in *. cbn [fold_right]. rewrite IH. ring. Qed.
Lemma total_ext {A} (g h : A -> Q) l : (forall a, g a == h a) -> total (map g l) == total (map h l).
Proof. intros H. induction l as [|a l IH]; [reflexivity|]. cbn [map]. unfold total in *. cbn [fold_right]. now rewrite IH, H. Qed.
Lemma mix_op o l b : same_law (XOp o (XMix l) b) (XMix (each_with o l b)).
Proof.
  intros f N. rewrite expect_op, !expect_mix. unfold each_with. rewrite map_map. apply total_ext. intros e. cbn [fst snd]. now rewrite expect_op.
Qed.
Lemma mix_same l a : total (map fst l) == 1 -> (forall e, In e l -> same_law (snd e) a) -> same_law (XMix l) a.
Proof.
  intros T H f N. rewrite expect_mix. assert (X : total (map (fun e => fst e * expect (prog_of (snd e)) f) l) == expect (prog_of a) f * total (map fst l)); [|rewrite X, T; ring].
  clear T. induction l as [|e l IH]; cbn [map]; [unfold total; cbn; ring|]. unfold total in *. cbn [fold_right]. rewrite IH by (intros; apply H; now right). rewrite (H e (or_introl eq_refl) f N). ring.
Qed.
Lemma mix_nested w l l' : same_law (XMix ((w, XMix l) :: l')) (XMix (each_scaled w l ++ l')).
Proof.
  intros f N. rewrite (expect_mix (_ :: _)), (expect_mix (_ ++ _)). rewrite map_app, total_app. cbn [map fst snd].
  assert (C : forall x m, total (x :: m) == x + total m) by (intros; reflexivity). rewrite C, expect_mix. unfold each_scaled. rewrite map_map. cbn [fst snd].
  rewrite (total_ext (fun e : Q * dexp => w * fst e * expect (prog_of (snd e)) f) (fun e => w * (fst e * expect (prog_of (snd e)) f))) by (intros; ring). rewrite total_scale. reflexivity.
Qed.
Lemma mix_order l l' : Permutation.Permutation l l' -> same_law (XMix l) (XMix l').
Proof. intros P f N. rewrite !expect_mix. apply total_perm. now apply Permutation.Permutation_map. Qed.
(** The larger and the smaller of two draws. *)
Lemma max_min a b : sound a -> sound b -> expected (XOp BMax a b) + expected (XOp BMin a b) == expected a + expected b.
Proof.
  intros Sa Sb. destruct (means a b Sa Sb) as (M & _). rewrite <- M. unfold expected. rewrite !expect_op.
  assert (X : forall (p : prog Q) f g, expect p f + expect p g == expect p (fun x => 1 * f x + 1 * g x)) by (intros; rewrite expect_linear; ring).
  rewrite X. apply expect_ext. intros x. assert (Y : forall u v, 1 * u + 1 * v == u + v) by (intros; ring). rewrite Y, X. apply expect_ext. intros y. cbn [exact].
  destruct (Qlt_bool x y) eqn:A, (Qlt_bool y x) eqn:B; try ring; repeat match goal with X : Qlt_bool _ _ = true |- _ => apply qlt_true in X | X : Qlt_bool _ _ = false |- _ => apply qlt_false in X end; lra.
Qed.
(** Same law, same samples. *)
Definition list_numeric (F : list Q -> Q) : Prop := forall xs ys, Forall2 Qeq xs ys -> F xs == F ys.
Lemma f2_refl xs : Forall2 Qeq xs xs.
Proof. induction xs; constructor; auto. reflexivity. Qed.
Lemma same_repeated a b n : same_law a b -> forall F, list_numeric F -> expect (repeated n (prog_of a)) F == expect (repeated n (prog_of b)) F.
Proof.
  intros H. induction n as [|n IH]; intros F NF; [reflexivity|]. rewrite !expect_repeated. rewrite (H (fun x => expect (repeated n (prog_of a)) (fun l => F (x :: l)))).
  - apply expect_ext. intros x. apply IH. intros xs ys E. apply NF. constructor; [reflexivity|exact E].
  - intros x y E. apply expect_ext. intros l. apply NF. constructor; [exact E|apply f2_refl].
Qed.
Section Samples.
  Variables (Or : oracle) (N : nat) (ahead : G Or -> nat -> nat).
  Hypotheses (HN : (0 < N)%nat) (RL : right_length Or) (RA : reads_all Or N ahead).
  Lemma same_samples a b n P sa sb : same_law a b -> sound a -> sound b -> (1 <= n)%nat -> of_number_lists P ->
    each_once N (n * work a) (map (coming Or ahead (n * work a)) sa) -> each_once N (n * work b) (map (coming Or ahead (n * work b)) sb) ->
    Qabs (qnat (count (samples_in Or (obj_of a) n P) sa) / qnat (N ^ (n * work a)) - qnat (count (samples_in Or (obj_of b) n P) sb) / qnat (N ^ (n * work b))) <=
      (qnat (n * spread a) + qnat (n * spread b)) / qnat N.
  Proof.
    intros H A B Hn HP Ea Eb. pose proof (samples_share Or N ahead HN RL RA a n P sa A Hn HP Ea) as X. pose proof (samples_share Or N ahead HN RL RA b n P sb B Hn HP Eb) as Y.
    assert (E : chance (repeated n (prog_of a)) P == chance (repeated n (prog_of b)) P).
    { rewrite !expect_chance. apply same_repeated; [exact H|]. intros xs ys F. rewrite (HP xs ys F). reflexivity. }
    rewrite E in X. apply Qabs_Qle_condition in X, Y. apply Qabs_Qle_condition. unfold Qdiv in *. rewrite Qmult_plus_distr_l. lra.
  Qed.
End Samples.
(** What fails. *)
Definition half : dexp := XChoice (CBernoulli (1#2)).
Lemma half_sound : sound half.
Proof. split; [cbn; lra|]. split; [discriminate|]. intros w v [H|[H|[]]]; inversion H; reflexivity. Qed.
Lemma square_numeric : numeric (fun x => x * x).
Proof. intros x y E. now rewrite E. Qed.
Lemma differ a b : ~ expect (prog_of a) (fun x => x * x) == expect (prog_of b) (fun x => x * x) -> ~ same_law a b.
Proof. intros H K. apply H, K, square_numeric. Qed.
Lemma no_distribution : exists a b c, sound a /\ sound b /\ sound c /\ ~ same_law (XOp BProd a (XOp BSum b c)) (XOp BSum (XOp BProd a b) (XOp BProd a c)).
Proof. exists half, half, half. do 3 (split; [exact half_sound|]). apply differ. vm_compute. discriminate. Qed.
Lemma no_doubling : exists a, sound a /\ ~ same_law (XOp BSum a a) (XOp BProd (XNum 2) a) /\ ~ same_law (XOp BDiff a a) (XNum 0) /\ ~ same_law (XOp BMax a a) a /\ ~ same_law (XOp BMin a a) a.
Proof. exists half. split; [exact half_sound|]. repeat split; apply differ; vm_compute; discriminate. Qed.
