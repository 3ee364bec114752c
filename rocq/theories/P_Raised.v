(** Lemmas for [Props_Raised]. *)
From Coq Require Import Qabs Lia Lqa.
From Verif Require Import Base M_Values M_Sampler M_Ops M_Double M_Ieee M_DoubleExpr SpecSampler SpecOps SpecRising SpecFloat SpecIeee SpecRaised
  P_Weights P_Support P_Round P_Double P_Ieee P_Ieee2 P_Rising.
Open Scope Q_scope.

Lemma digit_mono p q : 0 < p -> p <= q -> (last_digit p <= last_digit q)%Z.
Proof.
  intros P L. destruct (last_digit_range p P) as [A _]. destruct (last_digit_range q ltac:(lra)) as [_ B].
  destruct (Z_le_gt_dec (last_digit p) (last_digit q)) as [|G]; auto.
  pose proof (pow2_mono (last_digit q + 53) (last_digit p + 52) ltac:(lia)). lra.
Qed.
Definition pos64 (q : Q) : Q := let e := Z.max (last_digit q) (-1074) in inject_Z (round_half_even (q * pow2 (- e))) * pow2 e.
Lemma pos64_nonneg q : 0 < q -> 0 <= pos64 q.
Proof.
  intros P. destruct (k64_range q P) as [[K _] _]. unfold pos64. cbv zeta in *. apply Qmult_le_0_compat; [|apply Qlt_le_weak, pow2_pos].
  change 0 with (inject_Z 0). rewrite <- Zle_Qle. exact K.
Qed.
Lemma pos64_mono p q : 0 < p -> p <= q -> pos64 p <= pos64 q.
Proof.
  intros P L. pose proof (digit_mono p q P L) as D.
  destruct (Z.eq_dec (Z.max (last_digit p) (-1074)) (Z.max (last_digit q) (-1074))) as [E|E].
  - unfold pos64. rewrite E. cbv zeta. set (e := Z.max (last_digit q) (-1074)). pose proof (pow2_pos e). pose proof (pow2_pos (- e)).
    apply Qmult_le_compat_r; [|lra]. rewrite <- Zle_Qle. apply round_half_even_mono. apply Qmult_le_compat_r; lra.
  - assert (Q : 0 < q) by lra. destruct (k64_range p P) as [[_ K] _]. destruct (k64_range q Q) as [_ M]. unfold pos64. cbv zeta in *.
    set (e := Z.max (last_digit p) (-1074)) in *. set (f := Z.max (last_digit q) (-1074)) in *.
    set (k := round_half_even (p * pow2 (- e))) in *. set (m := round_half_even (q * pow2 (- f))) in *.
    assert (M' : (2 ^ 52 <= m)%Z) by (destruct (Z_le_gt_dec (2 ^ 52) m); auto; specialize (M ltac:(lia)); lia).
    pose proof (pow2_pos e) as Pe. pose proof (pow2_pos f) as Pf.
    apply Qle_trans with (inject_Z (2 ^ 53) * pow2 e); [apply Qmult_le_compat_r; [now rewrite <- Zle_Qle|lra]|].
    apply Qle_trans with (inject_Z (2 ^ 52) * pow2 f); [|apply Qmult_le_compat_r; [now rewrite <- Zle_Qle|lra]].
    pose proof (pow2_mono (e + 1) f ltac:(lia)) as G. rewrite pow2_plus in G. change (pow2 1) with 2 in G.
    change (inject_Z (2 ^ 53)) with (inject_Z (2 ^ 52 * 2)). rewrite inject_Z_mult. change (inject_Z 2) with 2.
    setoid_replace (inject_Z (2 ^ 52) * 2 * pow2 e) with (pow2 e * 2 * inject_Z (2 ^ 52)) by ring. rewrite (Qmult_comm (inject_Z (2 ^ 52))).
    apply Qmult_le_compat_r; [exact G|vm_compute; discriminate].
Qed.
Lemma round64_pos_below p q : 0 < p -> p <= q -> xbelow (round64_pos p) (round64_pos q).
Proof.
  intros P L. pose proof (pos64_mono p q P L) as M. unfold round64_pos. fold (pos64 p). fold (pos64 q). cbv zeta.
  destruct (Qlt_bool (pos64 p) (pow2 1024)) eqn:A; destruct (Qlt_bool (pos64 q) (pow2 1024)) eqn:B; cbn [xbelow]; auto.
  apply qlt_false in A. apply qlt_true in B. lra.
Qed.
Lemma round64_pos_above q : 0 < q -> xbelow (Fin 0) (round64_pos q).
Proof.
  intros P. pose proof (pos64_nonneg q P) as N. unfold round64_pos. fold (pos64 q). cbv zeta. destruct (Qlt_bool (pos64 q) (pow2 1024)); cbn [xbelow]; auto.
Qed.
Lemma xneg_below a b : xbelow a b -> xbelow (xneg b) (xneg a).
Proof. destruct a, b; cbn [xbelow xneg]; intros; auto; lra. Qed.
Lemma xbelow_trans a b c : xbelow a b -> xbelow b c -> xbelow a c.
Proof. destruct a, b, c; cbn [xbelow]; intros; auto; try contradiction; lra. Qed.
Lemma round64_fin_below p q : p <= q -> xbelow (round64 (Fin p)) (round64 (Fin q)).
Proof.
  intros L. assert (Z : xbelow (Fin 0) (Fin 0)) by (cbn; lra).
  destruct (round64_cases p) as [[A ->]|[[A ->]|[A ->]]]; destruct (round64_cases q) as [[B ->]|[[B ->]|[B ->]]]; try lra; auto.
  - now apply round64_pos_above.
  - now apply round64_pos_below.
  - pose proof (round64_pos_above (- p) ltac:(lra)) as N. apply xneg_below in N. exact N.
  - pose proof (round64_pos_above (- p) ltac:(lra)) as N. apply xneg_below in N. eapply xbelow_trans; [exact N|]. change (- 0) with 0. now apply round64_pos_above.
  - apply xneg_below, round64_pos_below; lra.
Qed.
Lemma round64_below a b : not_above a b -> not_above (round64 a) (round64 b).
Proof.
  intros [->|[->|H]]; [now left|now right; left|]. destruct a, b; cbn [xbelow] in H; try contradiction; right; right; try exact I.
  - now apply round64_fin_below.
  - destruct (round64_cases q) as [[A ->]|[[A ->]|[A ->]]]; try exact I.
    + pose proof (round64_pos_above q A) as N. destruct (round64_pos q); exact I || contradiction.
    + pose proof (round64_pos_above (- q) ltac:(lra)) as N. destruct (round64_pos (- q)); exact I || contradiction.
  - destruct (round64_cases q) as [[A ->]|[[A ->]|[A ->]]]; try exact I.
    + pose proof (round64_pos_above q A) as N. destruct (round64_pos q); exact I || contradiction.
    + pose proof (round64_pos_above (- q) ltac:(lra)) as N. destruct (round64_pos (- q)); exact I || contradiction.
Qed.

Lemma nan_left o b : fl_op o NaN b = NaN.
Proof. destruct o, b; reflexivity. Qed.
Lemma nan_right o a : fl_op o a NaN = NaN.
Proof. destruct o, a; reflexivity. Qed.
Ltac sides := unfold not_above; cbn [xbelow]; auto.
Lemma add_below a a' b b' : xbelow a a' -> xbelow b b' -> not_above (xadd a b) (xadd a' b').
Proof. destruct a, a'; cbn [xbelow]; intros A; try contradiction; destruct b, b'; cbn [xbelow]; intros B; try contradiction; cbn [xadd]; sides. right; right; lra. Qed.
Lemma sub_below a a' b b' : xbelow a a' -> xbelow b' b -> not_above (xsub a b) (xsub a' b').
Proof. intros A B. unfold xsub. apply add_below; auto. now apply xneg_below. Qed.
Lemma sign_cases q : (q == 0 /\ qsign q = Datatypes.Eq) \/ (0 < q /\ qsign q = Datatypes.Gt) \/ (q < 0 /\ qsign q = Datatypes.Lt).
Proof. unfold qsign. destruct (Qcompare_spec q 0); auto. Qed.
Lemma mul_below a a' b b' : xbelow (Fin 0) a -> xbelow (Fin 0) b -> xbelow a a' -> xbelow b b' -> not_above (xmul a b) (xmul a' b').
Proof.
  intros A0 B0. destruct a as [x| | |]; cbn [xbelow] in A0; try contradiction; destruct a' as [x'| | |]; cbn [xbelow]; intros A; try contradiction;
  destruct b as [y| | |]; cbn [xbelow] in B0; try contradiction; destruct b' as [y'| | |]; cbn [xbelow]; intros B; try contradiction; cbn [xmul];
  repeat match goal with |- context [qsign ?q] => let S := fresh "S" in destruct (sign_cases q) as [[S ->]|[[S ->]|[S ->]]] end; cbn [xscale_inf xneg]; sides; try lra.
  right; right. apply Qle_trans with (x' * y); [apply Qmult_le_compat_r; auto|]. rewrite !(Qmult_comm x'). apply Qmult_le_compat_r; lra.
Qed.
Lemma div_below a a' b b' : xbelow (Fin 0) a -> xbelow (Fin 0) b' -> xbelow a a' -> xbelow b' b -> not_above (xdiv a b) (xdiv a' b').
Proof.
  intros A0 B0. destruct a as [x| | |]; cbn [xbelow] in A0; try contradiction; destruct a' as [x'| | |]; cbn [xbelow]; intros A; try contradiction;
  destruct b' as [y'| | |]; cbn [xbelow] in B0; try contradiction; destruct b as [y| | |]; cbn [xbelow]; intros B; try contradiction; cbn [xdiv];
  repeat match goal with |- context [Qeq_bool ?q 0] => let S := fresh "S" in destruct (Qeq_bool q 0) eqn:S; [apply Qeq_bool_eq in S|apply Qeq_bool_neq in S] end;
  repeat match goal with |- context [qsign ?q] => let S := fresh "S" in destruct (sign_cases q) as [[S ->]|[[S ->]|[S ->]]] end; cbn [xscale_inf xneg]; sides; try lra;
  right; right.
  - assert (P' : 0 < y') by (destruct (Qlt_le_dec 0 y') as [|N]; auto; exfalso; apply S0; lra). assert (P : 0 < y) by lra.
    apply Qle_shift_div_r; [exact P|]. assert (D : 0 <= x' / y') by (apply Qle_shift_div_l; lra).
    assert (E : x' == x' / y' * y') by (field; auto). apply Qle_trans with (x' / y' * y'); [lra|]. rewrite !(Qmult_comm (x' / y')). apply Qmult_le_compat_r; auto.
  - assert (P' : 0 < y') by (destruct (Qlt_le_dec 0 y') as [|N]; auto; exfalso; apply S; lra). apply Qle_shift_div_l; lra.
Qed.
(** What each operator asks of its operands. *)
Definition asks (o : fop) (a a' b b' : xnum) : Prop :=
  match o with
  | FPlus | FMinus => True
  | FTimes | FOver => not_above (Fin 0) a /\ not_above (Fin 0) a' /\ not_above (Fin 0) b /\ not_above (Fin 0) b'
  end.
Definition turned (o : fop) (b b' : xnum) : Prop := match o with FPlus | FTimes => not_above b b' | _ => not_above b' b end.
Lemma op_below o a a' b b' : asks o a a' b b' -> not_above a a' -> turned o b b' -> not_above (fl_op o a b) (fl_op o a' b').
Proof.
  intros K A B.
  assert (N : a = NaN \/ a' = NaN \/ b = NaN \/ b' = NaN \/ (xbelow a a' /\ match o with FPlus | FTimes => xbelow b b' | _ => xbelow b' b end)).
  { destruct A as [A|[A|A]]; auto. destruct o; cbn [turned] in B; destruct B as [B|[B|B]]; auto 6. }
  destruct N as [->|[->|[->|[->|[A' B']]]]].
  - left. apply nan_left.
  - right. left. apply nan_left.
  - left. apply nan_right.
  - right. left. apply nan_right.
  - unfold fl_op. apply round64_below.
    assert (Z : forall c, not_above (Fin 0) c -> c = NaN \/ xbelow (Fin 0) c) by (intros c [H|[H|H]]; [discriminate|now left|now right]).
    destruct o; cbn [asks] in K.
    + now apply add_below.
    + now apply sub_below.
    + destruct K as (K1 & _ & K3 & _). apply Z in K1. apply Z in K3.
      destruct K1 as [->|K1]; [now destruct a'|]. destruct K3 as [->|K3]; [now destruct b'|]. now apply mul_below.
    + destruct K as (K1 & _ & _ & K4). apply Z in K1. apply Z in K4.
      destruct K1 as [->|K1]; [now destruct a'|]. destruct K4 as [->|K4]; [now destruct b|]. now apply div_below.
Qed.
Lemma ops_below o : forall la la', Forall2 not_above la la' -> forall lb lb', (match o with FPlus | FTimes => Forall2 not_above lb lb' | _ => Forall2 not_above lb' lb end) ->
  (match o with FTimes | FOver => Forall (not_above (Fin 0)) la /\ Forall (not_above (Fin 0)) la' /\ Forall (not_above (Fin 0)) lb /\ Forall (not_above (Fin 0)) lb' | _ => True end) ->
  Forall2 not_above (map (fun p => fl_op o (fst p) (snd p)) (combine la lb)) (map (fun p => fl_op o (fst p) (snd p)) (combine la' lb')).
Proof.
  intros la la' A. induction A as [|a a' la la' A0 A IH]; intros lb lb' B K; [constructor|].
  destruct lb as [|b lb], lb' as [|b' lb']; try (destruct o; inversion B; fail); [constructor|].
  cbn [combine map fst snd]. constructor.
  - apply op_below; auto.
    + destruct o; cbn [asks]; auto; destruct K as (K1 & K2 & K3 & K4); inversion K1; inversion K2; inversion K3; inversion K4; auto.
    + destruct o; cbn [turned]; inversion B; auto.
  - apply IH.
    + destruct o; inversion B; auto.
    + destruct o; auto; destruct K as (K1 & K2 & K3 & K4); inversion K1; inversion K2; inversion K3; inversion K4; auto.
Qed.
Lemma doubles_below : forall l xs, Forall2 plain l xs -> forall l' xs', Forall2 plain l' xs' -> Forall2 Qle xs xs' ->
  exists zs zs', doubles l = Ok zs /\ doubles l' = Ok zs' /\ Forall2 not_above zs zs'.
Proof.
  assert (A : forall p x, plain p x -> exists q, as_x p = Some (Fin q) /\ q == x).
  { intros p x P. destruct p as [z|[q| | |]| | |]; cbn in P; try contradiction; eexists; (split; [reflexivity|exact P]). }
  intros l xs P. induction P as [|p x l xs P0 P IH]; intros l' xs' P' L; inversion L; subst; inversion P'; subst.
  - exists [], []. repeat split; constructor.
  - destruct (IH _ _ ltac:(eassumption) ltac:(eassumption)) as (zs & zs' & E & E' & F). destruct (A _ _ P0) as (q & Eq1 & Q1).
    match goal with H : plain _ _ |- _ => destruct (A _ _ H) as (q' & Eq2 & Q2) end.
    cbn [doubles]. rewrite Eq1, Eq2, E, E'. do 2 eexists. split; [reflexivity|]. split; [reflexivity|]. constructor; [|exact F].
    apply round64_below. right. right. cbn [xbelow]. rewrite Q1, Q2. assumption.
Qed.

Section Run.
  Variable Or : oracle.
  Lemma raised_below n e e' : raised Or n e e' -> fl_never_above Or n e e'.
  Proof.
    assert (Inv : forall o a b s zs s', fl_run Or (FExp o a b) n s = (Ok zs, s') ->
      exists xs s1 ys, fl_run Or a n s = (Ok xs, s1) /\ fl_run Or b n s1 = (Ok ys, s') /\ zs = map (fun p => fl_op o (fst p) (snd p)) (combine xs ys)).
    { intros o a b s zs s' H. cbn [fl_run] in H. unfold bindS in H. destruct (fl_run Or a n s) as [[xs|] s1] eqn:A; [|discriminate].
      destruct (fl_run Or b n s1) as [[ys|] s2] eqn:B; [|discriminate]. inversion H; subst. exists xs, s1, ys. auto. }
    intros H. induction H as [d d' N|a a' b b' A IHA B IHB|a a' b b' A IHA B IHB|a a' b b' N1 N2 N3 N4 A IHA B IHB|a a' b b' N1 N2 N3 N4 A IHA B IHB]; intros s zs zs' s1 s2 R R'.
    1: { cbn [fl_run] in R, R'. unfold bindS, lift in R, R'.
      destruct (smp Or d n None None s) as [[v|] t] eqn:E; [|discriminate]. destruct (smp Or d' n None None s) as [[v'|] t'] eqn:E'; [|discriminate].
      destruct (N s v v' t t' E E') as ((xs & xs' & [_ P] & [_ P'] & L) & <-).
      destruct (doubles_below _ _ P _ _ P' L) as (us & us' & D & D' & F). unfold elems in D, D'. rewrite D in R. rewrite D' in R'. inversion R; inversion R'; subst. auto. }
    all: apply Inv in R as (xs & t & ys & E1 & E2 & ->); apply Inv in R' as (xs' & t' & ys' & E1' & E2' & ->);
      destruct (IHA _ _ _ _ _ E1 E1') as [FA <-].
    - destruct (IHB _ _ _ _ _ E2 E2') as [FB <-]. split; [|reflexivity]. now apply ops_below.
    - destruct (IHB _ _ _ _ _ E2' E2) as [FB <-]. split; [|reflexivity]. now apply ops_below.
    - destruct (IHB _ _ _ _ _ E2 E2') as [FB <-]. split; [|reflexivity]. apply ops_below; auto. split; [eapply N1; eauto|split; [eapply N2; eauto|split; [eapply N3; eauto|eapply N4; eauto]]].
    - destruct (IHB _ _ _ _ _ E2' E2) as [FB <-]. split; [|reflexivity]. apply ops_below; auto. split; [eapply N1; eauto|split; [eapply N2; eauto|split; [eapply N3; eauto|eapply N4; eauto]]].
  Qed.
  Lemma part_proper n d : (forall s v s', smp Or d n None None s = (Ok v, s') -> exists xs, numbers n v xs /\ Forall (Qle 0) xs) -> proper_sizes Or n (FPart d).
  Proof.
    intros N s zs s' R. cbn [fl_run] in R. unfold bindS, lift in R. destruct (smp Or d n None None s) as [[v|] t] eqn:E; [|discriminate].
    destruct (N _ _ _ E) as (xs & [_ P] & F). change (match v with Scalar x => [x] | Arr l => l end) with (elems v) in R. inversion R as [[R1 R2]]. clear -P F R1.
    revert zs R1. induction P as [|p x l xs P0 P IH]; intros zs R; cbn [doubles] in R; [inversion R; constructor|]. inversion F; subst.
    destruct p as [z|[q| | |]| | |]; cbn in P0; try contradiction; cbn [as_x] in R;
    (destruct (doubles l) as [r|] eqn:D; [|discriminate]); inversion R; subst; (constructor; [|now apply IH]);
    solve [exact (round64_fin_below 0 q ltac:(lra)) | exact (round64_fin_below 0 (inject_Z z) ltac:(lra))].
  Qed.
  Lemma proper_positive n e : proper_sizes Or n e -> no_negatives Or n e.
  Proof. intros P s zs s' R. apply P in R. eapply Forall_impl; [|exact R]. intros z Z. right. now right. Qed.
  Lemma part_positive n d : (forall s v s', smp Or d n None None s = (Ok v, s') -> exists xs, numbers n v xs /\ Forall (Qle 0) xs) -> no_negatives Or n (FPart d).
  Proof. intros N. now apply proper_positive, part_proper. Qed.
  Lemma sum_proper n a b : proper_sizes Or n a -> proper_sizes Or n b -> proper_sizes Or n (FExp FPlus a b).
  Proof.
    intros A B s zs s' H. cbn [fl_run] in H. unfold bindS in H. destruct (fl_run Or a n s) as [[xs|] s1] eqn:EA; [|discriminate].
    destruct (fl_run Or b n s1) as [[ys|] s2] eqn:EB; [|discriminate]. inversion H; subst. apply A in EA. apply B in EB. clear -EA EB. revert ys EB.
    induction EA as [|x xs X EA IH]; intros ys EB; [constructor|]. destruct EB as [|y ys Y EB]; [constructor|]. cbn [combine map fst snd]. constructor; [|now apply IH].
    destruct x as [x| | |], y as [y| | |]; cbn [xbelow] in X, Y; try contradiction; try exact I. cbn [fl_op xadd]. exact (round64_fin_below 0 (x + y) ltac:(lra)).
  Qed.
  Lemma op_positive o a b : o <> FMinus -> not_above (Fin 0) a -> not_above (Fin 0) b -> not_above (Fin 0) (fl_op o a b).
  Proof.
    intros M [A|[->|A]] [B|[->|B]]; try discriminate; try (rewrite ?nan_left, ?nan_right; right; left; reflexivity).
    change (Fin 0) with (round64 (Fin 0)). unfold fl_op. apply round64_below. destruct o; try congruence.
    - change (Fin 0) with (xadd (Fin 0) (Fin 0)). now apply add_below.
    - change (Fin 0) with (xmul (Fin 0) (Fin 0)). apply mul_below; auto; cbn; lra.
    - change (Fin 0) with (xdiv (Fin 0) PInf). apply div_below; auto; [cbn; lra|]. destruct b; cbn in *; auto.
  Qed.
  Lemma exp_positive n o a b : o <> FMinus -> no_negatives Or n a -> no_negatives Or n b -> no_negatives Or n (FExp o a b).
  Proof.
    intros M A B s zs s' H. cbn [fl_run] in H. unfold bindS in H. destruct (fl_run Or a n s) as [[xs|] s1] eqn:EA; [|discriminate].
    destruct (fl_run Or b n s1) as [[ys|] s2] eqn:EB; [|discriminate]. inversion H; subst. apply A in EA. apply B in EB. clear -M EA EB. revert ys EB.
    induction EA as [|x xs X EA IH]; intros ys EB; [constructor|]. destruct EB as [|y ys Y EB]; [constructor|]. cbn [combine map fst snd]. constructor; [now apply op_positive|now apply IH].
  Qed.
End Run.
