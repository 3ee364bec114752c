(** Stochastic order of expressions (C199). *)
From Coq Require Import Qabs ZArith Lia Lqa.
From Verif Require Import Base M_Weights M_Values M_Sampler M_Ops SpecWeights SpecSampler SpecOps SpecShare P_Support P_Count P_Ops P_Program P_Program2 P_Large P_Indep P_Columns P_Columns2 P_Algebra P_Compare.
From Verif Require Import M_SampleApi M_Bayesnet SpecBayes SpecProgram SpecLarge SpecIndep SpecColumns SpecAlgebra SpecCompare SpecStochastic.
Open Scope Q_scope.

(** A rising function on finitely many numbers is a sum of steps. *)
Fixpoint climb (f : Q -> Q) (v : Q) (vs : list Q) (x : Q) : Q :=
  match vs with [] => 0 | w :: vs' => (f w - f v) * (if Qlt_bool v x then 1 else 0) + climb f w vs' x end.
Fixpoint ordered (v : Q) (vs : list Q) : Prop := match vs with [] => True | w :: vs' => v <= w /\ ordered w vs' end.
Lemma rising_same f x y : rising f -> x == y -> f x == f y.
Proof. intros R E. apply Qle_antisym; apply R; rewrite E; apply Qle_refl. Qed.
Lemma climb_low f : forall vs v x, ordered v vs -> x <= v -> climb f v vs x == 0.
Proof.
  induction vs as [|w vs IH]; intros v x H X; cbn [climb ordered] in *; [reflexivity|]. destruct H as [H H']. rewrite (proj2 (qlt_false v x) X).
  rewrite (IH w x H') by lra. ring.
Qed.
Lemma ordered_in : forall vs v x, ordered v vs -> In x vs -> v <= x.
Proof. induction vs as [|w vs IH]; intros v x H I; [destruct I|]. destruct H as [H H']. destruct I as [<-|I]; [exact H|]. pose proof (IH w x H' I). lra. Qed.
Lemma climb_all f : rising f -> forall vs v x, ordered v vs -> In x (v :: vs) -> f v + climb f v vs x == f x.
Proof.
  intros R. induction vs as [|w vs IH]; intros v x H I.
  - destruct I as [<-|[]]. cbn. ring.
  - destruct I as [<-|I]; [rewrite (climb_low f (w :: vs) v v H) by lra; ring|]. cbn [climb]. destruct H as [H H']. pose proof (IH w x H' I) as E.
    assert (Wx : w <= x) by (destruct I as [<-|I]; [lra|exact (ordered_in _ _ _ H' I)]).
    destruct (Qlt_bool v x) eqn:B; [rewrite <- E; ring|]. apply qlt_false in B. assert (F : f v == f w) by (apply rising_same; [exact R|lra]). rewrite <- E, F. ring.
Qed.
Fixpoint put (x v : Q) (vs : list Q) : Q * list Q :=
  match vs with
  | [] => if Qle_bool x v then (x, [v]) else (v, [x])
  | w :: vs' => if Qle_bool x v then (x, v :: vs) else let (a, l) := put x w vs' in (v, a :: l)
  end.
Lemma put_ordered x : forall vs v, ordered v vs -> ordered (fst (put x v vs)) (snd (put x v vs)) /\
  (forall y, In y (x :: v :: vs) -> In y (fst (put x v vs) :: snd (put x v vs))) /\ (x <= fst (put x v vs) \/ v <= fst (put x v vs)).
Proof.
  induction vs as [|w vs IH]; intros v H; cbn [put].
  - destruct (Qle_bool x v) eqn:B; cbn [fst snd ordered].
    + apply Qle_bool_iff in B. repeat split; auto. left. lra.
    + assert (v <= x) by (destruct (Qlt_le_dec x v) as [K|K]; [apply Qlt_le_weak, Qle_bool_iff in K; congruence|exact K]).
      repeat split; auto; [|right; lra]. intros y [<-|[<-|[]]]; cbn; auto.
  - destruct (Qle_bool x v) eqn:B; cbn [fst snd ordered].
    + apply Qle_bool_iff in B. destruct H. repeat split; auto. left. lra.
    + assert (v <= x) by (destruct (Qlt_le_dec x v) as [K|K]; [apply Qlt_le_weak, Qle_bool_iff in K; congruence|exact K]).
      destruct H as [H H']. destruct (IH w H') as (A & I & C). destruct (put x w vs) as [a l]. cbn [fst snd ordered] in *. repeat split; auto; [destruct C; lra| |right; lra].
      intros y [<-|[<-|Y]]; [right; apply I; now left|now left|right; apply I; now right].
Qed.
Lemma arrange (x0 : Q) l : exists v vs, ordered v vs /\ forall y, In y l -> In y (v :: vs).
Proof.
  induction l as [|x l (v & vs & O & I)]; [exists x0, []; split; [exact Logic.I|intros y []]|].
  destruct (put_ordered x vs v O) as (A & J & _). exists (fst (put x v vs)), (snd (put x v vs)). split; [exact A|]. intros y [<-|Y]; apply J; [now left|right; now apply I].
Qed.
Fixpoint support (p : prog Q) : list Q :=
  match p with Return x => [x] | Choose c next => flat_map (fun e => support (next (snd e))) (law c) end.
Lemma returns_mono {A} (p : prog A) (P R : A -> Prop) : (forall a, P a -> R a) -> returns p P -> returns p R.
Proof. intros H. induction p as [a|c next IH]; cbn; eauto. Qed.
Lemma returns_support p : returns p (fun x => In x (support p)).
Proof.
  induction p as [a|c next IH]; cbn [returns support]; [now left|]. intros w v I. apply (returns_mono (next v) (fun x => In x (support (next v)))); [|apply IH].
  intros a Ha. apply in_flat_map. exists (w, v). split; [exact I|exact Ha].
Qed.
Lemma expect_climb (p : prog Q) f : forall vs v, expect p (climb f v vs) ==
  fold_right (fun e t => snd e * chance p (above (fst e)) + t) 0 ((fix go v vs := match vs with [] => [] | w :: vs' => (v, f w - f v) :: go w vs' end) v vs).
Proof.
  induction vs as [|w vs IH]; intros v.
  - cbn [fold_right climb]. rewrite (expect_ext p _ (fun x => 0 * 0)) by (intros; ring). rewrite expect_scale. ring.
  - cbn [fold_right fst snd]. rewrite <- IH. rewrite (expect_ext p _ (fun x => (f w - f v) * (if above v x then 1 else 0) + 1 * climb f w vs x)) by (intros; cbn [climb]; unfold above; ring).
    rewrite expect_linear. rewrite expect_chance. ring.
Qed.
Lemma steps_le (p q : prog Q) f : rising f -> never_likelier p q -> forall vs v, ordered v vs -> expect p (climb f v vs) <= expect q (climb f v vs).
Proof.
  intros R H vs v O. rewrite !expect_climb. revert v O. induction vs as [|w vs IH]; intros v O; cbn [fold_right fst snd]; [lra|]. destruct O as [O O'].
  pose proof (IH w O') as X. pose proof (H v) as Y. pose proof (R v w O) as Z.
  assert ((f w - f v) * chance p (above v) <= (f w - f v) * chance q (above v)) by nra. lra.
Qed.
Lemma rising_le (p q : prog Q) f L c M d : fits p L c -> fits q M d -> rising f -> never_likelier p q -> expect p f <= expect q f.
Proof.
  intros Fp Fq R H. destruct (arrange 0 (support p ++ support q)) as (v & vs & O & I).
  assert (E : forall r, (forall x, In x (support r) -> In x (support p ++ support q)) -> forall L c, fits r L c -> expect r f == f v + expect r (climb f v vs)).
  { intros r J L0 c0 F0. rewrite (expect_same r (fun x => In x (support r)) f (fun x => f v * 1 + 1 * climb f v vs x) (returns_support r)).
    - rewrite (expect_linear r (fun _ => 1) (climb f v vs)). rewrite (expect_const r 1 L0 c0 F0). ring.
    - intros a Ha. rewrite <- (climb_all f R vs v a O (I a (J a Ha))). ring. }
  rewrite (E p ltac:(intros; apply in_or_app; now left) L c Fp), (E q ltac:(intros; apply in_or_app; now right) M d Fq).
  pose proof (steps_le p q f R H vs v O). lra.
Qed.

Lemma falling_le (p q : prog Q) f L c M d : fits p L c -> fits q M d -> (forall x y, x <= y -> f y <= f x) -> never_likelier p q -> expect q f <= expect p f.
Proof.
  intros Fp Fq R H. pose proof (rising_le p q (fun x => -(1) * f x) L c M d Fp Fq ltac:(intros x y X; pose proof (R x y X); lra) H) as E. rewrite !expect_scale in E. lra.
Qed.
Lemma expect_le_all {A} (p : prog A) f g L c : fits p L c -> (forall a, f a <= g a) -> expect p f <= expect p g.
Proof. intros F H. apply (expect_le_sure p (fun _ => True) f g (returns_all p _ (fun _ => Logic.I)) (fun a _ => H a) L c F). Qed.
Section Two.
  Variables (a a' b b' : dexp).
  Hypotheses (Sa : sound a) (Sa' : sound a') (Sb : sound b) (Sb' : sound b').
  Lemma both_rise h : lower a a' -> lower b b' -> (forall y, rising (fun x => h x y)) -> (forall x, rising (h x)) ->
    expect (prog_of a) (fun x => expect (prog_of b) (h x)) <= expect (prog_of a') (fun x => expect (prog_of b') (h x)).
  Proof.
    intros A B X Y. apply Qle_trans with (expect (prog_of a) (fun x => expect (prog_of b') (h x))).
    - apply (expect_le_all _ _ _ _ _ (fits_prog a Sa)). intros x. exact (rising_le _ _ _ _ _ _ _ (fits_prog b Sb) (fits_prog b' Sb') (Y x) B).
    - apply (rising_le _ _ _ _ _ _ _ (fits_prog a Sa) (fits_prog a' Sa')); [|exact A]. intros x x' E. apply (expect_le_all _ _ _ _ _ (fits_prog b' Sb')). intros y. exact (X y x x' E).
  Qed.
  Lemma rise_fall h : lower a a' -> lower b' b -> (forall y, rising (fun x => h x y)) -> (forall x y y', y <= y' -> h x y' <= h x y) ->
    expect (prog_of a) (fun x => expect (prog_of b) (h x)) <= expect (prog_of a') (fun x => expect (prog_of b') (h x)).
  Proof.
    intros A B X Y. apply Qle_trans with (expect (prog_of a) (fun x => expect (prog_of b') (h x))).
    - apply (expect_le_all _ _ _ _ _ (fits_prog a Sa)). intros x. exact (falling_le _ _ _ _ _ _ _ (fits_prog b' Sb') (fits_prog b Sb) (Y x) B).
    - apply (rising_le _ _ _ _ _ _ _ (fits_prog a Sa) (fits_prog a' Sa')); [|exact A]. intros x x' E. apply (expect_le_all _ _ _ _ _ (fits_prog b' Sb')). intros y. exact (X y x x' E).
  Qed.
End Two.
Definition step (t x : Q) : Q := if above t x then 1 else 0.
Lemma step_rising t : rising (step t).
Proof.
  intros x y E. unfold step, above. destruct (Qlt_bool t x) eqn:A; destruct (Qlt_bool t y) eqn:B; try lra. apply qlt_true in A. apply qlt_false in B. lra.
Qed.
Lemma op_step o a b t : chance (prog_of (XOp o a b)) (above t) == expect (prog_of a) (fun x => expect (prog_of b) (fun y => step t (exact o x y))).
Proof. rewrite combined. apply expect_ext. intros x. rewrite expect_chance. apply expect_ext. intros y. reflexivity. Qed.
Lemma exact_right o x y y' : o = BSum \/ o = BMax \/ o = BMin -> y <= y' -> exact o x y <= exact o x y'.
Proof.
  intros [->|[->| ->]] E; cbn [exact]; [lra| |];
    repeat match goal with |- context [Qlt_bool ?u ?v] => let K := fresh in destruct (Qlt_bool u v) eqn:K; [apply qlt_true in K|apply qlt_false in K] end; lra.
Qed.
Lemma exact_left o x x' y : o = BSum \/ o = BMax \/ o = BMin -> x <= x' -> exact o x y <= exact o x' y.
Proof.
  intros [->|[->| ->]] E; cbn [exact]; [lra| |];
    repeat match goal with |- context [Qlt_bool ?u ?v] => let K := fresh in destruct (Qlt_bool u v) eqn:K; [apply qlt_true in K|apply qlt_false in K] end; lra.
Qed.
Lemma lower_op o a a' b b' : o = BSum \/ o = BMax \/ o = BMin -> sound a -> sound a' -> sound b -> sound b' ->
  lower a a' -> lower b b' -> lower (XOp o a b) (XOp o a' b').
Proof.
  intros O Sa Sa' Sb Sb' A B t. rewrite !op_step. apply both_rise; auto.
  - intros y x x' E. apply step_rising. now apply exact_left.
  - intros x y y' E. apply step_rising. now apply exact_right.
Qed.
Lemma lower_diff a a' b b' : sound a -> sound a' -> sound b -> sound b' -> lower a a' -> lower b' b -> lower (XOp BDiff a b) (XOp BDiff a' b').
Proof.
  intros Sa Sa' Sb Sb' A B t. rewrite !op_step. apply rise_fall; auto.
  - intros y x x' E. apply step_rising. cbn [exact]. lra.
  - intros x y y' E. apply step_rising. cbn [exact]. lra.
Qed.
Definition part (x : Q) : Q := if Qlt_bool 0 x then x else 0.
Lemma part_rising x y : x <= y -> part x <= part y.
Proof. intros E. unfold part. destruct (Qlt_bool 0 x) eqn:A; destruct (Qlt_bool 0 y) eqn:B; rewrite ?qlt_true, ?qlt_false in *; lra. Qed.
Lemma part_nonneg x : 0 <= part x.
Proof. unfold part. destruct (Qlt_bool 0 x) eqn:A; rewrite ?qlt_true, ?qlt_false in *; lra. Qed.
Lemma part_same x : 0 <= x -> part x == x.
Proof. intros E. unfold part. destruct (Qlt_bool 0 x) eqn:A; rewrite ?qlt_true, ?qlt_false in *; lra. Qed.
Lemma step_same t x y : x == y -> step t x == step t y.
Proof. intros E. apply rising_same; [apply step_rising|exact E]. Qed.
Lemma product_part a b t : never_negative a -> never_negative b -> chance (prog_of (XOp BProd a b)) (above t) == expect (prog_of a) (fun x => expect (prog_of b) (fun y => step t (part x * part y))).
Proof.
  intros A B. rewrite op_step. apply (expect_same _ _ _ _ A). intros x X. apply (expect_same _ _ _ _ B). intros y Y. apply step_same. cbn [exact]. rewrite !part_same; auto. reflexivity.
Qed.
Lemma lower_prod a a' b b' : sound a -> sound a' -> sound b -> sound b' -> never_negative a -> never_negative a' -> never_negative b -> never_negative b' ->
  lower a a' -> lower b b' -> lower (XOp BProd a b) (XOp BProd a' b').
Proof.
  intros Sa Sa' Sb Sb' Na Na' Nb Nb' A B t. rewrite !product_part by assumption. apply both_rise; auto.
  - intros y x x' E. apply step_rising. pose proof (part_rising x x' E). pose proof (part_nonneg y). nra.
  - intros x y y' E. apply step_rising. pose proof (part_rising y y' E). pose proof (part_nonneg x). nra.
Qed.
Lemma lower_mix l l' : nonneg (map fst l) -> Forall2 (fun e e' => fst e == fst e' /\ lower (snd e) (snd e')) l l' -> lower (XMix l) (XMix l').
Proof.
  intros N F t. rewrite !mixed. induction F as [|e e' l l' [W H] F IH]; cbn [map total fold_right] in *; [lra|]. inversion N; subst. specialize (IH H3).
  unfold total in *. cbn [fold_right]. pose proof (H t). rewrite <- W. assert (fst e * chance (prog_of (snd e)) (above t) <= fst e * chance (prog_of (snd e')) (above t)) by nra. lra.
Qed.
Lemma lower_odds_left o a b c : o = Gt \/ o = Ge -> sound a -> sound b -> sound c -> lower a b -> odds_of o a c <= odds_of o b c.
Proof.
  intros O A B C H. unfold odds_of, duel. rewrite !chance_after. apply (rising_le _ _ _ _ _ _ _ (fits_prog a A) (fits_prog b B)); [|exact H].
  intros x y E. rewrite !chance_after. apply (expect_le_all _ _ _ _ _ (fits_prog c C)). intros z. cbn [chance].
  destruct O as [-> | ->]; unfold holds; cbn; repeat match goal with |- context [if ?b then _ else _] => let K := fresh in destruct b eqn:K end; rewrite ?qlt_true, ?qlt_false, ?Qle_bool_iff in *; try lra.
  - exfalso. destruct (Qlt_le_dec y z) as [K|K]; [lra|]. apply Qle_bool_iff in K. congruence.
Qed.
Lemma upward_numbers P : upward P -> of_number_lists P.
Proof.
  intros U xs ys F. assert (X : Forall2 Qle xs ys /\ Forall2 Qle ys xs).
  { induction F as [|x y xs ys E F [A B]]; split; constructor; auto; rewrite E; apply Qle_refl. }
  destruct X as [X Y]. apply Bool.eq_true_iff_eq. split; apply U; assumption.
Qed.
Lemma repeated_le (p q : prog Q) L c M d : fits p L c -> fits q M d -> never_likelier p q -> forall n F, (forall xs ys, Forall2 Qle xs ys -> F xs <= F ys) ->
  expect (repeated n p) F <= expect (repeated n q) F.
Proof.
  intros Fp Fq H. induction n as [|n IH]; intros F R; [cbn; lra|]. rewrite !expect_repeated.
  assert (RF : forall l, Forall2 Qle l l) by (intros l; induction l; constructor; auto; apply Qle_refl).
  apply Qle_trans with (expect p (fun a => expect (repeated n q) (fun l => F (a :: l)))).
  - apply (expect_le_all _ _ _ _ _ Fp). intros x. apply IH. intros xs ys E. apply R. constructor; [apply Qle_refl|exact E].
  - apply (rising_le _ _ _ _ _ _ _ Fp Fq); [|exact H]. intros x y E. apply (expect_le_all _ _ _ _ _ (fits_repeated q M d n Fq)). intros l. apply R. constructor; auto.
Qed.
Lemma lower_repeated a b n P : sound a -> sound b -> upward P -> lower a b -> chance (repeated n (prog_of a)) P <= chance (repeated n (prog_of b)) P.
Proof.
  intros A B U H. rewrite !expect_chance. apply (repeated_le _ _ _ _ _ _ (fits_prog a A) (fits_prog b B) H). intros xs ys E.
  destruct (P xs) eqn:X; [rewrite (U xs ys E X); lra|destruct (P ys); lra].
Qed.
Section Samples.
  Variables (Or : oracle) (N : nat) (ahead : G Or -> nat -> nat).
  Hypotheses (HN : (0 < N)%nat) (RL : right_length Or) (RA : reads_all Or N ahead).
  Lemma lower_samples a b n P sa sb : lower a b -> sound a -> sound b -> (1 <= n)%nat -> upward P ->
    each_once N (n * work a) (map (coming Or ahead (n * work a)) sa) -> each_once N (n * work b) (map (coming Or ahead (n * work b)) sb) ->
    qnat (count (samples_in Or (obj_of a) n P) sa) / qnat (N ^ (n * work a)) <=
    qnat (count (samples_in Or (obj_of b) n P) sb) / qnat (N ^ (n * work b)) + (qnat (n * spread a) + qnat (n * spread b)) / qnat N.
  Proof.
    intros H A B Hn HP Ea Eb. pose proof (upward_numbers P HP) as HL. pose proof (samples_share Or N ahead HN RL RA a n P sa A Hn HL Ea) as X. pose proof (samples_share Or N ahead HN RL RA b n P sb B Hn HL Eb) as Y.
    pose proof (lower_repeated a b n P A B HP H) as E. apply Qabs_Qle_condition in X, Y. unfold Qdiv in *. rewrite Qmult_plus_distr_l. lra.
  Qed.
End Samples.
(** Dice, events and numbers. *)
Lemma weigh_count {A} (g : A -> pv) w (P : pv -> bool) l : weigh (map (fun i => (w, g i)) l) (fun v => if P v then 1 else 0) == w * qnat (count (fun i => P (g i)) l).
Proof.
  induction l as [|i l IH]; cbn [map weigh]; [unfold qnat; cbn; ring|]. rewrite IH. cbn [count]. rewrite qnat_add. destruct (P (g i)); unfold qnat at 2; cbn [Z.of_nat]; change (inject_Z 0) with 0; change (inject_Z (Z.of_nat 1)) with 1; ring.
Qed.
Definition faces_above (t : Q) (n : nat) : nat := count (fun i => above t (inject_Z (Z.of_nat i))) (seq 1 n).
Lemma die_above n t : chance (prog_of (XChoice (CDie n))) (above t) == qnat (faces_above t n) / qnat n.
Proof.
  cbn [prog_of chance law]. rewrite (weigh_count (fun i => PInt (Z.of_nat i)) (1 / qnat n) (fun v => above t (value v))). unfold faces_above. cbn [value]. unfold Qdiv. ring.
Qed.
Lemma faces_next t n : faces_above t (S n) = (faces_above t n + (if above t (inject_Z (Z.of_nat (S n))) then 1 else 0))%nat.
Proof.
  unfold faces_above. rewrite seq_S. generalize (seq 1 n). intros l. replace (1 + n)%nat with (S n) by lia. induction l as [|i l IH]; cbn [app count]; [lia|]. rewrite IH. lia.
Qed.
Lemma faces_most t n : (faces_above t n <= n)%nat.
Proof. induction n as [|n IH]; [reflexivity|]. rewrite faces_next. destruct (above t _); lia. Qed.
Lemma faces_none t n : inject_Z (Z.of_nat n) <= t -> faces_above t n = 0%nat.
Proof.
  induction n as [|n IH]; intros H; [reflexivity|]. rewrite faces_next. assert (E : above t (inject_Z (Z.of_nat (S n))) = false) by (apply qlt_false; exact H). rewrite E, IH; [reflexivity|].
  apply Qle_trans with (inject_Z (Z.of_nat (S n))); [|exact H]. rewrite <- Zle_Qle. lia.
Qed.
Lemma faces_share t n : (faces_above t n * S n <= faces_above t (S n) * n)%nat.
Proof.
  rewrite faces_next. pose proof (faces_most t n). destruct (above t _) eqn:E; [nia|]. unfold above in E. apply qlt_false in E.
  rewrite (faces_none t n); [lia|]. apply Qle_trans with (inject_Z (Z.of_nat (S n))); [|exact E]. rewrite <- Zle_Qle. lia.
Qed.
Lemma faces_grow t n m : (1 <= n <= m)%nat -> (faces_above t n * m <= faces_above t m * n)%nat.
Proof.
  intros [H L]. induction L as [|m L IH]; [lia|]. pose proof (faces_share t m). nia.
Qed.
Lemma lower_dice n m : (1 <= n <= m)%nat -> lower (XChoice (CDie n)) (XChoice (CDie m)).
Proof.
  intros H t. rewrite !die_above. pose proof (faces_grow t n m H) as G.
  assert (qnat (faces_above t n) * qnat m <= qnat (faces_above t m) * qnat n) by (unfold qnat, inject_Z, Qmult, Qle; cbn; nia).
  assert (0 < qnat n /\ 0 < qnat m) as [X Y] by (unfold qnat, Qlt, inject_Z; cbn; lia).
  apply Qle_shift_div_l; [exact Y|]. setoid_replace (qnat (faces_above t n) / qnat n * qnat m) with ((qnat (faces_above t n) * qnat m) / qnat n) by (field; lra).
  apply Qle_shift_div_r; assumption.
Qed.
Lemma lower_bernoulli p q : p <= q -> lower (XChoice (CBernoulli p)) (XChoice (CBernoulli q)).
Proof.
  intros H t. cbn [prog_of chance law weigh value]. unfold above. destruct (Qlt_bool t (inject_Z 1)) eqn:A; destruct (Qlt_bool t (inject_Z 0)) eqn:B; rewrite ?qlt_true, ?qlt_false in *;
    change (inject_Z 1) with 1 in *; change (inject_Z 0) with 0 in *; lra.
Qed.
Lemma lower_numbers x y : x <= y -> lower (XNum x) (XNum y).
Proof. intros H t. cbn [prog_of chance]. exact (step_rising t x y H). Qed.
Lemma lower_iff a b : sound a -> sound b -> (lower a b <-> forall f, rising f -> expect (prog_of a) f <= expect (prog_of b) f).
Proof.
  intros A B. split; [intros H f R; exact (rising_le _ _ _ _ _ _ _ (fits_prog a A) (fits_prog b B) R H)|]. intros H t. rewrite !expect_chance. exact (H (step t) (step_rising t)).
Qed.
Lemma lower_favourite a b : sound a -> sound b -> lower a b -> odds_of Gt a b <= 1#2.
Proof.
  intros A B H. pose proof (lower_odds_left Ge a b a (or_intror eq_refl) A B A H) as X. pose proof (odds_mirrored Gt a b ltac:(unfold comparison; auto)) as M. cbn [mirrored] in M.
  pose proof (odds_opposite Lt b a ltac:(unfold comparison; auto) B A) as Y. pose proof (odds_opposite Lt a a ltac:(unfold comparison; auto) A A) as Z. cbn [opposite] in Y, Z.
  destruct (odds_twice a A) as (_ & _ & T). lra.
Qed.
Definition sure_one : dexp := XNum 1.
Definition lottery : dexp := XOp BProd (XNum 10) (XChoice (CBernoulli (1#5))).
Lemma means_not_enough : exists a b, sound a /\ sound b /\ expected a < expected b /\ ~ lower a b /\ 1#2 < odds_of Gt a b.
Proof.
  exists sure_one, lottery. split; [exact Logic.I|]. split.
  { split; [exact Logic.I|]. split; [split; discriminate|]. split; [discriminate|]. intros w v [E|[E|[]]]; inversion E; reflexivity. }
  split; [vm_compute; reflexivity|]. split; [|vm_compute; reflexivity]. intros H. specialize (H (1#2)). vm_compute in H. exact (H eq_refl).
Qed.
Lemma lower_contests a b : sound a -> sound b -> lower a b -> (forall o c, o = Gt \/ o = Ge -> sound c -> odds_of o a c <= odds_of o b c) /\ odds_of Gt a b <= 1#2.
Proof. intros A B H. split; [intros o c O C; now apply lower_odds_left|now apply lower_favourite]. Qed.
