(** Lemmas for [Props_Rising]. *)
From Coq Require Import Lqa.
From Verif Require Import Base M_Weights M_Values M_Sampler M_Ops SpecWeights SpecSampler SpecOps SpecMixture SpecDiscrete SpecDominance SpecRising
  P_Sampler P_Count P_Clip P_Ops P_Ops2 P_Support P_Dominance P_Example.
Open Scope Q_scope.

Lemma plain_not_none l xs : Forall2 plain l xs -> existsb is_none l = false /\ existsb is_str l = false.
Proof. induction 1 as [|a x l xs P _ [A B]]; split; auto; cbn [existsb]; [rewrite A|rewrite B]; destruct a; cbn in *; auto; contradiction. Qed.
Lemma plain_coerced f l xs : (forall a x, plain a x -> plain (f a) x) -> Forall2 plain l xs -> Forall2 plain (map f l) xs.
Proof. intros F. induction 1; cbn; constructor; auto. Qed.
Lemma np_array_plain fm l xs : Forall2 plain l xs -> Forall2 plain (np_array fm l) xs.
Proof.
  intros P. destruct (plain_not_none _ _ P) as [A B]. unfold np_array. rewrite A, B.
  destruct (existsb is_flt l); [|destruct (existsb is_int l); [|exact P]]; (apply plain_coerced; [|exact P]); intros a x H; destruct a as [z|[q| | |]| | |]; cbn in *; solve [exact H | contradiction].
Qed.
Lemma finish_plain Or v xs : Forall2 plain (elems v) xs -> Forall2 plain (elems (finish_list Or v)) xs.
Proof. destruct v; cbn [finish_list elems]; auto. apply np_array_plain. Qed.

Lemma lt_same a b c d : a == b -> c == d -> Qlt_bool a c = Qlt_bool b d.
Proof.
  intros A C. apply eq_true_iff_eq. rewrite !qlt_true, A, C. reflexivity.
Qed.

Section Runs.
  Variable Or : oracle.
  Notation obj := (obj (G Or)).
  Lemma complex_inv l r f n s w s3 : (1 <= n)%nat -> r <> OLit PNone ->
    smp Or (ODist (DComplex l r f)) n None None s = (Ok w, s3) ->
    exists a s1 b s2, smp Or l n None None s = (Ok a, s1) /\ smp Or r n None None s1 = (Ok b, s2).
  Proof.
    intros Hn Hr H. destruct (smp Or l n None None s) as [[a|e] s1] eqn:A.
    - destruct (smp Or r n None None s1) as [[b|e] s2] eqn:B; [eauto 6|].
      rewrite (complex_right_err _ _ _ _ _ _ _ _ _ _ Hn Hr A B) in H. discriminate.
    - rewrite (complex_left_err _ _ _ _ _ _ _ _ Hn A) in H. discriminate.
  Qed.
  Lemma complex_inv1 l f n s w s3 : (1 <= n)%nat ->
    smp Or (ODist (DComplex l (OLit PNone) f)) n None None s = (Ok w, s3) ->
    exists a s1, smp Or l n None None s = (Ok a, s1).
  Proof.
    intros Hn H. destruct (smp Or l n None None s) as [[a|e] s1] eqn:A; [eauto|].
    rewrite (complex_left_err _ _ _ _ _ _ _ _ Hn A) in H. discriminate.
  Qed.

  Lemma pointwise_plain (f : pv -> pv -> res pv) (g : Q -> Q -> Q) :
    (forall a b x y, plain a x -> plain b y -> exists c, f a b = Ok c /\ plain c (g x y)) ->
    forall l xs, Forall2 plain l xs -> forall m ys, Forall2 plain m ys -> length l = length m ->
    exists zs, pointwise f l m zs /\ Forall2 plain zs (map (fun p => g (fst p) (snd p)) (combine xs ys)).
  Proof.
    intros F l xs P. induction P as [|a x l xs A P IH]; intros m ys Q L; destruct m as [|b m]; try discriminate.
    - exists []. split; [constructor|]. cbn. constructor.
    - inversion Q as [|? y ? ys' B Q']; subst. destruct (F a b x y A B) as (c & E & C).
      destruct (IH m ys' Q') as (zs & Z & Pz); [cbn in L; congruence|].
      exists (c :: zs). split; [constructor; auto|]. cbn. constructor; auto.
  Qed.
  (** The result of a two-place operation on numbers. *)
  Lemma two_place l r f g (fn_ : fn (G Or)) n s a b s1 s2 xs ys : (1 <= n)%nat -> r <> OLit PNone ->
    (forall s' u w, fn_result Or fn_ n u (Some w) s' = (lift2 f u w, s')) ->
    (forall p q x y, plain p x -> plain q y -> exists c, f (arrays n) p q = Ok c /\ plain c (g x y)) ->
    smp Or l n None None s = (Ok a, s1) -> smp Or r n None None s1 = (Ok b, s2) ->
    numbers n a xs -> numbers n b ys ->
    exists v, smp Or (ODist (DComplex l r fn_)) n None None s = (Ok v, s2) /\
      numbers n v (map (fun p => g (fst p) (snd p)) (combine xs ys)).
  Proof.
    intros Hn Hr HF G Ha Hb [Na Pa] [Nb Pb]. rewrite (complex_run _ _ _ _ _ _ _ _ _ _ Hn Hr Ha Hb), HF.
    pose proof (lift2_run f n a b Na Nb) as L. pose proof (n_elems _ _ Na) as La. pose proof (n_elems _ _ Nb) as Lb.
    destruct (pointwise_plain _ g G _ _ Pa _ _ Pb ltac:(congruence)) as (zs & Z & Pz).
    apply zipM_pointwise in Z. rewrite Z in L. destruct L as (v & -> & Nv & E).
    eexists. split; [reflexivity|]. split; [now apply n_finish|]. apply finish_plain. rewrite E. exact Pz.
  Qed.
  Lemma arith_op o n : forall (g : Q -> Q -> Q), (forall x y, arith o x y = Some (g x y)) ->
    forall p q x y, plain p x -> plain q y -> exists c, binop (pow_ Or) (arrays n) o p q = Ok c /\ plain c (g x y).
  Proof. intros g G p q x y P Q. apply (binop_plain (pow_ Or) (arrays n) o p q x y (g x y)); auto. Qed.
  Lemma max_plain p q x y : plain p x -> plain q y -> exists c, max_pv p q = Ok c /\ plain c (if Qlt_bool x y then y else x).
  Proof.
    intros P Q. unfold max_pv. destruct p as [z|[u| | |]| | |]; cbn in P; try contradiction; destruct q as [w|[t| | |]| | |]; cbn in Q; try contradiction;
    cbn [as_x]; (eexists; split; [reflexivity|]); unfold xlt;
    match goal with |- context [if Qlt_bool ?c ?d then _ else _] => rewrite (lt_same c x d y) by auto end;
    destruct (Qlt_bool x y); cbn; auto.
  Qed.
  Lemma min_plain p q x y : plain p x -> plain q y -> exists c, min_pv p q = Ok c /\ plain c (if Qlt_bool y x then y else x).
  Proof.
    intros P Q. unfold min_pv. destruct p as [z|[u| | |]| | |]; cbn in P; try contradiction; destruct q as [w|[t| | |]| | |]; cbn in Q; try contradiction;
    cbn [as_x]; (eexists; split; [reflexivity|]); unfold xlt;
    match goal with |- context [if Qlt_bool ?c ?d then _ else _] => rewrite (lt_same c y d x) by auto end;
    destruct (Qlt_bool y x); cbn; auto.
  Qed.

  Lemma lists_below (R R' : Q -> Q -> Prop) (g : Q -> Q -> Q) : (forall x x' y y', R x x' -> R' y y' -> g x y <= g x' y') ->
    forall xs xs', Forall2 R xs xs' -> forall ys ys', Forall2 R' ys ys' ->
    Forall2 Qle (map (fun p => g (fst p) (snd p)) (combine xs ys)) (map (fun p => g (fst p) (snd p)) (combine xs' ys')).
  Proof. intros G xs xs' F. induction F; intros ys ys' F'; [constructor|]. destruct F'; cbn; constructor; auto. Qed.

  (** Samples compared by any relation. *)
  Definition compared (R : Q -> Q -> Prop) (n : nat) (d d' : obj) : Prop :=
    forall s v v' s1 s2, smp Or d n None None s = (Ok v, s1) -> smp Or d' n None None s = (Ok v', s2) ->
    (exists xs xs', numbers n v xs /\ numbers n v' xs' /\ Forall2 R xs xs') /\ s1 = s2.
  Lemma above_compared n d d' : never_above Or n d d' -> compared Qle n d d'.
  Proof. auto. Qed.
  Lemma below_compared n d d' : never_above Or n d' d -> compared (fun x y => y <= x) n d d'.
  Proof.
    intros H s v v' s1 s2 E E'. destruct (H _ _ _ _ _ E' E) as ((xs & xs' & X & X' & L) & ->). split; auto.
    exists xs', xs. repeat split; try apply X; try apply X'. clear -L. induction L; constructor; auto.
  Qed.
  Lemma number_compared n c : (1 <= n)%nat -> compared (fun x y => x = num_q c /\ y = num_q c) n (OLit (num_pv c)) (OLit (num_pv c)).
  Proof.
    intros Hn s v v' s1 s2 E E'. rewrite (sample_lit Or _ n s Hn) in E, E'. inversion E; inversion E'; subst. split; auto.
    assert (RR : numbers n (copies (num_pv c) n) (repeat (num_q c) n)).
    { split; [apply copies_n|]. rewrite copies_elems. clear. induction n; cbn; constructor; auto. destruct c; cbn; reflexivity. }
    eexists _, _. split; [exact RR|]. split; [exact RR|]. clear. induction n; constructor; auto.
  Qed.
  (** Monotone two-place operations. *)
  Lemma two_rise (R R' : Q -> Q -> Prop) l l' r r' f g (fn_ : fn (G Or)) n : (1 <= n)%nat -> r <> OLit PNone -> r' <> OLit PNone ->
    (forall s' u w, fn_result Or fn_ n u (Some w) s' = (lift2 f u w, s')) ->
    (forall p q x y, plain p x -> plain q y -> exists c, f (arrays n) p q = Ok c /\ plain c (g x y)) ->
    (forall x x' y y', R x x' -> R' y y' -> g x y <= g x' y') ->
    compared R n l l' -> compared R' n r r' ->
    never_above Or n (ODist (DComplex l r fn_)) (ODist (DComplex l' r' fn_)).
  Proof.
    intros Hn Hr Hr' HF G M L R0 s v v' t t' E E'.
    destruct (complex_inv _ _ _ _ _ _ _ Hn Hr E) as (a & s1 & b & s2 & Ha & Hb).
    destruct (complex_inv _ _ _ _ _ _ _ Hn Hr' E') as (a' & s1' & b' & s2' & Ha' & Hb').
    destruct (L _ _ _ _ _ Ha Ha') as ((xs & xs' & X & X' & Lx) & <-).
    destruct (R0 _ _ _ _ _ Hb Hb') as ((ys & ys' & Y & Y' & Ly) & <-).
    destruct (two_place l r f g fn_ n s a b s1 s2 xs ys Hn Hr HF G Ha Hb X Y) as (w & W & Rw).
    destruct (two_place l' r' f g fn_ n s a' b' s1 s2 xs' ys' Hn Hr' HF G Ha' Hb' X' Y') as (w' & W' & Rw').
    rewrite E in W. rewrite E' in W'. inversion W; subst. inversion W'; subst. split; auto.
    eexists _, _. split; [exact Rw|]. split; [exact Rw'|]. eapply (lists_below R R' g M); eauto.
  Qed.
  Lemma not_none c : @OLit (G Or) (num_pv c) <> OLit PNone.
  Proof. destruct c; discriminate. Qed.
  Lemma number_self n c : (1 <= n)%nat -> never_above Or n (OLit (num_pv c)) (OLit (num_pv c)).
  Proof.
    intros Hn s v v' s1 s2 E E'. destruct (number_compared n c Hn _ _ _ _ _ E E') as ((xs & xs' & X & X' & L) & ->). split; auto.
    exists xs, xs'. repeat split; try apply X; try apply X'. clear -L. induction L as [|? ? ? ? [-> ->]]; constructor; auto. apply Qle_refl.
  Qed.
  Lemma minus_rise d d' n : (1 <= n)%nat -> never_above Or n (ODist d') (ODist d) -> never_above Or n (ODist (op_neg d)) (ODist (op_neg d')).
  Proof.
    intros Hn H s v v' t t' E E'. unfold op_neg in E, E'.
    destruct (complex_inv1 _ _ _ _ _ _ Hn E) as (a & s1 & Ha). destruct (complex_inv1 _ _ _ _ _ _ Hn E') as (a' & s1' & Ha').
    destruct (H _ _ _ _ _ Ha' Ha) as ((xs' & xs & X' & X & L) & <-).
    assert (N : forall b xs0 b0 s0, smp Or (ODist b) n None None s = (Ok b0, s0) -> numbers n b0 xs0 -> exists w, smp Or (ODist (op_neg b)) n None None s = (Ok w, s0) /\ numbers n w (map Qopp xs0)).
    { clear -Hn. intros b xs b0 s0 Hb [Nb Pb]. unfold op_neg. rewrite (complex_run1 Or _ _ _ _ _ _ Hn Hb). cbn [fn_result apply_fn].
      assert (exists zs, mapM (negop (arrays n)) (elems b0) = Ok zs /\ Forall2 plain zs (map Qopp xs)) as (zs & Z & Pz).
      { clear -Pb. induction Pb as [|p x l xs P Pb (zs & Z & IH)]; [exists []; split; constructor|].
        destruct (neg_plain (arrays n) p x P) as (z & E & Pz). exists (z :: zs). cbn [mapM]. rewrite E. cbn [bind]. rewrite Z. cbn. split; [reflexivity|constructor; auto]. }
      assert (exists v, lift1 negop b0 = Ok v /\ n_samples n v /\ elems v = zs) as (v & -> & Nv & E).
      { apply n_cases in Nb as [[-> (x & ->)]|[N (l & -> & L)]]; cbn [elems lift1] in Z |- *.
        - change (arrays 1) with false in Z. cbn [mapM] in Z. destruct (negop false x) as [z|]; [|discriminate]. cbn [bind] in *. inversion Z; subst. eexists. split; [reflexivity|]. split; [cbn; eauto|reflexivity].
        - unfold arrays in Z. assert ((n =? 1)%nat = false) as E by now apply Nat.eqb_neq. rewrite E in Z. cbn [negb] in Z.
          rewrite Z. cbn [bind]. eexists. split; [reflexivity|]. split; [|reflexivity]. apply n_arr; auto. apply mapM_length in Z. congruence. }
      eexists; split; [reflexivity|]. split; [now apply n_finish|]. apply finish_plain. rewrite E. exact Pz. }
    destruct (N _ _ _ _ Ha X) as (w & W & Rw). destruct (N _ _ _ _ Ha' X') as (w' & W' & Rw').
    unfold op_neg in W, W'. rewrite E in W. rewrite E' in W'. inversion W; subst. inversion W'; subst. split; auto.
    eexists _, _. split; [exact Rw|]. split; [exact Rw'|]. clear -L. induction L; cbn; constructor; auto. lra.
  Qed.
  Lemma user_result n h s' u w : fn_result Or (pure2 (lift2 h)) n u (Some w) s' = (lift2 h u w, s').
  Proof. cbn [fn_result pure2]. destruct (lift2 h u w); reflexivity. Qed.
  Lemma op_result n o s' u w : fn_result Or (FOp o) n u (Some w) s' = (lift2 (fun arr => binop (pow_ Or) arr o) u w, s').
  Proof. reflexivity. Qed.

  Theorem rises_above n d d' : (1 <= n)%nat -> rises Or n d d' -> never_above Or n d d'.
  Proof.
    intros Hn H. induction H.
    - auto.
    - apply number_self; auto.
    - apply (two_rise Qle Qle l l' r r' (fun arr => binop (pow_ Or) arr Add) Qplus); auto using op_result, above_compared; try (apply arith_op; reflexivity); intros; lra.
    - apply (two_rise Qle (fun x y => y <= x) l l' r r' (fun arr => binop (pow_ Or) arr Sub) Qminus); auto using op_result, above_compared, below_compared; try (apply arith_op; reflexivity); intros; lra.
    - apply (two_rise Qle (fun x y => x = num_q c /\ y = num_q c) l l' _ _ (fun arr => binop (pow_ Or) arr Mul) Qmult); auto using op_result, above_compared, number_compared, not_none; try (apply arith_op; reflexivity).
      intros x x' y y' L [-> ->]. apply Qmult_le_compat_r; auto.
    - apply (two_rise (fun x y => y <= x) (fun x y => x = num_q c /\ y = num_q c) l l' _ _ (fun arr => binop (pow_ Or) arr Mul) Qmult); auto using op_result, below_compared, number_compared, not_none; try (apply arith_op; reflexivity).
      intros x x' y y' L [-> ->]. nra.
    - apply minus_rise; auto.
    - apply (two_rise Qle Qle l l' r r' (fun _ => max_pv) (fun x y => if Qlt_bool x y then y else x)); auto using user_result, above_compared.
      + intros p q x y P Q. apply max_plain; auto.
      + intros x x' y y' L M. destruct (Qlt_bool x y) eqn:E, (Qlt_bool x' y') eqn:E'; rewrite ?qlt_true, ?qlt_false in *; lra.
    - apply (two_rise Qle Qle l l' r r' (fun _ => min_pv) (fun x y => if Qlt_bool y x then y else x)); auto using user_result, above_compared.
      + intros p q x y P Q. apply min_plain; auto.
      + intros x x' y y' L M. destruct (Qlt_bool y x) eqn:E, (Qlt_bool y' x') eqn:E'; rewrite ?qlt_true, ?qlt_false in *; lra.
  Qed.

  (** Everywhere larger discrete distributions as parts. *)
  Lemma dominated_below l l' n : right_length Or -> acceptable l -> acceptable l' -> ascending l -> ascending l' ->
    dominated l l' -> (1 <= n)%nat -> never_above Or n (ODist (DLeaf (written l) None None)) (ODist (DLeaf (written l') None None)).
  Proof.
    intros RL U U' A A' D N s v v' s1 s2 E E'.
    pose proof (dominance_numbers Or RL l l' n s v v' s1 s2 U U' A A' D N E E') as (xs & xs' & qs & qs' & -> & -> & Lx & Lx' & P & P' & L & ->).
    split; auto. exists qs, qs'.
    split; [split; [apply n_simplify; now rewrite np_array_length|rewrite elems_simplify; now apply np_array_plain]|].
    split; [split; [apply n_simplify; now rewrite np_array_length|rewrite elems_simplify; now apply np_array_plain]|]. exact L.
  Qed.
End Runs.

Lemma numbers_rise c c' n : (1 <= n)%nat -> num_q c <= num_q c' -> never_above ex_oracle n (OLit (num_pv c)) (OLit (num_pv c')).
Proof.
  intros Hn L s v v' s1 s2 E E'. rewrite (sample_lit ex_oracle _ n s Hn) in E; rewrite (sample_lit ex_oracle _ n s Hn) in E'. inversion E; inversion E'; subst. split; auto.
  assert (RR : forall c, numbers n (copies (num_pv c) n) (repeat (num_q c) n)).
  { clear. intros c. split; [apply copies_n|]. rewrite copies_elems. clear. induction n; cbn; constructor; auto. destruct c; cbn; reflexivity. }
  eexists _, _. split; [apply RR|]. split; [apply RR|]. clear -L. induction n; cbn; constructor; auto.
Qed.
Lemma product_falls : exists l l' r n, (1 <= n)%nat /\ never_above ex_oracle n l l' /\ never_above ex_oracle n r r /\
  ~ never_above ex_oracle n (ODist (DComplex l r (FOp Mul))) (ODist (DComplex l' r (FOp Mul))).
Proof.
  exists (OLit (num_pv (NI 1))), (OLit (num_pv (NI 2))), (OLit (num_pv (NI (-1)))), 1%nat.
  split; [lia|]. split; [apply numbers_rise; [lia|discriminate]|]. split; [apply numbers_rise; [lia|apply Qle_refl]|].
  intros H. destruct (H (ex_state 0) (Scalar (PInt (-1))) (Scalar (PInt (-2))) (ex_state 0) (ex_state 0)) as ((xs & xs' & [_ A] & [_ B] & L) & _);
    [vm_compute; reflexivity|vm_compute; reflexivity|].
  cbn in A, B. inversion A as [|? x ? ? X]; subst. inversion B as [|? y ? ? Y]; subst. inversion L as [|? ? ? ? K]; subst. cbn in X, Y. rewrite <- X, <- Y in K. now apply K.
Qed.
