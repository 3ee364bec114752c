(** Lemmas for [Props_Standard]. *)
From Coq Require Import Lqa.
From Verif Require Import Base M_Weights M_Values M_Sampler M_Ops SpecWeights SpecSampler SpecOps SpecMixture SpecRising SpecStandard
  P_Sampler P_Count P_Ops P_Support P_Example P_Dominance P_Rising.
Open Scope Q_scope.

Section Standard.
  Variable Or : oracle.
  Variable RL : right_length Or.

  Definition drawn_by (k : leaf) (r : freq) : Prop := forall n, leaf_sample Or k n = fsample Or r n.
  Lemma plain_flts l : Forall2 plain (flts l) l.
  Proof. induction l; cbn; constructor; auto. cbn. reflexivity. Qed.
  Lemma leaf_run k r n s xs g : drawn_by k r -> (1 <= n)%nat -> drawf Or r n (rng s) = (Ok xs, g) ->
    exists v, smp Or (plain_leaf Or k) n None None s = (Ok v, mkState g (corr s)) /\ numbers n v xs.
  Proof.
    intros K Hn D. unfold plain_leaf. rewrite smp_odist, smp_leaf, wrap_none, K by auto. unfold fsample, bindS, rngf. rewrite D. cbn [ret].
    assert (L : length xs = n) by (eapply RL; eauto).
    eexists. split; [reflexivity|]. split.
    - apply n_finish, n_simplify. unfold flts. now rewrite map_length.
    - apply finish_plain. rewrite elems_simplify. apply plain_flts.
  Qed.
  Lemma repeat_numbers c n : numbers n (copies (num_pv c) n) (repeat (num_q c) n).
  Proof. split; [apply copies_n|]. rewrite copies_elems. induction n; cbn; constructor; auto. apply num_plain. Qed.
  Lemma times_run d b n s v s' xs : (1 <= n)%nat -> smp Or d n None None s = (Ok v, s') -> numbers n v xs ->
    exists w, smp Or (times Or d b) n None None s = (Ok w, s') /\ numbers n w (map (fun p => fst p * snd p) (combine xs (repeat (num_q b) n))).
  Proof.
    intros Hn E X. unfold times.
    apply (two_place Or d _ (fun arr => binop (pow_ Or) arr Mul) Qmult (FOp Mul) n s v (copies (num_pv b) n) s' s'); auto using op_result, not_none, repeat_numbers.
    - apply arith_op. reflexivity.
    - apply sample_lit. auto.
  Qed.
  Lemma plus_run d a n s v s' xs : (1 <= n)%nat -> smp Or d n None None s = (Ok v, s') -> numbers n v xs ->
    exists w, smp Or (ODist (DComplex d (OLit (num_pv a)) (FOp Add))) n None None s = (Ok w, s') /\ numbers n w (map (fun p => fst p + snd p) (combine xs (repeat (num_q a) n))).
  Proof.
    intros Hn E X.
    apply (two_place Or d _ (fun arr => binop (pow_ Or) arr Add) Qplus (FOp Add) n s v (copies (num_pv a) n) s' s'); auto using op_result, not_none, repeat_numbers.
    - apply arith_op. reflexivity.
    - apply sample_lit. auto.
  Qed.
  Lemma with_copies (f : Q -> Q -> Q) c : forall xs n, length xs = n -> map (fun p => f (fst p) (snd p)) (combine xs (repeat c n)) = map (fun x => f x c) xs.
  Proof. induction xs as [|x xs IH]; intros [|n] L; try discriminate; cbn; auto. f_equal. apply IH. now inversion L. Qed.
  Lemma numbers_length n v xs : numbers n v xs -> length xs = n.
  Proof. intros [N F]. apply n_elems in N. rewrite <- N. clear N. induction F; cbn; auto. Qed.

  Lemma rescaled_alike k kb r base a b ca cb n : drawn_by k r -> drawn_by kb base -> rescaled Or base r a b ->
    num_q ca == a -> num_q cb == b -> (1 <= n)%nat -> alike Or n (plain_leaf Or k) (times_plus Or (plain_leaf Or kb) cb ca).
  Proof.
    intros K Kb R Ea Eb Hn s. destruct (R n (rng s)) as (zs & g & xs & Dz & Dx & F).
    destruct (leaf_run k r n s xs g K Hn Dx) as (v & Ev & Nv). destruct (leaf_run kb base n s zs g Kb Hn Dz) as (w & Ew & Nw).
    destruct (times_run _ cb _ _ _ _ _ Hn Ew Nw) as (w1 & E1 & N1). destruct (plus_run _ ca _ _ _ _ _ Hn E1 N1) as (w2 & E2 & N2).
    exists v, w2, (mkState g (corr s)). split; [exact Ev|]. split; [exact E2|]. eexists _, _. split; [exact Nv|]. split; [exact N2|].
    assert (L : length zs = n) by (eapply numbers_length; eauto).
    rewrite (with_copies Qmult) by auto. rewrite (with_copies Qplus) by now rewrite map_length. rewrite map_map.
    clear -F Ea Eb. induction F as [|z x zs xs H F IH]; cbn; constructor; auto. rewrite H, <- Ea, <- Eb. lra.
  Qed.
  Lemma scaled_alike k kb r base b cb n : drawn_by k r -> drawn_by kb base -> rescaled Or base r 0 b ->
    num_q cb == b -> (1 <= n)%nat -> alike Or n (plain_leaf Or k) (times Or (plain_leaf Or kb) cb).
  Proof.
    intros K Kb R Eb Hn s. destruct (R n (rng s)) as (zs & g & xs & Dz & Dx & F).
    destruct (leaf_run k r n s xs g K Hn Dx) as (v & Ev & Nv). destruct (leaf_run kb base n s zs g Kb Hn Dz) as (w & Ew & Nw).
    destruct (times_run _ cb _ _ _ _ _ Hn Ew Nw) as (w1 & E1 & N1).
    exists v, w1, (mkState g (corr s)). split; [exact Ev|]. split; [exact E1|]. eexists _, _. split; [exact Nv|]. split; [exact N1|].
    assert (L : length zs = n) by (eapply numbers_length; eauto).
    rewrite (with_copies Qmult) by auto.
    clear -F Eb. induction F as [|z x zs xs H F IH]; cbn; constructor; auto. rewrite H, <- Eb. lra.
  Qed.

  Variable SD : standard_draws Or.
  Lemma uniform_alike lo hi n : num_q lo <= num_q hi -> (1 <= n)%nat ->
    alike Or n (plain_leaf Or (LUniform (num_q lo) (num_q hi))) (times_plus Or (plain_leaf Or (LUniform 0 1)) (NF (num_q hi - num_q lo)) lo).
  Proof. intros L Hn. eapply rescaled_alike; eauto; try (intros ?; reflexivity); [now apply SD|reflexivity|reflexivity]. Qed.
  Lemma normal_alike m sd n : 0 <= num_q sd -> (1 <= n)%nat ->
    alike Or n (plain_leaf Or (LNormal (num_q m) (Some (num_q sd)))) (times_plus Or (plain_leaf Or (LNormal 0 (Some 1))) sd m).
  Proof. intros L Hn. eapply rescaled_alike; eauto; try (intros ?; reflexivity); [now apply SD|reflexivity|reflexivity]. Qed.
  Lemma exponential_alike sc n : 0 <= num_q sc -> (1 <= n)%nat ->
    alike Or n (plain_leaf Or (LExponential (num_q sc))) (times Or (plain_leaf Or (LExponential 1)) sc).
  Proof. intros L Hn. eapply scaled_alike; eauto; try (intros ?; reflexivity); [now apply SD|reflexivity]. Qed.
  Lemma gamma_alike k sc n : 0 < k -> 0 <= num_q sc -> (1 <= n)%nat ->
    alike Or n (plain_leaf Or (LGamma k (num_q sc))) (times Or (plain_leaf Or (LGamma k 1)) sc).
  Proof. intros K L Hn. eapply scaled_alike; eauto; try (intros ?; reflexivity); [now apply SD|reflexivity]. Qed.

  (** Larger parameters. *)
  Lemma rescaled_rise k k' r r' base a a' b b' n : drawn_by k r -> drawn_by k' r' -> rescaled Or base r a b -> rescaled Or base r' a' b' ->
    (1 <= n)%nat -> (forall z, frange base z -> a + b * z <= a' + b' * z) -> in_support Or ->
    never_above Or n (plain_leaf Or k) (plain_leaf Or k').
  Proof.
    intros K K' R R' Hn M IS s v v' s1 s2 E E'.
    destruct (R n (rng s)) as (zs & g & xs & Dz & Dx & F). destruct (R' n (rng s)) as (zs' & g' & xs' & Dz' & Dx' & F').
    rewrite Dz in Dz'. inversion Dz'; subst.
    destruct (leaf_run k r n s xs g' K Hn Dx) as (u & Eu & Nu). destruct (leaf_run k' r' n s xs' g' K' Hn Dx') as (w & Ew & Nw).
    rewrite E in Eu. rewrite E' in Ew. inversion Eu; subst. inversion Ew; subst. split; auto.
    exists xs, xs'. split; auto. split; auto. destruct IS as [IS _]. apply IS in Dz.
    clear -F F' M Dz. revert xs' F'. induction F as [|z x zs xs H F IH]; intros xs' F'; inversion F' as [|? x' ? ys H' F'']; subst; constructor.
    - rewrite H, H'. apply M. now inversion Dz.
    - apply IH; auto. now inversion Dz.
  Qed.
  Variable IS : in_support Or.
  Lemma uniform_rise lo hi lo' hi' n : lo <= hi -> lo' <= hi' -> lo <= lo' -> hi <= hi' -> (1 <= n)%nat ->
    never_above Or n (plain_leaf Or (LUniform lo hi)) (plain_leaf Or (LUniform lo' hi')).
  Proof.
    intros A B C D Hn. eapply rescaled_rise; eauto; try (intros ?; reflexivity); try (now apply SD).
    intros z Z. cbn in Z. destruct Z as [Z0 Z1]; [lra|]. nra.
  Qed.
  Lemma normal_rise m m' sd n : 0 <= sd -> m <= m' -> (1 <= n)%nat ->
    never_above Or n (plain_leaf Or (LNormal m (Some sd))) (plain_leaf Or (LNormal m' (Some sd))).
  Proof.
    intros A B Hn. eapply rescaled_rise; eauto; try (intros ?; reflexivity); try (now apply SD).
    intros z Z. lra.
  Qed.
  Lemma exponential_rise sc sc' n : 0 <= sc -> sc <= sc' -> (1 <= n)%nat ->
    never_above Or n (plain_leaf Or (LExponential sc)) (plain_leaf Or (LExponential sc')).
  Proof.
    intros A B Hn. eapply rescaled_rise; eauto; try (intros ?; reflexivity); try (apply SD; lra).
    intros z Z. cbn in Z. nra.
  Qed.
  Lemma gamma_rise k sc sc' n : 0 < k -> 0 <= sc -> sc <= sc' -> (1 <= n)%nat ->
    never_above Or n (plain_leaf Or (LGamma k sc)) (plain_leaf Or (LGamma k sc')).
  Proof.
    intros K A B Hn. eapply rescaled_rise; eauto; try (intros ?; reflexivity); try (apply SD; lra).
    intros z Z. cbn in Z. nra.
  Qed.

  Variable ED : exponential_draws Or.
  Lemma lognormal_lists m m' sd n g : 0 <= sd -> m <= m' ->
    exists xs xs' g', drawf Or (RLognormal m sd) n g = (Ok xs, g') /\ drawf Or (RLognormal m' sd) n g = (Ok xs', g') /\
      Forall2 Qle xs xs' /\ Forall (fun x => 0 < x) xs /\ Forall (fun x => 0 < x) xs'.
  Proof.
    intros A B. destruct ED as (e & Pe & Me & H). destruct SD as (_ & SN & _).
    destruct (SN m sd A n g) as (b & g1 & ns & D1 & D2 & F). destruct (SN m' sd A n g) as (b' & g1' & ns' & D1' & D2' & F').
    rewrite D1 in D1'. inversion D1'; subst.
    destruct (H m sd A n g) as (zs & g2 & xs & E1 & E2 & K). destruct (H m' sd A n g) as (zs' & g2' & xs' & E1' & E2' & K').
    rewrite D2 in E1. inversion E1; subst. rewrite D2' in E1'. inversion E1'; subst.
    exists xs, xs', g2'. split; [exact E2|]. split; [exact E2'|].
    clear -F F' K K' Pe Me B. revert xs K zs' F' xs' K'.
    induction F as [|z x b zs Hx F IH]; intros xs K zs' F' xs' K'; inversion F'; subst; inversion K; subst; inversion K'; subst; [repeat split; constructor|].
    edestruct IH as (I1 & I2 & I3); eauto. repeat split; constructor; auto.
    - match goal with U : ?a == e _, V : ?b == e _ |- ?a <= ?b => rewrite U, V end. apply Me. lra.
    - match goal with U : ?a == e _ |- 0 < ?a => rewrite U end. apply Pe.
    - match goal with U : ?a == e _ |- 0 < ?a => rewrite U end. apply Pe.
  Qed.
  Lemma lognormal_rise m m' sd n : 0 <= sd -> m <= m' -> (1 <= n)%nat ->
    never_above Or n (plain_leaf Or (LLognormal m sd)) (plain_leaf Or (LLognormal m' sd)).
  Proof.
    intros A B Hn s v v' s1 s2 E E'. destruct (lognormal_lists m m' sd n (rng s) A B) as (xs & xs' & g & D & D' & L & _).
    destruct (leaf_run (LLognormal m sd) _ n s xs g ltac:(intros ?; reflexivity) Hn D) as (u & Eu & Nu).
    destruct (leaf_run (LLognormal m' sd) _ n s xs' g ltac:(intros ?; reflexivity) Hn D') as (w & Ew & Nw).
    rewrite E in Eu. rewrite E' in Ew. inversion Eu; subst. inversion Ew; subst. split; auto. exists xs, xs'. auto.
  Qed.

  Lemma inverse_run m sd n s xs g : (1 <= n)%nat -> drawf Or (RLognormal m sd) n (rng s) = (Ok xs, g) -> Forall (fun x => 0 < x) xs ->
    exists v, smp Or (plain_leaf Or (LInvLognormal m sd)) n None None s = (Ok v, mkState g (corr s)) /\ numbers n v (map Qinv xs).
  Proof.
    intros Hn D P. unfold plain_leaf. rewrite smp_odist, smp_leaf, wrap_none by auto. cbn [leaf_sample]. unfold inverse_lognormal_sample, bindS, rngf. rewrite D. cbn [ret].
    assert (L : length xs = n) by (eapply RL; eauto).
    eexists. split; [reflexivity|]. split.
    - apply n_finish, n_simplify. now rewrite map_length.
    - apply finish_plain. rewrite elems_simplify. clear -P. induction P as [|x xs H P IH]; cbn [map]; constructor; auto.
      unfold xdiv. destruct (Qeq_bool x 0) eqn:E; [apply Qeq_bool_iff in E; lra|]. cbn. unfold Qdiv. lra.
  Qed.
  Lemma inverse_falls m m' sd n : 0 <= sd -> m <= m' -> (1 <= n)%nat ->
    never_above Or n (plain_leaf Or (LInvLognormal m' sd)) (plain_leaf Or (LInvLognormal m sd)).
  Proof.
    intros A B Hn s v v' s1 s2 E E'. destruct (lognormal_lists m m' sd n (rng s) A B) as (xs & xs' & g & D & D' & L & P & P').
    destruct (inverse_run m sd n s xs g Hn D P) as (u & Eu & Nu). destruct (inverse_run m' sd n s xs' g Hn D' P') as (w & Ew & Nw).
    rewrite E in Ew. rewrite E' in Eu. inversion Eu; subst. inversion Ew; subst. split; auto. exists (map Qinv xs'), (map Qinv xs). split; auto. split; auto.
    clear -L P P'. induction L as [|x y xs ys H L IH]; cbn; inversion P; inversion P'; subst; constructor; auto.
    apply Qle_shift_inv_r; auto. setoid_replace (/ x * y) with (y / x) by (unfold Qdiv; lra). apply Qle_shift_div_l; lra.
  Qed.
End Standard.

Lemma std_length : right_length std_oracle.
Proof.
  split; intros r n g l g' H; simpl in H; [|discriminate].
  destruct (std_bad r); inversion H. rewrite map_length. apply ex_fracs_length.
Qed.
Definition std_exp (x : Q) : Q := if Qlt_bool x 0 then 1 / (1 - x) else 1 + x.
Lemma std_exp_positive x : 0 < std_exp x.
Proof.
  unfold std_exp. destruct (Qlt_bool x 0) eqn:E; [apply qlt_true in E|apply qlt_false in E; lra].
  apply Qlt_shift_div_l; lra.
Qed.
Lemma std_support : in_support std_oracle.
Proof.
  split; intros r n g l g' H; simpl in H; [|discriminate].
  destruct (std_bad r) eqn:B; inversion H; subst. apply Forall_forall. intros x Hx.
  apply in_map_iff in Hx as (u & <- & Hu). pose proof (ex_fracs_range n g) as R. rewrite Forall_forall in R.
  specialize (R u Hu). destruct r; [| |apply std_exp_positive|..]; cbn in *; auto; try discriminate; try apply qlt_false in B; try split; intros; try lra; try nra.
Qed.
Lemma map_rescaled (f h : Q -> Q) a b : (forall u, h u == a + b * f u) -> forall l, Forall2 (fun z x => x == a + b * z) (map f l) (map h l).
Proof. intros E l. induction l; cbn; constructor; auto. Qed.
Lemma std_standard : standard_draws std_oracle.
Proof.
  split; [|split; [|split]].
  - intros lo hi L n g. eexists _, _, _. split; [reflexivity|]. split; [reflexivity|]. apply map_rescaled. intros u. cbn [std_float]. lra.
  - intros m sd L n g. eexists _, _, _. split; [reflexivity|]. split; [reflexivity|]. apply map_rescaled. intros u. cbn [std_float]. lra.
  - intros sc L n g. apply qlt_false in L. eexists _, _, _. split; [reflexivity|]. split; [cbn [drawf std_oracle std_bad]; rewrite L; reflexivity|]. apply map_rescaled. intros u. cbn [std_float]. lra.
  - intros k sc _ L n g. apply qlt_false in L. eexists _, _, _. split; [reflexivity|]. split; [cbn [drawf std_oracle std_bad]; rewrite L; reflexivity|]. apply map_rescaled. intros u. cbn [std_float]. lra.
Qed.
Lemma std_exp_rises x y : x <= y -> std_exp x <= std_exp y.
Proof.
  intros L. unfold std_exp. destruct (Qlt_bool x 0) eqn:E, (Qlt_bool y 0) eqn:F; try apply qlt_true in E; try apply qlt_true in F; try apply qlt_false in E; try apply qlt_false in F; try lra.
  - apply Qle_shift_div_l; [lra|]. setoid_replace (1 / (1 - x) * (1 - y)) with ((1 - y) / (1 - x)) by (field; lra). apply Qle_shift_div_r; lra.
  - apply Qle_trans with 1; [|lra]. apply Qle_shift_div_r; lra.
Qed.
Lemma std_exponential : exponential_draws std_oracle.
Proof.
  exists std_exp. split; [exact std_exp_positive|]. split; [exact std_exp_rises|]. intros m sd _ n g.
  eexists _, _, _. split; [reflexivity|]. split; [reflexivity|]. induction (ex_fracs n g); cbn [map]; constructor; auto. cbn [std_float]. reflexivity.
Qed.
Lemma normal_sd_falls : ~ never_above std_oracle 1 (plain_leaf std_oracle (LNormal 0 (Some 1))) (plain_leaf std_oracle (LNormal 0 (Some 2))).
Proof.
  intros H. destruct (H (std_state 0) (Scalar (PFlt (Fin (0 + (ex_frac 0 - (1#2)) * 1)))) (Scalar (PFlt (Fin (0 + (ex_frac 0 - (1#2)) * 2)))) (std_state 1) (std_state 1)) as ((xs & xs' & [_ A] & [_ B] & L) & _);
    [reflexivity|reflexivity|].
  cbn [elems] in A, B. inversion A as [|? x ? ? X]; subst. inversion B as [|? y ? ? Y]; subst. inversion L as [|? ? ? ? K]; subst. unfold plain in X, Y. rewrite <- X, <- Y in K. vm_compute in K. now apply K.
Qed.
