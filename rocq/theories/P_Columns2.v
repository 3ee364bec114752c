(** [n] samples of an expression are [n] independent copies: what the samplers do (C193). *)
From Coq Require Import Qabs ZArith Lia Lqa.
From Verif Require Import Base M_Weights M_Values M_Pick M_Sampler M_Ops SpecWeights SpecSampler SpecOps SpecMixture SpecShare SpecDiscrete SpecRising
  P_Count P_Pick P_Mixture P_Share P_ShareRun P_ShareRun2 P_Discrete P_Sampler P_Ops P_Ops2 P_Support P_Weights2 P_Discrete2 P_Rising P_Dice P_Program P_Program2 P_Large P_Indep P_Columns.
From Verif Require Import M_SampleApi M_Bayesnet SpecBayes SpecProgram SpecLarge SpecIndep SpecColumns.
Open Scope Q_scope.

(** The value a program computes from the numbers [st k], [st (k+1)], ... and the first number not used. *)
Fixpoint walk {A} (N : nat) (p : prog A) (st : nat -> nat) (k : nat) : A * nat :=
  match p with
  | Return a => (a, k)
  | Choose c next =>
      if single c then walk N (next (snd (nth 0 (law c) (0, PNone)))) st k
      else walk N (next (value_of N c (st k))) st (S k)
  end.
Lemma walk_after {A B} N (p : prog A) (f : A -> prog B) st : forall k a k', walk N p st k = (a, k') -> walk N (after p f) st k = walk N (f a) st k'.
Proof. induction p as [x|c next IH]; intros k a k' H; cbn [walk after] in *; [now inversion H|]. destruct (single c); eapply IH; exact H. Qed.
Lemma walk_shift {A} N (p : prog A) st st' d : (forall i, st' i = st (d + i)%nat) -> forall j a j', walk N p st' j = (a, j') -> walk N p st (d + j) = (a, (d + j')%nat).
Proof.
  intros E. induction p as [x|c next IH]; intros j a j' H; cbn [walk] in *; [now inversion H|]. destruct (single c); [now apply IH|]. rewrite <- E. rewrite plus_n_Sm. now apply IH.
Qed.
Lemma walk_repeated N c (g : pv -> Q) st n : forall k, walk N (repeated n (Choose c (fun v => Return (g v)))) st k =
  if single c then (repeat (g (snd (nth 0 (law c) (0, PNone)))) n, k) else (map (fun i => g (value_of N c (st i))) (seq k n), (k + n)%nat).
Proof.
  induction n as [|n IH]; intros k; [cbn; rewrite Nat.add_0_r; destruct (single c); reflexivity|]. cbn [repeated after walk]. destruct (single c) eqn:S.
  - erewrite walk_after; [|apply IH]. reflexivity.
  - erewrite walk_after; [|apply IH]. cbn [walk seq map]. f_equal. lia.
Qed.
Lemma follow_walk {A} N (p : prog A) st : (forall i, (st i < N)%nat) -> forall L c k ks, fits p L c -> (L <= length ks)%nat -> (forall i, (i < length ks)%nat -> nth i ks 0%nat = st (k + i)%nat) ->
  follow N p ks = Some (fst (walk N p st k)).
Proof.
  intros B. induction p as [a|ch next IH]; intros L c k ks F E K; [reflexivity|].
  destruct F as (Pr & L' & c' & -> & -> & F). cbn [follow walk]. destruct (single ch) eqn:Sg.
  - unfold single in Sg. apply Nat.eqb_eq in Sg. destruct (law ch) as [|[w v] [|]] eqn:El; try discriminate Sg. cbn [nth snd].
    apply (IH v L' c' k ks (F w v (or_introl eq_refl))); [lia|exact K].
  - destruct ks as [|k0 ks]; [cbn in E; lia|]. pose proof (K 0%nat ltac:(cbn; lia)) as K0. rewrite Nat.add_0_r in K0. cbn in K0. subst k0. unfold value_of.
    pose proof (nth_In (law ch) (0, PNone) (pick_bound N ch (st k) Pr (B _))) as I. destruct (nth _ (law ch) _) as [w v].
    apply (IH v L' c' (S k) ks (F w v I)); [cbn in E; lia|]. intros i Hi. pose proof (K (S i) ltac:(cbn; lia)) as X. cbn [nth] in X. rewrite X. f_equal. lia.
Qed.
Lemma numbers_of Or n l xs : length l = n -> Forall2 plain l xs -> numbers n (simplify (np_array (fmt Or) l)) xs.
Proof. intros E F. split; [apply n_simplify; now rewrite np_array_length|]. rewrite elems_simplify. now apply np_array_plain. Qed.
Lemma forall2_same {A} (P : pv -> Q -> Prop) (f : A -> pv) (g : A -> Q) l : (forall x, In x l -> P (f x) (g x)) -> Forall2 P (map f l) (map g l).
Proof. induction l as [|x l IH]; intros H; cbn; constructor; [apply H; now left|apply IH; intros y I; apply H; now right]. Qed.

Lemma among_processed l : l <> [] -> (length l < 100)%nat -> cat_list (map IPlain l) = Ok (map fst (law (CAmong l)), map (fun e => IPlain (snd e)) (law (CAmong l))).
Proof.
  intros Hl Hn. unfold cat_list, pdwv. assert (compresses (forallb (fun i => negb (item_is_list i))) item_is_list (map IPlain l) = false) as ->.
  { unfold compresses. destruct (map IPlain l) eqn:E; auto. rewrite <- E, map_length. assert (Nat.leb 100 (length l) = false) as -> by (apply Nat.leb_gt; lia). reflexivity. }
  destruct l as [|x l]; [congruence|]. rewrite (equal_default _ _ (VList (map IPlain (x :: l))) (map IPlain (x :: l)) (IPlain x) false); try reflexivity; [|constructor].
  rewrite map_length. cbn [length Nat.eqb]. f_equal. cbn [law]. rewrite !map_map. f_equal.
  assert (Rp : forall (q : Q) (m : list pv), repeat q (length m) = map (fun _ => q) m) by (intros q m; induction m; cbn; congruence).
  f_equal. exact (Rp _ (x :: l)).
Qed.
Section Runs.
  Variable Or : oracle.
  Notation St := (state (G Or)).
  Variable N : nat.
  Variable ahead : G Or -> nat -> nat.
  Hypothesis HN : (0 < N)%nat.
  Hypothesis RL : right_length Or.
  Hypothesis RA : reads_all Or N ahead.
  Let R : reads Or N ahead := proj1 RA.
  Lemma all_u n g : exists us g', drawf Or (RUniform 0 1) n g = (Ok us, g') /\ Forall2 (fun u i => u == grid N (ahead g i)) us (seq 0 n) /\ forall i, ahead g' i = ahead g (n + i)%nat.
  Proof. apply RA. Qed.
  (** [n] samples of [o] in state [s] are what the program computes from the numbers ahead. *)
  Definition follows (o : obj (G Or)) (n : nat) (p : prog (list Q)) (s : St) : Prop :=
    exists v s' xs k, smp Or o n None None s = (Ok v, s') /\ numbers n v xs /\ walk N p (ahead (rng s)) 0 = (xs, k) /\ forall i, ahead (rng s') i = ahead (rng s) (k + i)%nat.
  Lemma run_walk {A} (p : prog A) : forall L c s a s', fits p L c -> run Or p s = (Ok a, s') ->
    exists k, walk N p (ahead (rng s)) 0 = (a, k) /\ forall i, ahead (rng s') i = ahead (rng s) (k + i)%nat.
  Proof.
    induction p as [x|ch next IH]; intros L c s a s' F E.
    - cbn in E. inversion E; subst. exists 0%nat. split; reflexivity.
    - destruct F as (Pr & L' & c' & -> & -> & F). pose proof (make_follow Or N ahead HN RL R ch s Pr) as M. cbn [run walk] in *. unfold bindS in E. destruct (single ch) eqn:Sg.
      + rewrite M in E. unfold single in Sg. apply Nat.eqb_eq in Sg. destruct (law ch) as [|[w v] [|]] eqn:El; try discriminate Sg. cbn [nth snd] in *.
        apply (IH v L' c' s a s' (F w v (or_introl eq_refl)) E).
      + destruct M as (s1 & M & A1). rewrite M in E. unfold value_of in *.
        pose proof (nth_In (law ch) (0, PNone) (pick_bound N ch (ahead (rng s) 0) Pr (rd_b Or N ahead R _ _))) as I. destruct (nth _ (law ch) _) as [w v].
        destruct (IH v L' c' s1 a s' (F w v I) E) as (k & W & Sh). exists (1 + k)%nat. split.
        * apply (walk_shift N (next (snd (w, v))) _ _ 1 A1 0 a k W).
        * intros i. rewrite Sh, A1. reflexivity.
  Qed.
  Lemma value_plain_of c k : proper c -> (k < N)%nat -> (forall w v, In (w, v) (law c) -> plain v (value v)) -> plain (value_of N c k) (value (value_of N c k)).
  Proof. intros P Hk H. unfold value_of. pose proof (nth_In (law c) (0, PNone) (pick_bound N c k P Hk)) as I. destruct (nth _ (law c) _) as [w x]. eapply H, I. Qed.
  (** Leaves. *)
  Lemma bernoulli_follows p n s : 0 <= p <= 1 -> (1 <= n)%nat -> follows (obj_of (XChoice (CBernoulli p))) n (columns n (XChoice (CBernoulli p))) s.
  Proof.
    intros P Hn. destruct (all_u n (rng s)) as (us & g' & D & U & A). cbn [obj_of leaf_of columns prog_of].
    eexists _, (mkState g' (corr s)), _, _. split; [|split; [|split; [rewrite walk_repeated; reflexivity|exact A]]].
    - rewrite smp_odist, smp_leaf, wrap_none by lia. cbn [leaf_sample]. unfold bernoulli_sample, bindS, rngf. rewrite D. cbn [ret]. rewrite simplify_finish. reflexivity.
    - apply numbers_of; [rewrite map_length; pose proof (P_Dice.f2_length _ _ _ U) as X; now rewrite seq_length in X|].
      clear -U. induction U as [|u i us l E U IH]; cbn [map]; constructor; [|exact IH]. rewrite (lt_compat u _ p E). unfold value_of. cbn [pick_of law]. destruct (Qlt_bool _ _); reflexivity.
  Qed.
  Lemma roll_value m s : (2 <= m)%nat -> exists z s', single_roll Or (Z.of_nat m) None s = (Ok z, s') /\ PInt z = value_of N (CDie m) (ahead (rng s) 0) /\ forall i, ahead (rng s') i = ahead (rng s) (S i).
  Proof.
    intros P. pose proof (make_follow Or N ahead HN RL R (CDie m) s P) as M.
    assert (single (CDie m) = false) as S1. { unfold single. cbn [law]. rewrite map_length, seq_length. apply Nat.eqb_neq. lia. }
    rewrite S1 in M. destruct M as (s' & M & A). cbn [make] in M. unfold one, bindS in M. rewrite smp_odist, smp_leaf, wrap_none in M by lia. cbn [leaf_sample die_sample] in M. unfold bindS in M.
    destruct (single_roll Or (Z.of_nat m) None s) as [[z|e] t]; [|discriminate]. cbn in M. inversion M; subst. exists z, s'. auto.
  Qed.
  Lemma rolls_value m : (2 <= m)%nat -> forall n s, exists zs s', replicateS n (single_roll Or (Z.of_nat m) None) s = (Ok zs, s') /\
    map PInt zs = map (fun i => value_of N (CDie m) (ahead (rng s) i)) (seq 0 n) /\ forall i, ahead (rng s') i = ahead (rng s) (n + i)%nat.
  Proof.
    intros P. induction n as [|n IH]; intros s; [exists [], s; repeat split|]. destruct (roll_value m s P) as (z & s1 & E & V & A). destruct (IH s1) as (zs & s2 & E2 & V2 & A2).
    exists (z :: zs), s2. split; [cbn [replicateS]; unfold bindS; rewrite E, E2; reflexivity|]. split.
    - cbn [map seq]. rewrite V, V2, <- seq_shift, map_map. f_equal. apply map_ext. intros i. now rewrite A.
    - intros i. rewrite A2, A. reflexivity.
  Qed.
  Lemma die_follows m n s : (2 <= m)%nat -> (1 <= n)%nat -> (forall w v, In (w, v) (law (CDie m)) -> plain v (value v)) -> follows (obj_of (XChoice (CDie m))) n (columns n (XChoice (CDie m))) s.
  Proof.
    intros P Hn V. destruct (rolls_value m P n s) as (zs & s' & E & M & A). cbn [obj_of leaf_of columns prog_of].
    assert (single (CDie m) = false) as S1. { unfold single. cbn [law]. rewrite map_length, seq_length. apply Nat.eqb_neq. lia. }
    assert (LZ : length zs = n) by (apply (f_equal (@length pv)) in M; now rewrite !map_length, seq_length in M).
    exists (finish_list Or (simplify (map PInt zs))), s', (map (fun i => value (value_of N (CDie m) (ahead (rng s) i))) (seq 0 n)), n. split; [|split; [|split; [rewrite walk_repeated, S1; reflexivity|exact A]]].
    - rewrite smp_odist, smp_leaf, wrap_none by lia. cbn [leaf_sample]. destruct n as [|[|n]]; [lia| |].
      + cbn [replicateS] in E. cbn [die_sample]. unfold bindS in *. destruct (single_roll Or (Z.of_nat m) None s) as [[z|e] t]; [|discriminate]. cbn in E. inversion E; subst. reflexivity.
      + cbn [die_sample]. unfold bindS at 1. rewrite E. destruct zs as [|z1 [|z2 zs]]; try discriminate LZ. reflexivity.
    - rewrite simplify_finish, M. apply numbers_of; [now rewrite map_length, seq_length|]. apply (forall2_same plain). intros i _. apply value_plain_of; auto. apply (rd_b Or N ahead R).
  Qed.
  Lemma draws_all n s : exists us s', SpecDiscrete.uniform_draws Or n s us s' /\ Forall2 (fun u i => u == grid N (ahead (rng s) i)) us (seq 0 n) /\ forall i, ahead (rng s') i = ahead (rng s) (n + i)%nat.
  Proof.
    unfold SpecDiscrete.uniform_draws. destruct (Nat.leb n 100).
    - revert s. induction n as [|n IH]; intros s; [exists [], s; split; [constructor|split; [constructor|reflexivity]]|].
      destruct (rd_u Or N ahead R (rng s)) as (u & g & D & U & A). destruct (IH (mkState g (corr s))) as (us & s' & E & F & B). cbn [rng] in *. exists (u :: us), s'.
      split; [econstructor; eauto|]. split.
      + cbn [seq]. constructor; [exact U|]. rewrite <- seq_shift. clear -F A. induction F as [|x i us l E F IH]; cbn [map]; constructor; [now rewrite <- A|exact IH].
      + intros i. rewrite B, A. reflexivity.
    - destruct (all_u n (rng s)) as (us & g & D & U & A). exists us, (mkState g (corr s)). split; [eauto|]. split; [exact U|exact A].
  Qed.
  Lemma grid_low k : (k < N)%nat -> grid N k <= 1.
  Proof. intros H. destruct (grid_range N k H). lra. Qed.
  Lemma cat_follows c items n s : (exists l, c = CDiscrete l) \/ (exists l, c = CAmong l) -> proper c -> (1 <= n)%nat -> (forall w v, In (w, v) (law c) -> plain v (value v)) ->
    cat_list items = Ok (map fst (law c), map (fun e => IPlain (snd e)) (law c)) -> leaf_of c = LCatList items -> follows (obj_of (XChoice c)) n (columns n (XChoice c)) s.
  Proof.
    intros K P Hn V C E. cbn [obj_of columns prog_of]. rewrite E. assert (K1 : length (law c) <> 0%nat).
    { intros X. pose proof (pick_bound N c 0 P HN). lia. }
    destruct (single c) eqn:S1.
    - pose proof S1 as S2. unfold single in S2. apply Nat.eqb_eq in S2. destruct (law c) as [|[w v] [|]] eqn:El; try discriminate S2. cbn [map fst snd] in C.
      assert (HV : plain v (value v)) by (apply (V w v); now left).
      eexists _, s, _, 0%nat. split; [apply (discrete_single Or (LCatList items) [w] (IPlain v) n s); [left; eauto|exact Hn]|]. split; [|split; [rewrite walk_repeated, S1, El; reflexivity|reflexivity]].
      cbn [item_pv nth snd]. split; [apply n_simplify, repeat_length|]. rewrite elems_simplify. clear -HV. induction n; cbn; constructor; auto.
    - destruct (draws_all n s) as (us & s' & D & U & A).
      exists (simplify (np_array (fmt Or) (map (fun i => value_of N c (ahead (rng s) i)) (seq 0 n)))), s', (map (fun i => value (value_of N c (ahead (rng s) i))) (seq 0 n)), n.
      split; [|split; [|split; [rewrite walk_repeated, S1; reflexivity|exact A]]].
      + unfold single in S1. apply Nat.eqb_neq in S1. apply (discrete_values Or RL (LCatList items) _ _ n s _ _ (or_introl (ex_intro _ _ (conj eq_refl C)))); [exact Hn|rewrite map_length; lia|].
        exists us, (map (fun i => value_of N c (ahead (rng s) i)) (seq 0 n)). split; [exact D|]. split; [|reflexivity].
        pose proof (law_weights_total c P) as T. generalize (rd_b Or N ahead R (rng s)). intros B. clear -U T B P K. induction U as [|u i us l E U IH]; cbn [map]; constructor; [|exact IH].
        exists (pick_of N c (ahead (rng s) i)), (IPlain (value_of N c (ahead (rng s) i))). split; [eapply falls_compat; [symmetry; exact E|]; now apply pick_falls|].
        split; [intros _; rewrite T, E; apply grid_low, B|]. split; [|reflexivity].
        rewrite nth_error_map, (nth_error_nth' (law c) (0, PNone)) by (apply pick_bound; [exact P|apply B]). reflexivity.
      + apply numbers_of; [now rewrite map_length, seq_length|]. apply (forall2_same plain). intros i _. apply value_plain_of; auto. apply (rd_b Or N ahead R).
  Qed.
  Lemma leaf_follows c n s : sound (XChoice c) -> (1 <= n)%nat -> follows (obj_of (XChoice c)) n (columns n (XChoice c)) s.
  Proof.
    intros (P & Ne & V) Hn. destruct c as [p|p| |m|l|l].
    - now destruct (Ne p).
    - now apply bernoulli_follows.
    - destruct (V (1#2) (PStr "heads") ltac:(left; reflexivity)).
    - now apply die_follows.
    - apply (cat_follows _ (map (fun e => IPair (Num (fst e)) (snd e)) l)); eauto. destruct P as (Hl & Pp & T). cbn [law].
      pose proof (pairs_processed l Hl (positive_nn _ Pp) ltac:(lra) ltac:(lra)) as H. unfold positive_entries in H. now rewrite (pairs_kept l Pp) in H.
    - apply (cat_follows _ (map IPlain l)); eauto. destruct P as (Hl & Hm). apply among_processed; auto.
  Qed.
  (** Operators. *)
  Lemma combine_zip o xs : forall ys, map (fun p => exact o (fst p) (snd p)) (combine xs ys) = zip (exact o) xs ys.
  Proof. induction xs as [|x xs IH]; intros [|y ys]; cbn; try reflexivity. f_equal. apply IH. Qed.
  Lemma op_follows o a b n s : (1 <= n)%nat -> follows (obj_of a) n (columns n a) s -> (forall s', follows (obj_of b) n (columns n b) s') ->
    follows (obj_of (XOp o a b)) n (columns n (XOp o a b)) s.
  Proof.
    intros Hn (u & s1 & xs & k & A & Na & Wa & Sa) Hb. destruct (Hb s1) as (w & s2 & ys & j & B & Nb & Wb & Sb).
    assert (X : exists v, smp Or (obj_of (XOp o a b)) n None None s = (Ok v, s2) /\ numbers n v (map (fun p => exact o (fst p) (snd p)) (combine xs ys))).
    { destruct o; cbn [obj_of exact].
      - apply (two_place Or _ _ (fun arr => binop (pow_ Or) arr Add) Qplus (FOp Add) n s _ _ s1 s2 _ _ Hn (obj_some Or b) (op_result Or n Add) (arith_op Or Add n Qplus ltac:(reflexivity)) A B Na Nb).
      - apply (two_place Or _ _ (fun arr => binop (pow_ Or) arr Sub) Qminus (FOp Sub) n s _ _ s1 s2 _ _ Hn (obj_some Or b) (op_result Or n Sub) (arith_op Or Sub n Qminus ltac:(reflexivity)) A B Na Nb).
      - apply (two_place Or _ _ (fun arr => binop (pow_ Or) arr Mul) Qmult (FOp Mul) n s _ _ s1 s2 _ _ Hn (obj_some Or b) (op_result Or n Mul) (arith_op Or Mul n Qmult ltac:(reflexivity)) A B Na Nb).
      - apply (two_place Or _ _ (fun _ => max_pv) (fun x y => if Qlt_bool x y then y else x) _ n s _ _ s1 s2 _ _ Hn (obj_some Or b) (user_result Or n _) (fun p q x y P Q => max_plain p q x y P Q) A B Na Nb).
      - apply (two_place Or _ _ (fun _ => min_pv) (fun x y => if Qlt_bool y x then y else x) _ n s _ _ s1 s2 _ _ Hn (obj_some Or b) (user_result Or n _) (fun p q x y P Q => min_plain p q x y P Q) A B Na Nb). }
    destruct X as (v & E & Nv). rewrite combine_zip in Nv. exists v, s2, (zip (exact o) xs ys), (k + j)%nat. split; [exact E|]. split; [exact Nv|]. split.
    - cbn [columns]. rewrite (walk_after N _ _ _ _ _ _ Wa). apply (walk_shift N _ (ahead (rng s)) _ k Sa) in Wb. rewrite Nat.add_0_r in Wb. rewrite (walk_after N _ _ _ _ _ _ Wb). reflexivity.
    - intros i. rewrite Sb, Sa. f_equal. lia.
  Qed.
  (** Mixtures. *)
  Lemma obo_run l : sound (XMix l) -> forall n s, exists xs ys s', one_by_one Or (map fst l) (map (fun e => obj_of (snd e)) l) n s xs s' /\
    run Or (repeated n (prog_of (XMix l))) s = (Ok ys, s') /\ Forall2 plain xs ys.
  Proof.
    intros S0. pose proof S0 as (H2 & P & T & S). apply sound_parts in S. induction n as [|n IH]; intros s.
    - exists [], [], s. split; [constructor|]. split; [reflexivity|constructor].
    - destruct (make_branch Or N ahead HN RL R l s H2 P T) as (u & g & i & D & F & B & M).
      destruct (nth_error l i) as [e|] eqn:E; [|apply nth_error_None in E; lia]. apply nth_error_In in E as Ie. rewrite Forall_forall in S.
      destruct (expr_run Or N ahead HN RL R (snd e) (S e Ie) (mkState g (corr s))) as (v & x & s1 & A & Ra & Pa).
      destruct (IH s1) as (xs & ys & s2 & O & Rr & Ps). exists (v :: xs), (x :: ys), s2. split; [|split; [|constructor; auto]].
      + eapply obo_step; [exact D|exact F|now rewrite nth_error_map, E|exact A|exact O].
      + cbn [repeated]. rewrite (run_after Or).
        assert (run Or (prog_of (XMix l)) s = (Ok x, s1)) as ->.
        { cbn [prog_of run]. unfold bindS. rewrite M. cbn beta iota. rewrite Nat2Z.id.
          assert (nth i (map (fun e => prog_of (snd e)) l) (Return 0) = prog_of (snd e)) as -> by (apply nth_error_nth; now rewrite nth_error_map, E). exact Ra. }
        rewrite (run_after Or), Rr. reflexivity.
  Qed.
  Lemma obo_length ws ds n s xs s' : one_by_one Or ws ds n s xs s' -> length xs = n.
  Proof. induction 1; cbn; congruence. Qed.
  Lemma mix_ready l : sound (XMix l) -> ready (map fst l) (map (fun e => @obj_of (G Or) (snd e)) l).
  Proof. intros (H2 & P & T & S). split; [now rewrite !map_length|]. split; [exact P|]. lra. Qed.
  Lemma mix_small l n s : sound (XMix l) -> (1 <= n <= 100)%nat -> follows (obj_of (XMix l)) n (columns n (XMix l)) s.
  Proof.
    intros S Hn. destruct (obo_run l S n s) as (xs & ys & s' & O & Rn & P).
    destruct (run_walk _ _ _ s ys s' (fits_repeated _ _ _ n (fits_prog _ S)) Rn) as (k & W & Sh).
    exists (simplify (np_array (fmt Or) xs)), s', ys, k. split; [|split; [|split; [|exact Sh]]].
    - cbn [obj_of]. apply (mixture_small Or RL _ _ n s _ _ Hn (mix_ready l S)); [rewrite map_length; apply S|]. eauto.
    - apply numbers_of; [eapply obo_length; exact O|exact P].
    - cbn [columns]. assert (Nat.leb n 100 = true) as -> by (apply Nat.leb_le; lia). exact W.
  Qed.
  Lemma columns_len n ds s cols s' : all_columns Or n ds s cols s' -> length cols = length ds.
  Proof. induction 1; cbn; congruence. Qed.
  Lemma columns_follow n (l : list (Q * dexp)) : (forall e, In e l -> forall s, follows (obj_of (snd e)) n (columns n (snd e)) s) -> forall s,
    exists cols s' xss k, all_columns Or n (map (fun e => obj_of (snd e)) l) s cols s' /\ Forall2 (Forall2 plain) cols xss /\ Forall (fun c => length c = n) cols /\
      walk N (collect (map (fun e => columns n (snd e)) l)) (ahead (rng s)) 0 = (xss, k) /\ forall i, ahead (rng s') i = ahead (rng s) (k + i)%nat.
  Proof.
    induction l as [|e l IH]; intros H s; cbn [map collect].
    - exists [], s, [], 0%nat. split; [constructor|]. repeat split; constructor.
    - destruct (H e (or_introl eq_refl) s) as (v & s1 & xs & k & E & [Nv Pv] & W & Sh).
      destruct (IH (fun e' I => H e' (or_intror I)) s1) as (cols & s2 & xss & j & AC & Ps & Ls & W2 & Sh2).
      exists (elems v :: cols), s2, (xs :: xss), (k + j)%nat. split; [|split; [|split; [|split]]].
      + destruct v as [x|m]; (eapply ac_cons in AC; [|exact E]); exact AC.
      + constructor; auto.
      + constructor; auto. now apply n_elems.
      + rewrite (walk_after N _ _ _ _ _ _ W). apply (walk_shift N _ (ahead (rng s)) _ k Sh) in W2. rewrite Nat.add_0_r in W2. rewrite (walk_after N _ _ _ _ _ _ W2). reflexivity.
      + intros i. rewrite Sh2, Sh. f_equal. lia.
  Qed.
  Lemma walk_picks l st n : (2 <= length l)%nat -> forall k, walk N (repeated n (pick_branch l)) st k = (map (fun i => match value_of N (branches l) (st i) with PInt z => Z.to_nat z | _ => 0%nat end) (seq k n), (k + n)%nat).
  Proof.
    intros H2. assert (S1 : single (branches l) = false) by (unfold single; rewrite branches_length; apply Nat.eqb_neq; lia).
    induction n as [|n IH]; intros k; [cbn; now rewrite Nat.add_0_r|]. cbn [repeated after walk pick_branch]. rewrite S1. erewrite walk_after; [|apply IH]. cbn [walk seq map]. f_equal. lia.
  Qed.
  Lemma chosen_nth picks : forall cols, chosen picks cols = map (fun j => nth j (nth (nth j picks 0%nat) cols []) 0) (seq 0 (length picks)).
  Proof.
    induction picks as [|i picks IH]; intros cols; [reflexivity|]. cbn [chosen length seq map nth]. f_equal; [now destruct (nth i cols [])|].
    rewrite IH, <- seq_shift, map_map. apply map_ext. intros j. cbn [nth]. change (@nil Q) with (tl (@nil Q)) at 1. rewrite map_nth. destruct (nth _ cols []); [destruct j|]; reflexivity.
  Qed.
  Lemma f2_entry (cols : list (list pv)) xss i j : Forall2 (Forall2 plain) cols xss -> (i < length cols)%nat -> (j < length (nth i cols []))%nat ->
    plain (nth j (nth i cols []) PNone) (nth j (nth i xss []) 0).
  Proof.
    intros F. revert i. induction F as [|c xs cols xss Fc F IH]; intros i Hi Hj; [cbn in Hi; lia|]. destruct i as [|i]; cbn [nth] in *; [|apply IH; cbn in *; lia].
    clear -Fc Hj. revert j Hj. induction Fc; intros j Hj; [cbn in Hj; lia|]. destruct j; cbn [nth] in *; [assumption|]. apply IHFc. cbn in Hj. lia.
  Qed.
  Lemma branch_index (l : list (Q * dexp)) k : (2 <= length l)%nat -> positive (map fst l) -> total (map fst l) == 1 -> (k < N)%nat ->
    exists i, value_of N (branches l) k = PInt (Z.of_nat i) /\ (i < length l)%nat /\ falls (map fst l) (grid N k) i.
  Proof.
    intros H2 P T Hk. pose proof (branches_proper l H2 P T) as Pr. exists (pick_of N (branches l) k).
    pose proof (pick_bound N (branches l) k Pr Hk) as B. rewrite branches_length in B. split; [unfold value_of; now apply branches_nth|]. split; [exact B|].
    pose proof (pick_falls N (branches l) k Pr (or_introl (ex_intro _ _ eq_refl))) as F. now rewrite branches_fst in F.
  Qed.
  Lemma mix_large l n s : sound (XMix l) -> (100 < n)%nat -> (forall e, In e l -> forall s, follows (obj_of (snd e)) n (columns n (snd e)) s) ->
    follows (obj_of (XMix l)) n (columns n (XMix l)) s.
  Proof.
    intros S Hn H. destruct (columns_follow n l H s) as (cols & s1 & xss & k & AC & Ps & Ls & W & Sh). destruct (all_u n (rng s1)) as (us & g & D & U & A).
    pose proof S as (H2 & P & T & _). pose proof (P_Dice.f2_length _ _ _ Ps) as Lc.
    assert (LC : length cols = length l). { pose proof (columns_len n _ _ _ _ AC) as X. now rewrite map_length in X. }
    set (pk := fun j => match value_of N (branches l) (ahead (rng s1) j) with PInt z => Z.to_nat z | _ => 0%nat end).
    assert (PK : forall j, exists i, pk j = i /\ (i < length l)%nat /\ falls (map fst l) (grid N (ahead (rng s1) j)) i).
    { intros j. destruct (branch_index l (ahead (rng s1) j) H2 P T (rd_b Or N ahead R _ _)) as (i & E & B & F). exists i. unfold pk. rewrite E, Nat2Z.id. auto. }
    set (xs := map (fun j => nth j (nth (pk j) cols []) PNone) (seq 0 n)).
    assert (LN : forall i, (i < length l)%nat -> length (nth i cols []) = n).
    { intros i Hi. rewrite Forall_forall in Ls. apply Ls, nth_In. lia. }
    exists (simplify (np_array (fmt Or) xs)), (mkState g (corr s1)), (chosen (map pk (seq 0 n)) xss), (k + n)%nat. split; [|split; [|split]].
    - cbn [obj_of]. apply (mixture_large Or _ _ n s _ _ Hn (mix_ready l S)); [rewrite map_length; lia|]. exists cols, s1, us, g, xs. split; [exact AC|]. split; [exact D|]. split; [reflexivity|].
      split; [|reflexivity]. pose proof (P_Dice.f2_length _ _ _ U) as LU. rewrite seq_length in LU. split; [unfold xs; now rewrite map_length, seq_length|].
      intros j u Ej. assert (Hj : (j < n)%nat) by (rewrite <- LU; apply nth_error_Some; congruence). destruct (PK j) as (i & Ei & Bi & Fi).
      assert (Eu : u == grid N (ahead (rng s1) j)).
      { clear -U Ej Hj LU. assert (G : forall m us, Forall2 (fun u i => u == grid N (ahead (rng s1) i)) us (seq m n) -> nth_error us j = Some u -> u == grid N (ahead (rng s1) (m + j))).
        { clear. revert j. induction n as [|n IH]; intros j m us F E; inversion F; subst; [destruct j; discriminate|]. destruct j; cbn in E; [inversion E; subst; now rewrite Nat.add_0_r|].
          rewrite <- plus_n_Sm. apply (IH j (S m) _ H3 E). }
        apply (G 0%nat us U Ej). }
      exists i, (nth i cols []). split; [eapply falls_compat; [symmetry; exact Eu|exact Fi]|]. split; [rewrite T, Eu; apply grid_low, (rd_b Or N ahead R)|].
      split; [apply nth_error_nth'; lia|]. unfold xs. rewrite nth_error_map, (nth_error_nth' (seq 0 n) 0%nat) by (rewrite seq_length; lia). rewrite seq_nth by lia. cbn [option_map Nat.add]. rewrite Ei.
      split; [|discriminate]. apply nth_error_nth'. rewrite LN; lia.
    - apply numbers_of; [unfold xs; now rewrite map_length, seq_length|]. rewrite chosen_nth. rewrite map_length, seq_length. apply (forall2_same plain). intros j Ij. apply in_seq in Ij.
      destruct (PK j) as (i & Ei & Bi & _). assert (nth j (map pk (seq 0 n)) 0%nat = pk j) as ->.
      { rewrite (nth_indep _ 0%nat (pk 0%nat)) by (rewrite map_length, seq_length; lia). rewrite map_nth, seq_nth by lia. reflexivity. }
      rewrite Ei. apply f2_entry; [exact Ps|lia|]. rewrite LN; lia.
    - cbn [columns]. assert (Nat.leb n 100 = false) as -> by (apply Nat.leb_gt; lia). rewrite (walk_after N _ _ _ _ _ _ W).
      pose proof (walk_picks l (ahead (rng s1)) n H2 0) as WP. apply (walk_shift N _ (ahead (rng s)) _ k Sh) in WP. rewrite Nat.add_0_r in WP. rewrite (walk_after N _ _ _ _ _ _ WP). reflexivity.
    - intros i. cbn [rng]. rewrite A, Sh. f_equal. lia.
  Qed.
  Lemma expr_follows e : sound e -> forall n s, (1 <= n)%nat -> follows (obj_of e) n (columns n e) s.
  Proof.
    induction e as [x|c|o a b IHa IHb|l IH] using dexp_rect'; intros S n s Hn.
    - exists (copies (PFlt (Fin x)) n), s, (repeat x n), 0%nat. split; [now apply sample_lit|]. split; [|split; reflexivity]. split; [apply copies_n|]. rewrite copies_elems. clear. induction n; cbn; constructor; auto. cbn. reflexivity.
    - now apply leaf_follows.
    - destruct S as [Sa Sb]. apply op_follows; auto.
    - destruct (Nat.le_gt_cases n 100); [apply mix_small; auto|]. apply mix_large; auto. pose proof S as (_ & _ & _ & Sp). apply sound_parts in Sp. rewrite Forall_forall in IH, Sp. auto.
  Qed.
  Lemma plain_values l xs : Forall2 plain l xs -> forallb is_number l = true /\ Forall2 Qeq (map value l) xs.
  Proof.
    induction 1 as [|v x l xs P F [A B]]; [split; [reflexivity|constructor]|]. destruct v as [z|[q| | |]| | |]; cbn in P; try contradiction; (split; [exact A|]); cbn [map value]; constructor; auto.
  Qed.
  Lemma samples_follow e n P s : sound e -> (1 <= n)%nat -> of_number_lists P -> samples_in Or (obj_of e) n P s = okP P (follow N (columns n e) (coming Or ahead (n * work e) s)).
  Proof.
    intros S Hn HP. destruct (expr_follows e S n s Hn) as (v & s' & xs & k & E & [Nv Pv] & W & _).
    rewrite (follow_walk N (columns n e) (ahead (rng s)) (rd_b Or N ahead R (rng s)) (n * work e) (n * spread e) 0 _ (fits_columns e S n)).
    - rewrite W. cbn [fst okP]. unfold samples_in. rewrite E. cbn [fst]. rewrite (n_elems _ _ Nv), Nat.eqb_refl. destruct (plain_values _ _ Pv) as [-> Q]. cbn [andb]. now apply HP.
    - unfold coming. rewrite map_length, seq_length. lia.
    - unfold coming. rewrite map_length, seq_length. intros i Hi. rewrite (nth_indep _ 0%nat (ahead (rng s) 0%nat)) by (rewrite map_length, seq_length; lia). rewrite map_nth, seq_nth by lia. reflexivity.
  Qed.
  Lemma samples_share e n P ss : sound e -> (1 <= n)%nat -> of_number_lists P -> each_once N (n * work e) (map (coming Or ahead (n * work e)) ss) ->
    Qabs (qnat (count (samples_in Or (obj_of e) n P) ss) / qnat (N ^ (n * work e)) - chance (repeated n (prog_of e)) P) <= qnat (n * spread e) / qnat N.
  Proof.
    intros S Hn HP Eo. rewrite (count_same2 _ (fun s => okP P (follow N (columns n e) (coming Or ahead (n * work e) s)))) by (intros s; now apply samples_follow).
    rewrite (count_cnt _ ss). rewrite <- (cnt_map (coming Or ahead (n * work e)) (fun ks => okP P (follow N (columns n e) ks)) ss).
    rewrite (each_once_count N _ _ _ Eo).
    assert (EC : chance (repeated n (prog_of e)) P == chance (columns n e) P) by (rewrite !expect_chance; symmetry; now apply columns_law). rewrite EC.
    apply (sequences_count N (columns n e) P HN (n * work e) (n * spread e) (fits_columns e S n)). lia.
  Qed.
  Lemma total_compat xs ys : Forall2 Qeq xs ys -> total xs == total ys.
  Proof. induction 1 as [|x y xs ys E F IH]; cbn; [reflexivity|]. now rewrite E, IH. Qed.
  Lemma mean_near_numbers n d y : of_number_lists (mean_near n d y).
  Proof. intros xs ys F. unfold mean_near. f_equal. apply far_compat; [|reflexivity]. now rewrite (total_compat xs ys F). Qed.
  Lemma samples_mean e n lo hi d ss : sound e -> (1 <= n)%nat -> 0 < d -> returns (prog_of e) (fun x => lo <= x <= hi) ->
    each_once N (n * work e) (map (coming Or ahead (n * work e)) ss) ->
    1 - (hi - lo) * (hi - lo) / (4 * qnat n * (d * d)) - qnat (n * spread e) / qnat N <=
    qnat (count (samples_in Or (obj_of e) n (mean_near n d (expected e))) ss) / qnat (N ^ (n * work e)).
  Proof.
    intros S Hn Hd B Eo. pose proof (samples_share e n _ ss S Hn (mean_near_numbers n d (expected e)) Eo) as H. apply Qabs_Qle_condition in H. destruct H as [H _].
    pose proof (chebyshev (prog_of e) (fun x => x) lo hi _ _ n d (fits_prog e S) B Hn Hd) as C.
    assert (X : chance (repeated n (prog_of e)) (mean_near n d (expected e)) == 1 - chance (repeated n (prog_of e)) (fun l => far d (total (map (fun x => x) l) / qnat n) (expect (prog_of e) (fun x => x)))).
    { rewrite !expect_chance. rewrite (expect_ext _ _ (fun l => 1 * 1 + (-1) * (if far d (total (map (fun x => x) l) / qnat n) (expect (prog_of e) (fun x => x)) then 1 else 0))).
      - rewrite expect_linear, (expect_const _ 1 _ _ (fits_repeated _ _ _ n (fits_prog e S))). ring.
      - intros l. unfold mean_near, expected. rewrite map_id. destruct (far _ _ _); cbn [negb]; reflexivity. }
    rewrite X in H. lra.
  Qed.
End Runs.
