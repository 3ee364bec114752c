(** Dice (C86) and a generator meeting the parameter contract. *)
From Verif Require Import Base M_Weights SpecWeights P_Weights M_Pick M_Values M_Sampler M_Ctor
  SpecSampler SpecSampler2 SpecCtor P_Sampler P_Count P_Clip P_Ops P_Sampler2 P_Support P_Ctor.
From Coq Require Import Lqa FinFun.
Open Scope Q_scope.

(* ------------------------------------------------------------------ *)
Lemma f_validb_spec r : f_validb r = true <-> f_valid r.
Proof.
  destruct r; simpl; rewrite ?andb_true_iff, ?qlt_true, ?qle_true; tauto.
Qed.
Lemma i_validb_spec r : i_validb r = true <-> i_valid r.
Proof.
  destruct r; simpl; rewrite ?andb_true_iff, ?qlt_true, ?qle_true, ?Z.leb_le, ?Z.ltb_lt; tauto.
Qed.
Lemma strict_checks : numpy_checks strict_oracle.
Proof.
  repeat split; intros r n g V; cbn [strict_oracle drawf drawi].
  - apply f_validb_spec in V. rewrite V. eauto.
  - destruct (f_validb r) eqn:E; [apply f_validb_spec in E; contradiction|eauto].
  - apply i_validb_spec in V. rewrite V. eauto.
  - destruct (i_validb r) eqn:E; [apply i_validb_spec in E; contradiction|eauto].
Qed.
Lemma ex_fracs_len n : forall k, length (ex_fracs n k) = n.
Proof. induction n; simpl; auto. Qed.
Lemma strict_length : right_length strict_oracle.
Proof.
  split; intros r n g l g' H; cbn [strict_oracle drawf drawi] in H.
  - destruct (f_validb r); inversion H; subst. now rewrite map_length, ex_fracs_len.
  - destruct (i_validb r); inversion H; subst. now rewrite map_length, ex_fracs_len.
Qed.
Lemma ex_frac_unit k : 0 <= ex_frac k /\ ex_frac k < 1.
Proof.
  unfold ex_frac. pose proof (Z.mod_pos_bound (7 * Z.of_nat k + 3) 10 ltac:(lia)) as B.
  set (z := ((7 * Z.of_nat k + 3) mod 10)%Z) in *.
  split; [apply Qle_shift_div_l; [lra|]; rewrite Qmult_0_l; change 0 with (inject_Z 0); rewrite <- Zle_Qle; lia|].
  apply Qlt_shift_div_r; [lra|]. rewrite Qmult_1_l. change 10 with (inject_Z 10). rewrite <- Zlt_Qlt. lia.
Qed.
Lemma ex_fracs_unit n : forall k, Forall (fun u => 0 <= u /\ u < 1) (ex_fracs n k).
Proof. induction n; simpl; constructor; auto using ex_frac_unit. Qed.
Lemma ex_float_range r u : f_valid r -> 0 <= u -> u < 1 -> frange r (ex_float r u).
Proof.
  intros V A B. destruct r; simpl in *; auto; try lra.
  - intros. split; nra.
  - destruct V as (? & ? & ?). split; nra.
Qed.
Lemma ex_int_range r u : i_valid r -> 0 <= u -> u < 1 -> irange r (ex_int r u).
Proof.
  intros V A B. destruct r; simpl in *; try lia.
  assert (P : 0 < inject_Z (hi - lo)) by (change 0 with (inject_Z 0); rewrite <- Zlt_Qlt; lia).
  pose proof (Qfloor_le (u * inject_Z (hi - lo))) as F.
  assert (L : (0 <= Qfloor (u * inject_Z (hi - lo)))%Z).
  { change 0%Z with (Qfloor 0). apply Qfloor_resp_le. nra. }
  assert (U : (Qfloor (u * inject_Z (hi - lo)) < hi - lo)%Z).
  { rewrite Zlt_Qlt. eapply Qle_lt_trans; [exact F|]. nra. }
  lia.
Qed.
Lemma strict_support : in_support strict_oracle.
Proof.
  split; intros r n g l g' H; cbn [strict_oracle drawf drawi] in H.
  - destruct (f_validb r) eqn:V; inversion H; subst. apply f_validb_spec in V.
    apply Forall_map. eapply Forall_impl; [|apply ex_fracs_unit]. intros u [A B]. now apply ex_float_range.
  - destruct (i_validb r) eqn:V; inversion H; subst. apply i_validb_spec in V.
    apply Forall_map. eapply Forall_impl; [|apply ex_fracs_unit]. intros u [A B]. now apply ex_int_range.
Qed.

(* ------------------------------------------------------------------ *)
(** * Acceptance *)
Lemma py_isint_spec v z : py_isint v = Some z <-> py_int v z.
Proof.
  unfold py_int. destruct v; simpl; split; intros H; try discriminate;
    try (destruct H as [H|(c & H & _)]; discriminate).
  - inversion H; auto.
  - destruct H as [H|(c & H & _)]; inversion H; auto.
  - inversion H; subst. right. exists b. split; auto.
  - destruct H as [H|(c & H & ->)]; inversion H; subst. now destruct c.
Qed.
Lemma explode_values_spec n l : forall zs, explode_values n l = Ok zs <->
  Forall2 (fun v z => py_int v z /\ (1 <= z <= n)%Z) l zs.
Proof.
  induction l as [|v l IH]; intros zs; simpl.
  - split; intros H; inversion H; auto.
  - destruct (py_isint v) as [z|] eqn:E.
    + apply py_isint_spec in E.
      destruct ((z <? 1)%Z || (n <? z)%Z) eqn:B.
      * split; [discriminate|]. intros H. inversion H as [|? z' ? ? [P R] ?]; subst.
        apply py_isint_spec in E, P. assert (z = z') by congruence. subst.
        apply orb_true_iff in B. rewrite Z.ltb_lt, Z.ltb_lt in B. lia.
      * apply orb_false_iff in B. rewrite Z.ltb_ge, Z.ltb_ge in B.
        destruct (explode_values n l) as [r|e] eqn:X; cbn [bind]; split; intros H.
        -- inversion H; subst. constructor; [split; auto; lia|]. now apply IH.
        -- inversion H as [|? z' ? r' [P R] F]; subst. apply IH in F. inversion F; subst.
           apply py_isint_spec in E, P. congruence.
        -- discriminate.
        -- inversion H as [|? z' ? r' [P R] F]; subst. apply IH in F. discriminate.
    + split; [discriminate|]. intros H. inversion H as [|? z' ? ? [P R] ?]; subst.
      apply py_isint_spec in P. congruence.
Qed.
Lemma explode_values_err n l e : explode_values n l = Err e -> exists s, e = ValueError s.
Proof.
  revert e. induction l as [|v l IH]; intros e; simpl; [discriminate|].
  destruct (py_isint v); [|intros H; inversion H; eauto].
  destruct (_ || _); [intros H; inversion H; eauto|].
  destruct (explode_values n l); cbn [bind]; intros H; inversion H; subst; eauto.
Qed.

Lemma f2_length {A B} (R : A -> B -> Prop) l r : Forall2 R l r -> length l = length r.
Proof. induction 1; simpl; auto. Qed.
Lemma explode_list_spec n ex zs : (2 <= n)%Z ->
  (match explode_list ex with
   | None => zs = None
   | Some l => (Z.of_nat (length l) < n)%Z /\ exists l', zs = Some l' /\ Forall2 (fun v z => py_int v z /\ (1 <= z <= n)%Z) l l'
   end) <-> explodes n ex zs.
Proof.
  intros N. destruct ex as [|l|v]; simpl; [tauto| |].
  - split.
    + intros (L & l' & -> & F). exists l'. split; auto. split; auto. now rewrite <- (f2_length _ _ _ F).
    + intros (l' & -> & L & F). split; [now rewrite (f2_length _ _ _ F)|]. eauto.
  - assert (X : (Z.of_nat (length [v]) < n)%Z /\ (exists l', zs = Some l' /\ Forall2 (fun v z => py_int v z /\ (1 <= z <= n)%Z) [v] l')
            <-> exists z, zs = Some [z] /\ py_int v z /\ (1 <= z <= n)%Z).
    { split.
      - intros (L & l' & -> & F). inversion F as [|? z ? ? [P R] F']; subst. inversion F'; subst. eauto.
      - intros (z & -> & P & R). split; [simpl; lia|]. exists [z]. split; auto. }
    destruct v; try exact X. tauto.
Qed.

Lemma die_accepts sides ex k : die_of sides ex = Ok k <->
  exists n zs, k = LDie n zs /\ py_int sides n /\ (2 <= n)%Z /\ explodes n ex zs.
Proof.
  assert (X : forall n, py_isint sides = Some n ->
    ((if (n <? 2)%Z then Err (ValueError "cannot roll less than a 2-sided die.")
      else match explode_list ex with
           | None => Ok (LDie n None)
           | Some l => if (n <=? Z.of_nat (length l))%Z then Err (ValueError "cannot explode on every value")
                       else do zs <- explode_values n l; Ok (LDie n (Some zs))
           end) = Ok k <->
     exists zs, k = LDie n zs /\ (2 <= n)%Z /\ explodes n ex zs)).
  { intros n E. destruct (Z.ltb_spec n 2) as [L|L].
    - split; [discriminate|]. intros (zs & _ & C & _). lia.
    - destruct (explode_list ex) as [l|] eqn:EL.
      + destruct (Z.leb_spec n (Z.of_nat (length l))) as [M|M].
        * split; [discriminate|]. intros (zs & _ & _ & C). apply explode_list_spec in C; auto. rewrite EL in C. lia.
        * destruct (explode_values n l) as [r|e] eqn:EV; cbn [bind].
          -- apply explode_values_spec in EV. split; intros H.
             ++ inversion H; subst. exists (Some r). split; auto. split; auto.
                apply explode_list_spec; auto. rewrite EL. eauto.
             ++ destruct H as (zs & -> & _ & C). apply explode_list_spec in C; auto. rewrite EL in C.
                destruct C as (_ & l' & -> & F). apply explode_values_spec in F, EV. congruence.
          -- split; [discriminate|]. intros (zs & _ & _ & C). apply explode_list_spec in C; auto. rewrite EL in C.
             destruct C as (_ & l' & _ & F). apply explode_values_spec in F. congruence.
      + split.
        * intros H. inversion H; subst. exists None. split; auto. split; auto. apply explode_list_spec; auto. now rewrite EL.
        * intros (zs & -> & _ & C). apply explode_list_spec in C; auto. rewrite EL in C. now subst. }
  unfold die_of. destruct (py_isint sides) as [n|] eqn:E.
  - specialize (X n eq_refl). transitivity (exists zs, k = LDie n zs /\ (2 <= n)%Z /\ explodes n ex zs).
    + destruct sides; try exact X. discriminate.
    + apply py_isint_spec in E. split.
      * intros (zs & A & B & C). exists n, zs. auto.
      * intros (n' & zs & A & P & B & C). apply py_isint_spec in E, P. assert (n = n') by congruence. subst n'. eauto.
  - assert (F : forall m : res leaf, (m = Err (ValueError "sides must be specified") \/ m = Err (ValueError "can only roll an integer number of sides")) ->
        m = Ok k <-> exists n zs, k = LDie n zs /\ py_int sides n /\ (2 <= n)%Z /\ explodes n ex zs).
    { intros m H. split; [destruct H; subst; discriminate|]. intros (n & zs & _ & P & _). apply py_isint_spec in P. congruence. }
    destruct sides; apply F; auto.
Qed.
Lemma die_rejects sides ex e : die_of sides ex = Err e -> exists s, e = ValueError s.
Proof.
  unfold die_of.
  assert (X : forall m : res leaf, (forall e, m = Err e -> exists s, e = ValueError s) ->
    match sides with PNone => Err (ValueError "sides must be specified") | _ => m end = Err e -> exists s, e = ValueError s).
  { intros m H. destruct sides; intros K; auto. inversion K; eauto. }
  apply X. intros e'. destruct (py_isint sides); [|intros H; inversion H; eauto].
  destruct (_ <? _)%Z; [intros H; inversion H; eauto|].
  destruct (explode_list ex) as [l|]; [|discriminate].
  destruct (_ <=? _)%Z; [intros H; inversion H; eauto|].
  destruct (explode_values z l) eqn:EV; cbn [bind]; intros H; inversion H; subst. eapply explode_values_err; eauto.
Qed.

(** Fewer values than sides: some face does not explode. *)
Lemma free_face n (l : list Z) : (Z.of_nat (length l) < n)%Z -> exists f, (1 <= f <= n)%Z /\ ~ In f l.
Proof.
  intros L.
  set (faces := map (fun k => Z.of_nat k) (seq 1 (Z.to_nat n))).
  destruct (Forall_Exists_dec (fun f => In f l) (fun f => in_dec Z.eq_dec f l) faces) as [A|E].
  - exfalso. assert (H : (length faces <= length l)%nat).
    { apply NoDup_incl_length.
      - apply FinFun.Injective_map_NoDup; [intros a b; lia|apply seq_NoDup].
      - intros f Hf. rewrite Forall_forall in A. now apply A. }
    unfold faces in H. rewrite map_length, seq_length in H. lia.
  - apply Exists_exists in E as (f & Hf & N). exists f. split; auto.
    apply in_map_iff in Hf as (k & <- & Hk). apply in_seq in Hk. lia.
Qed.

(* ------------------------------------------------------------------ *)
(** * Rolling *)
Section Rolling.
  Variable Or : oracle.
  Notation St := (state (G Or)).

  Lemma one_int_run lo hi (s : St) z s' : one_int Or lo hi s = (Ok z, s') <->
    exists g, drawi Or (RInt lo hi) 1 (rng s) = (Ok [z], g) /\ s' = mkState g (corr s).
  Proof.
    unfold one_int, bindS, rngi. destruct (drawi Or (RInt lo hi) 1 (rng s)) as [[l|e] g]; split; intros H.
    - destruct l as [|y [|y' l]]; inversion H; subst. eauto.
    - destruct H as (g' & H & ->). inversion H; subst. reflexivity.
    - discriminate.
    - destruct H as (g' & H & _). discriminate.
  Qed.

  Lemma existsb_in z l : existsb (Z.eqb z) l = true <-> In z l.
  Proof.
    rewrite existsb_exists. split; [intros (y & A & B); apply Z.eqb_eq in B; now subst|].
    intros H. exists z. split; auto. apply Z.eqb_refl.
  Qed.

  (** The loop from an already drawn roll. *)
  Lemma explode_sound fuel sides l : forall roll tot s z s',
    explode_loop Or fuel sides l roll tot s = (Ok z, s') ->
    exists rest final, rolled Or sides s rest s' /\ (length rest <= fuel)%nat /\
      (exists bangs, roll :: rest = bangs ++ [final] /\ (forall x, In x bangs -> In x l)) /\ ~ In final l /\
      (z = tot + fold_right Z.add 0 rest)%Z.
  Proof.
    induction fuel as [|f IH]; intros roll tot s z s' H; simpl in H; destruct (existsb (Z.eqb roll) l) eqn:E.
    - destruct (raise_ok _ _ _ _ H).
    - inv_ok H. exists [], roll. split; [constructor|]. split; [simpl; lia|]. split; [exists []; split; auto; intros ? []|].
      split; [intros C; apply existsb_in in C; congruence|]. simpl. lia.
    - apply bindS_ok in H as (r & s1 & Hr & H). apply one_int_run in Hr as (g & D & ->).
      apply IH in H as (rest & final & R & L & (bangs & B1 & B2) & N & T).
      exists (r :: rest), final. split; [econstructor; eauto|]. split; [simpl; lia|]. split.
      + exists (roll :: bangs). split; [simpl; congruence|]. intros x [<-|Hx]; auto. now apply existsb_in.
      + split; auto. simpl. lia.
    - inv_ok H. exists [], roll. split; [constructor|]. split; [simpl; lia|]. split; [exists []; split; auto; intros ? []|].
      split; [intros C; apply existsb_in in C; congruence|]. simpl. lia.
  Qed.
  Lemma sum_app a b : (fold_right Z.add 0 (a ++ b) = fold_right Z.add 0 a + fold_right Z.add 0 b)%Z.
  Proof. induction a; simpl; lia. Qed.

  Lemma explode_complete sides l : forall rest fuel roll tot s s' bangs final,
    rolled Or sides s rest s' -> (length rest <= fuel)%nat -> roll :: rest = bangs ++ [final] ->
    (forall x, In x bangs -> In x l) -> ~ In final l ->
    explode_loop Or fuel sides l roll tot s = (Ok (tot + fold_right Z.add 0 rest)%Z, s').
  Proof.
    induction rest as [|r rest IH]; intros fuel roll tot s s' bangs final R L B I N.
    - inversion R; subst.
      assert (roll = final).
      { destruct bangs as [|b bangs]; simpl in B; inversion B; auto. destruct bangs; discriminate. }
      subst. assert (E : existsb (Z.eqb final) l = false).
      { apply not_true_is_false. intros C. apply existsb_in in C. contradiction. }
      destruct fuel; simpl; rewrite E; unfold ret; f_equal; f_equal; lia.
    - inversion R as [|? ? g ? ? D R']; subst.
      destruct bangs as [|b bangs]; simpl in B; inversion B; subst.
      assert (E : existsb (Z.eqb b) l = true) by (apply existsb_in; apply I; simpl; auto).
      destruct fuel as [|fuel]; [simpl in L; lia|]. simpl. rewrite E.
      unfold bindS. assert (O : one_int Or 1 (sides + 1) s = (Ok r, mkState g (corr s))) by (apply one_int_run; eauto).
      rewrite O.
      erewrite IH; eauto; [|simpl in L; lia|intros x Hx; apply I; simpl; auto].
      f_equal. f_equal. simpl. lia.
  Qed.

  Lemma single_roll_throw sides ex s z s' :
    single_roll Or sides ex s = (Ok z, s') <-> throw Or sides ex (die_fuel Or) s z s'.
  Proof.
    unfold single_roll. split.
    - intros H. apply bindS_ok in H as (r & s1 & Hr & H). apply one_int_run in Hr as (g & D & ->).
      destruct ex as [l|].
      + apply explode_sound in H as (rest & final & R & L & (bangs & B1 & B2) & N & T).
        exists bangs, final. split; [rewrite <- B1; econstructor; eauto|]. split.
        { apply (f_equal (@length Z)) in B1. rewrite app_length in B1. simpl in B1. lia. }
        split; auto. transitivity (fold_right Z.add 0 (r :: rest))%Z; [simpl; lia|]. rewrite B1, sum_app. simpl. lia.
      + inv_ok H. exists [], z. split; [econstructor; eauto; constructor|]. split; [simpl; lia|]. split; auto.
    - intros (bangs & final & R & L & E & T).
      destruct (bangs ++ [final]) as [|r rest] eqn:B; [destruct bangs; discriminate|].
      inversion R as [|? ? g ? ? D R']; subst.
      unfold bindS. assert (X : one_int Or 1 (sides + 1) s = (Ok r, mkState g (corr s))) by (apply one_int_run; eauto).
      rewrite X. destruct ex as [l|].
      + destruct E as [I N]. erewrite explode_complete; eauto.
        * f_equal. f_equal. transitivity (fold_right Z.add 0 (r :: rest))%Z; [simpl; lia|]. rewrite <- B, sum_app. simpl. lia.
        * apply (f_equal (@length Z)) in B. rewrite app_length in B. simpl in B. lia.
      + subst bangs. simpl in B. inversion B; subst. inversion R'; subst. unfold ret. f_equal.
  Qed.

  Lemma throws_run sides ex n : forall s zs s',
    replicateS n (single_roll Or sides ex) s = (Ok zs, s') <->
    throws Or sides ex (die_fuel Or) s zs s' /\ length zs = n.
  Proof.
    induction n as [|n IH]; intros s zs s'; simpl.
    - unfold ret. split; [intros H; inversion H; subst; split; auto; constructor|].
      intros [H L]. destruct zs; [|discriminate]. inversion H; subst; auto.
    - split.
      + intros H. apply bindS_ok in H as (z & s1 & A & H). apply bindS_ok in H as (l & s2 & B & H). inv_ok H.
        apply single_roll_throw in A. apply IH in B as [B L]. split; [econstructor; eauto|simpl; lia].
      + intros [H L]. destruct zs as [|z zs]; [discriminate|]. inversion H as [|? ? s1 ? ? A B]; subst.
        apply single_roll_throw in A. unfold bindS. rewrite A.
        assert (X : replicateS n (single_roll Or sides ex) s1 = (Ok zs, s')) by (apply IH; split; auto).
        rewrite X. reflexivity.
  Qed.

  Lemma ints_uniform zs : uniform_kind (ints zs).
  Proof. right. unfold ints. induction zs; simpl; constructor; eauto. Qed.
  Lemma ints_inj a b : ints a = ints b -> a = b.
  Proof. revert b. induction a; destruct b; simpl; intros H; inversion H; f_equal; auto. Qed.

  (** Sampling a die [n] times is [n] throws in a row. *)
  Lemma die_throws sides ex n s v s' : (1 <= n)%nat ->
    (smp Or (ODist (DLeaf (LDie sides ex) None None)) n None None s = (Ok v, s') <->
     exists zs, length zs = n /\ throws Or sides ex (die_fuel Or) s zs s' /\ v = simplify (map PInt zs)).
  Proof.
    intros Hn. rewrite smp_odist, smp_leaf, wrap_none by assumption. cbn [leaf_sample].
    assert (X : forall zs s1, die_sample Or sides ex n s = (Ok (simplify (map PInt zs)), s1) <->
                length zs = n /\ throws Or sides ex (die_fuel Or) s zs s1).
    { intros zs s1. unfold die_sample. destruct n as [|[|n]]; [lia| |].
      - split.
        + intros H. apply bindS_ok in H as (z & s2 & A & H). apply ret_ok in H as [H ->].
          destruct zs as [|y [|y' zs]]; try discriminate. simpl in H.
          apply single_roll_throw in A. split; auto. inversion H; subst. econstructor; eauto. constructor.
        + intros [L H]. destruct zs as [|z [|y zs]]; try discriminate. inversion H as [|? ? s2 ? ? A B]; subst.
          inversion B; subst. apply single_roll_throw in A. unfold bindS. rewrite A. reflexivity.
      - split.
        + intros H. apply bindS_ok in H as (l & s2 & A & H). apply ret_ok in H as [H ->].
          apply throws_run in A as [A L].
          destruct zs as [|y [|y' zs]]; try discriminate; simpl in H; [inversion H; destruct l; try discriminate|].
          assert (l = y :: y' :: zs) by (apply ints_inj; now inversion H). subst. auto.
        + intros [L H]. unfold bindS.
          assert (A : replicateS (S (S n)) (single_roll Or sides ex) s = (Ok zs, s1)) by (apply throws_run; auto).
          rewrite A. destruct zs as [|y [|y' zs]]; try discriminate. reflexivity. }
    assert (Y : forall u s1, die_sample Or sides ex n s = (Ok u, s1) -> exists zs, u = simplify (map PInt zs)).
    { intros u s1. unfold die_sample. destruct n as [|[|n]]; [lia| |]; intros H; apply bindS_ok in H as (z & s2 & A & H); inv_ok H.
      - exists [z]. reflexivity.
      - apply throws_run in A as [_ L]. exists z. destruct z as [|? [|? ?]]; try discriminate. reflexivity. }
    assert (F : forall zs, finish_list Or (simplify (map PInt zs)) = simplify (map PInt zs)).
    { intros zs. apply finish_simplify. right. apply ints_uniform. }
    split.
    - intros H. destruct (die_sample Or sides ex n s) as [[u|e] s1] eqn:E; [|discriminate]. inversion H; subst.
      destruct (Y _ _ eq_refl) as (zs & ->). pose proof (proj1 (X _ _) eq_refl) as [L T]. exists zs. rewrite F. auto.
    - intros (zs & L & T & ->). assert (E := proj2 (X zs s') (conj L T)). rewrite E. now rewrite F.
  Qed.

  Hypothesis IS : in_support Or.
  Lemma rolled_range sides s zs s' : rolled Or sides s zs s' -> Forall (fun z => 1 <= z <= sides)%Z zs.
  Proof.
    induction 1 as [|s z g zs s' D R IH]; constructor; auto.
    apply (proj2 IS) in D. apply Forall_inv in D. simpl in D. lia.
  Qed.
  Lemma sum_same v bangs : (forall x, In x bangs -> x = v) -> (fold_right Z.add 0 bangs = Z.of_nat (length bangs) * v)%Z.
  Proof.
    induction bangs as [|b l IH]; intros H; [reflexivity|]. cbn [fold_right length].
    rewrite IH by (intros; apply H; simpl; auto). rewrite (H b) by (simpl; auto).
    rewrite Nat2Z.inj_succ. ring.
  Qed.
  (** With one exploding value the number of explosions and the last roll make the total. *)
  Lemma single_value sides v bound s z s' : (1 <= v <= sides)%Z -> throw Or sides (Some [v]) bound s z s' ->
    exists k r, (z = Z.of_nat k * v + r)%Z /\ (1 <= r <= sides)%Z /\ r <> v.
  Proof.
    intros V (bangs & final & R & L & [I N] & T). exists (length bangs), final.
    apply rolled_range in R. apply Forall_app in R as [_ R]. inversion R; subst.
    split; [rewrite (sum_same v); auto; intros x Hx; destruct (I x Hx) as [?|[]]; auto|].
    split; auto. intros ->. apply N. simpl; auto.
  Qed.
  Lemma never_single sides v bound s z s' : (1 <= v <= sides)%Z -> throw Or sides (Some [v]) bound s z s' -> z <> v.
  Proof.
    intros V H. destruct (single_value _ _ _ _ _ _ V H) as (k & r & -> & R & N). destruct k; [simpl; lia|]. rewrite Nat2Z.inj_succ. nia.
  Qed.
  (** When the top face explodes the rolls can be read off the total. *)
  Lemma top_face_rolls sides s z s' bangs final : (2 <= sides)%Z ->
    rolled Or sides s (bangs ++ [final]) s' -> (forall x, In x bangs -> In x [sides]) -> ~ In final [sides] ->
    (z = fold_right Z.add 0 bangs + final)%Z ->
    Z.of_nat (length bangs) = (z / sides)%Z /\ final = (z mod sides)%Z.
  Proof.
    intros V R I N T. apply rolled_range in R. apply Forall_app in R as [_ R]. inversion R; subst.
    rewrite (sum_same sides) by (intros x Hx; destruct (I x Hx) as [?|[]]; auto).
    assert (final <> sides) by (intros ->; apply N; simpl; auto).
    rewrite Z.add_comm. rewrite Z.div_add, Z.mod_add by lia. rewrite Z.div_small, Z.mod_small by lia. lia.
  Qed.

  (** A continuous distribution as the number of sides is refused. *)
  Lemma float_leaf_floats k s v s' : float_leaf k -> leaf_sample Or k 1 s = (Ok v, s') -> exists x, elems v = [] \/ exists l, elems v = PFlt x :: l.
  Proof.
    intros K H.
    assert (FS : forall r s, fsample Or r 1 s = (Ok v, s') -> exists x, elems v = [] \/ exists l, elems v = PFlt x :: l).
    { intros r s0 E. unfold fsample in E. inv_ok E. rewrite elems_simplify. destruct a as [|q l]; simpl; [exists NaN; auto|eauto]. }
    destruct k; simpl in K, H; try contradiction; eauto.
    - destruct sd; [eauto|destruct (raise_ok _ _ _ _ H)].
    - unfold inverse_lognormal_sample in H. inv_ok H. rewrite elems_simplify. destruct a; simpl; [exists NaN; auto|eauto].
    - unfold pareto_sample in H. inv_ok H. rewrite elems_simplify. destruct a; simpl; [exists NaN; auto|eauto].
    - unfold pert_sample in H. destruct (Qeq_bool _ _); inv_ok H. rewrite elems_simplify. destruct a; simpl; [exists NaN; auto|eauto].
  Qed.
  Lemma float_sides k ex s d s' : float_leaf k -> die Or (ODist (DLeaf k None None)) ex s = (Ok d, s') -> False.
  Proof.
    intros K H. unfold die in H. apply bindS_ok in H as (v & s1 & A & H). apply bindS_ok in H as (w & s2 & B & H).
    apply lift_ok in B as [B ->]. apply die_accepts in B as (n & zs & _ & P & _).
    apply bindS_ok in A as (u & s3 & A & C). rewrite smp_odist, smp_leaf, wrap_none in A by lia.
    destruct (leaf_sample Or k 1 s) as [[u'|e] s4] eqn:E; [|discriminate]. inversion A; subst.
    destruct (float_leaf_floats _ _ _ _ K E) as (x & X).
    destruct u' as [y|l]; simpl in *.
    - unfold as_scalar in C. inv_ok C. destruct X as [X|(l & X)]; [discriminate|]. inversion X; subst.
      destruct P as [P|(b & P & _)]; discriminate.
    - unfold as_scalar in C. destruct (raise_ok _ _ _ _ C).
  Qed.
End Rolling.

Lemma accepted_free_face sides ex n l : die_of sides ex = Ok (LDie n (Some l)) -> exists f, (1 <= f <= n)%Z /\ ~ In f l.
Proof.
  intros H. apply die_accepts in H as (n' & zs & E & _ & N & X). inversion E; subst. apply free_face.
  apply explode_list_spec in X; auto. destruct (explode_list ex) as [l0|]; [|discriminate].
  destruct X as (L & l' & Y & F). inversion Y; subst. now rewrite <- (f2_length _ _ _ F).
Qed.
Lemma plain_die Or sides s v s' :
  smp Or (ODist (DLeaf (LDie sides None) None None)) 1 None None s = (Ok v, s') <->
  exists z g, drawi Or (RInt 1 (sides + 1)) 1 (rng s) = (Ok [z], g) /\ s' = mkState g (corr s) /\ v = Scalar (PInt z).
Proof.
  rewrite die_throws by lia. split.
  - intros (zs & L & T & ->). destruct zs as [|z [|y zs]]; try discriminate.
    inversion T as [|? ? s1 ? ? A B]; subst. inversion B; subst.
    destruct A as (bangs & final & R & _ & -> & ->). simpl in R. inversion R as [|? ? g ? ? D R']; subst. inversion R'; subst.
    exists final, g. auto.
  - intros (z & g & D & -> & ->). exists [z]. split; auto. split; [|reflexivity].
    econstructor; [|constructor]. exists [], z. split; [econstructor; eauto; constructor|]. split; [simpl; lia|]. auto.
Qed.
Lemma dice_example : exists zs s', throws strict_oracle 3 (Some [1%Z]) 20 (strict_state 0) zs s' /\ zs = [1 + 1 + 3; 2]%Z.
Proof.
  assert (S : forall k z, drawi strict_oracle (RInt 1 4) 1 k = (Ok [z], (k + 1)%nat) -> True) by auto.
  exists [1 + 1 + 3; 2]%Z, (strict_state 4). split; auto.
  econstructor.
  - exists [1; 1]%Z, 3%Z. split; [|split; [simpl; lia|]].
    + simpl. econstructor; [vm_compute; reflexivity|]. econstructor; [vm_compute; reflexivity|].
      econstructor; [vm_compute; reflexivity|]. constructor.
    + split; [|reflexivity]. split; simpl; intuition.
  - econstructor; [|constructor]. exists [], 2%Z. split; [|split; [simpl; lia|]].
    + simpl. econstructor; [vm_compute; reflexivity|]. constructor.
    + split; [|reflexivity]. split; simpl; intuition.
Qed.

(* ------------------------------------------------------------------ *)
(** * C84 witnesses *)
Lemma reject_leaf k lc rc (c : ctor) :
  one_request k -> ~ meaningful k ->
  forall Or (d : dist (G Or)) n s, construct c = Ok d -> construct (T := G Or) c = Ok (DLeaf k lc rc) ->
  numpy_checks Or -> right_length Or -> (1 <= n)%nat ->
  exists msg s', smp Or (ODist d) n None None s = (Err (ValueError msg), s').
Proof.
  intros K V Or d n s H E NC RL Hn. rewrite E in H. inversion H; subst.
  apply smp_leaf_rejects; auto. apply leaf_rejects; auto.
Qed.
Ltac bad := intros K; simpl in K;
  repeat match goal with H : _ /\ _ |- _ => destruct H end;
  first [lia | match goal with H : Qle _ _ |- _ => apply H; reflexivity end | match goal with H : Qlt _ _ |- _ => now vm_compute in H end].
Lemma unchecked_kinds c :
  In c [NewGeometric 0; NewPoisson (-1) None None; NewBeta 0 1; NewBeta 1 0; NewPareto 0; NewNorm None (-1) None None;
        NewLognorm None (-1) None None; NewGamma (-1) 1 None None; NewGamma 1 (-1) None None; NewBinomial (-1) (1#2);
        NewT None None 0 90 None None; NewLogT None None 0 90 None None] ->
  forall Or (d : dist (G Or)) n s, numpy_checks Or -> right_length Or -> construct c = Ok d -> (1 <= n)%nat ->
  exists msg s', smp Or (ODist d) n None None s = (Err (ValueError msg), s').
Proof.
  intros H Or d n s NC RL E Hn. simpl in H.
  repeat (destruct H as [<-|H]; [eapply reject_leaf; [| |exact E|reflexivity|..]; auto; simpl; auto; try lra; try lia|]).
  destruct H.
Qed.
Lemma unsamplable :
  exists (c : ctor), (forall T, exists d : dist T, construct c = Ok d) /\
    forall Or (d : dist (G Or)) n s, numpy_checks Or -> right_length Or -> construct c = Ok d -> (1 <= n)%nat ->
      exists msg s', smp Or (ODist d) n None None s = (Err (ValueError msg), s').
Proof.
  exists (NewGeometric 0). split; [intros T; eexists; reflexivity|]. intros Or d n s. apply unchecked_kinds. simpl; auto.
Qed.

(* ------------------------------------------------------------------ *)
(** * C96 *)
Lemma triangular_clips_ignored {T} l m r lc rc :
  construct (T := T) (NewTriangular l m r lc rc) = construct (NewTriangular l m r None None).
Proof. reflexivity. Qed.
Lemma triangular_clip_lost :
  exists l m r hi (d : dist nat) n v s', construct (NewTriangular l m r None (Some hi)) = Ok d /\
    smp strict_oracle (ODist d) n None None (strict_state 0) = (Ok v, s') /\
    exists q, In (PFlt (Fin q)) (elems v) /\ num_q hi < q.
Proof.
  exists 0, 5, 10, (NI 2), (DLeaf (LTriangular 0 5 10) None None), 1%nat.
  eexists; eexists. split; [reflexivity|]. split; [vm_compute; reflexivity|].
  eexists. split; [left; reflexivity|]. vm_compute. reflexivity.
Qed.
Lemma clips_kept Or (c : ctor) (d : dist (G Or)) lo hi n s v s' :
  ctor_clips c = Some (Some lo, Some hi) -> num_q lo <= num_q hi -> construct c = Ok d ->
  smp Or (ODist d) n None None s = (Ok v, s') ->
  Forall (fun x => exists y, as_x x = Some y /\ within (Some (num_q lo)) (Some (num_q hi)) y) (elems v).
Proof.
  intros C L E H.
  assert (exists k, d = DLeaf k (Some lo) (Some hi)) as (k & ->).
  { destruct c; simpl in C; inversion C; subst; simpl in E;
      try (inversion E; subst; eauto; fail);
      repeat match type of E with
             | context [if ?b then _ else _] => destruct b
             | context [t_check ?a ?b ?c] => destruct (t_check a b c); cbn [bind] in E
             end; inversion E; subst; eauto. }
  apply clip_relation in H as (u & _ & F); [|exact I]. simpl in F.
  clear -F L. induction F as [|a b l l' R F IH]; constructor; auto.
  unfold clamped in R. destruct (as_x a) as [x|], (as_x b) as [y|]; try contradiction.
  exists y. split; auto.
  pose proof (clamp_within (Some (num_q lo)) (Some (num_q hi)) x L) as [W1 W2].
  split; [rewrite (xlt_same _ _ _ _ R (xsame_refl _))|rewrite (xlt_same _ _ _ _ (xsame_refl _) R)]; auto.
Qed.
