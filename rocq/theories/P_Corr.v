(** Lemmas about [correlate] (C52) and correlation matrices. *)
From Verif Require Import Base M_Corr SpecCorr.
From Coq Require Import Lqa Permutation.
Open Scope Q_scope.

Lemma clt_true a b : Qlt_bool a b = true <-> a < b.
Proof.
  unfold Qlt_bool. rewrite negb_true_iff. split; intros H.
  - apply Qnot_le_lt. intros C. apply Qle_bool_iff in C. congruence.
  - apply not_true_is_false. intros C. apply Qle_bool_iff in C. lra.
Qed.
Lemma clt_false a b : Qlt_bool a b = false <-> b <= a.
Proof. unfold Qlt_bool. rewrite negb_false_iff. apply Qle_bool_iff. Qed.

(* ------------------------------------------------------------------ *)
(** * Matrices *)
Lemma nth_map_seq {A} (f : nat -> A) k i d : (i < k)%nat -> nth i (map f (seq 0 k)) d = f i.
Proof.
  intros H. rewrite (nth_indep _ d (f 0%nat)) by (rewrite map_length, seq_length; auto).
  rewrite map_nth, seq_nth; auto.
Qed.
Lemma full_entry k q i j : (i < k)%nat -> (j < k)%nat -> entry (full_matrix k q) i j = if Nat.eqb i j then 1 else q.
Proof. intros A B. unfold entry, full_matrix. now rewrite !nth_map_seq. Qed.
Lemma full_length k q : length (full_matrix k q) = k.
Proof. unfold full_matrix. now rewrite map_length, seq_length. Qed.
Lemma full_proper k q : -1 <= q -> q <= 1 -> proper_matrix k (full_matrix k q).
Proof.
  intros A B. split; [apply full_length|]. split.
  { intros row H. apply in_map_iff in H as (i & <- & _). now rewrite map_length, seq_length. }
  split; [intros i H; rewrite full_entry, Nat.eqb_refl by auto; reflexivity|]. split.
  - intros i j Hi Hj. rewrite full_entry by auto. destruct (Nat.eqb i j); lra.
  - intros i j Hi Hj. rewrite !full_entry by auto. rewrite (Nat.eqb_sym j i). reflexivity.
Qed.

Lemma forallb_seq f k : forallb f (seq 0 k) = true <-> forall i, (i < k)%nat -> f i = true.
Proof.
  rewrite forallb_forall. split; intros H i Hi.
  - apply H. apply in_seq. lia.
  - apply H. apply in_seq in Hi. lia.
Qed.
Lemma rows_entries k (m : matrix) (P : Q -> Prop) : length m = k -> (forall row, In row m -> length row = k) ->
  ((forall row, In row m -> forall x, In x row -> P x) <-> forall i j, (i < k)%nat -> (j < k)%nat -> P (entry m i j)).
Proof.
  intros L R. split; intros H.
  - intros i j Hi Hj. unfold entry. assert (X : In (nth i m []) m) by (apply nth_In; lia).
    apply (H _ X). apply nth_In. now rewrite (R _ X).
  - intros row X x Y. destruct (In_nth _ _ [] X) as (i & Hi & <-). destruct (In_nth _ _ 0 Y) as (j & Hj & <-).
    apply (H i j); [lia|]. now rewrite <- (R _ X).
Qed.

Lemma check_matrix_ok eig_ok k m : (0 < k)%nat -> (forall row, In row m -> length row = length (hd [] m)) ->
  (check_matrix eig_ok k m = Ok tt <-> proper_matrix k m /\ eig_ok m = true).
Proof.
  intros K R. unfold check_matrix, proper_matrix. destruct m as [|row m']; [split; [discriminate|intros [(L & _) _]; simpl in L; lia]|].
  set (m := row :: m') in *. simpl hd in R.
  destruct (Nat.eqb (length m) (length row) && Nat.eqb (length row) k) eqn:E0.
  2:{ simpl. split; [discriminate|]. intros [(L & RR & _) _].
      assert (X : length row = k) by (apply RR; simpl; auto). apply andb_false_iff in E0 as [E0|E0]; apply Nat.eqb_neq in E0; elim E0; [transitivity k; auto|auto]. }
  apply andb_true_iff in E0 as [E1 E2]. apply Nat.eqb_eq in E1, E2. cbn [negb].
  assert (L : length m = k) by congruence.
  assert (RR : forall r, In r m -> length r = k) by (intros r H; rewrite (R r H); auto).
  destruct (forallb (fun i => Qeq_bool (entry m i i) 1) (seq 0 k)) eqn:D.
  2:{ simpl. split; [discriminate|]. intros [(_ & _ & H & _) _].
      assert (X : forallb (fun i => Qeq_bool (entry m i i) 1) (seq 0 k) = true).
      { apply forallb_seq. intros i Hi. apply Qeq_bool_iff. auto. } congruence. }
  rewrite forallb_seq in D. cbn [negb].
  destruct (forallb (forallb (fun x => Qle_bool (-1) x && Qle_bool x 1)) m) eqn:B.
  2:{ simpl. split; [discriminate|]. intros [(_ & _ & _ & H & _) _].
      assert (X : forallb (forallb (fun x => Qle_bool (-1) x && Qle_bool x 1)) m = true).
      { apply forallb_forall. intros r Hr. apply forallb_forall. intros x Hx.
        assert (P : forall row, In row m -> forall x, In x row -> -1 <= x /\ x <= 1) by (now apply (rows_entries k)).
        destruct (P r Hr x Hx). apply andb_true_iff. split; now apply Qle_bool_iff. } congruence. }
  cbn [negb].
  assert (B' : forall i j, (i < k)%nat -> (j < k)%nat -> -1 <= entry m i j /\ entry m i j <= 1).
  { apply (rows_entries k m (fun x => -1 <= x /\ x <= 1)); auto. intros r Hr x Hx. rewrite forallb_forall in B.
    specialize (B r Hr). rewrite forallb_forall in B. specialize (B x Hx). apply andb_true_iff in B as [? ?].
    split; now apply Qle_bool_iff. }
  destruct (eig_ok m) eqn:E; cbn [negb]; [|split; [discriminate|intros [_ ?]; discriminate]].
  destruct (forallb (fun i => forallb (fun j => Qeq_bool (entry m i j) (entry m j i)) (seq 0 k)) (seq 0 k)) eqn:S; cbn [negb].
  - split; auto. intros _. split; auto. split; auto. split; auto. split; [intros i Hi; apply Qeq_bool_iff; auto|]. split; auto.
    rewrite forallb_seq in S. intros i j Hi Hj. specialize (S i Hi). rewrite forallb_seq in S. apply Qeq_bool_iff. auto.
  - split; [discriminate|]. intros [(_ & _ & _ & _ & H) _].
    assert (X : forallb (fun i => forallb (fun j => Qeq_bool (entry m i j) (entry m j i)) (seq 0 k)) (seq 0 k) = true).
    { apply forallb_seq. intros i Hi. apply forallb_seq. intros j Hj. apply Qeq_bool_iff. auto. } congruence.
Qed.

(* ------------------------------------------------------------------ *)
(** * Equal correlations: 1 / (1 - k) <= q *)
Definition sumq (l : list Q) : Q := fold_right Qplus 0 l.
Lemma dot_cons a x b y : dot (a :: x) (b :: y) = a * b + dot x y.
Proof. reflexivity. Qed.
Lemma sumq_cons a l : sumq (a :: l) = a + sumq l.
Proof. reflexivity. Qed.

(** Row [i], offset [o]. *)
Lemma row_dot q i : forall x o,
  dot (map (fun j => if Nat.eqb i j then 1 else q) (seq o (length x))) x ==
  q * sumq x + (1 - q) * (if (Nat.leb o i && Nat.ltb i (o + length x))%bool then nth (i - o) x 0 else 0).
Proof.
  induction x as [|a x IH]; intros o.
  - unfold dot. simpl. destruct (_ && _); [destruct (i - o)%nat|]; simpl; ring.
  - cbn [length seq map]. rewrite dot_cons, sumq_cons, IH. clear IH.
    destruct (Nat.eqb_spec i o) as [->|N].
    + rewrite Nat.leb_refl, Nat.sub_diag.
      assert (H1 : Nat.ltb o (o + S (length x)) = true) by (apply Nat.ltb_lt; lia). rewrite H1.
      assert (H2 : Nat.leb (S o) o = false) by (apply Nat.leb_gt; lia). rewrite H2. simpl. ring.
    + destruct (Nat.leb_spec (S o) i) as [L|L].
      * assert (H1 : Nat.leb o i = true) by (apply Nat.leb_le; lia). rewrite H1.
        replace (o + S (length x))%nat with (S o + length x)%nat by lia.
        destruct (Nat.ltb i (S o + length x)); simpl; [|ring].
        replace (i - o)%nat with (S (i - S o)) by lia. simpl. ring.
      * assert (H1 : Nat.leb o i = false) by (apply Nat.leb_gt; lia). rewrite H1. simpl. ring.
Qed.
Lemma row_dot0 q i x : (i < length x)%nat ->
  dot (map (fun j => if Nat.eqb i j then 1 else q) (seq 0 (length x))) x == q * sumq x + (1 - q) * nth i x 0.
Proof.
  intros H. rewrite row_dot. assert (E : Nat.ltb i (0 + length x) = true) by (apply Nat.ltb_lt; lia).
  rewrite E. simpl. now rewrite Nat.sub_0_r.
Qed.
Lemma dot_ext x : forall a b, Forall2 Qeq a b -> dot x a == dot x b.
Proof.
  induction x as [|u x IH]; intros a b F; [reflexivity|]. destruct F as [|p q a b E F]; [reflexivity|].
  rewrite !dot_cons, E, (IH _ _ F). reflexivity.
Qed.
Lemma dot_affine c d : forall x y, length x = length y ->
  dot x (map (fun v => c + d * v) y) == c * sumq x + d * dot x y.
Proof.
  induction x as [|a x IH]; intros [|b y] L; try discriminate; [unfold dot; simpl; ring|].
  cbn [map]. rewrite !dot_cons, sumq_cons, IH by (simpl in L; lia). ring.
Qed.
Lemma map_nth_all (x : list Q) : map (fun i => nth i x 0) (seq 0 (length x)) = x.
Proof.
  apply nth_ext with (d := 0) (d' := 0); rewrite map_length, seq_length; auto.
  intros n H. now rewrite nth_map_seq.
Qed.
Lemma quad_full q x : quad (full_matrix (length x) q) x == q * (sumq x * sumq x) + (1 - q) * dot x x.
Proof.
  unfold quad, full_matrix. rewrite map_map.
  rewrite (dot_ext x _ (map (fun v => q * sumq x + (1 - q) * v) x)).
  - rewrite dot_affine by auto. ring.
  - replace (map (fun v => q * sumq x + (1 - q) * v) x)
      with (map (fun i => q * sumq x + (1 - q) * nth i x 0) (seq 0 (length x)))
      by (rewrite <- (map_map (fun i => nth i x 0) (fun v => q * sumq x + (1 - q) * v)), map_nth_all; reflexivity).
    assert (X : forall l, (forall i, In i l -> (i < length x)%nat) ->
      Forall2 Qeq (map (fun i => dot (map (fun j => if Nat.eqb i j then 1 else q) (seq 0 (length x))) x) l)
                  (map (fun i => q * sumq x + (1 - q) * nth i x 0) l)).
    { induction l as [|i l IH]; intros H; simpl; constructor; [apply row_dot0, H; simpl; auto|]. apply IH. intros; apply H; simpl; auto. }
    apply X. intros i Hi. apply in_seq in Hi. lia.
Qed.

Lemma sq_nonneg (a : Q) : 0 <= a * a.
Proof.
  destruct (Qlt_le_dec a 0) as [H|H]; [|apply Qmult_le_0_compat; auto].
  setoid_replace (a * a) with ((- a) * (- a)) by ring. apply Qmult_le_0_compat; lra.
Qed.
Lemma dot_self_nonneg x : 0 <= dot x x.
Proof. induction x as [|a x IH]; [unfold dot; simpl; lra|]. rewrite dot_cons. pose proof (sq_nonneg a). lra. Qed.
Definition qn (l : list Q) : Q := inject_Z (Z.of_nat (length l)).
Lemma qn_cons a l : qn (a :: l) == qn l + 1.
Proof. unfold qn. cbn [length]. rewrite Nat2Z.inj_succ, <- Z.add_1_r, inject_Z_plus. reflexivity. Qed.
Lemma spread a l : 0 <= qn l * (a * a) - 2 * a * sumq l + dot l l.
Proof.
  induction l as [|b l IH]; [unfold qn, dot; simpl; change (inject_Z 0) with 0; lra|].
  rewrite qn_cons, sumq_cons, dot_cons. pose proof (sq_nonneg (a - b)).
  setoid_replace ((qn l + 1) * (a * a) - 2 * a * (b + sumq l) + (b * b + dot l l))
    with ((qn l * (a * a) - 2 * a * sumq l + dot l l) + (a - b) * (a - b)) by ring. lra.
Qed.
Lemma cauchy l : sumq l * sumq l <= qn l * dot l l.
Proof.
  induction l as [|a l IH]; [unfold qn, dot; simpl; lra|].
  rewrite qn_cons, sumq_cons, dot_cons. pose proof (spread a l).
  setoid_replace ((qn l + 1) * (a * a + dot l l))
    with ((qn l * (a * a) - 2 * a * sumq l + dot l l) + qn l * dot l l + a * a + 2 * a * sumq l) by ring.
  setoid_replace ((a + sumq l) * (a + sumq l)) with (sumq l * sumq l + a * a + 2 * a * sumq l) by ring. lra.
Qed.
Lemma ones k : let x := repeat 1 k in sumq x == inject_Z (Z.of_nat k) /\ dot x x == inject_Z (Z.of_nat k) /\ length x = k.
Proof.
  induction k as [|k IH]; cbn zeta in *; [repeat split|]. destruct IH as (A & B & C). cbn [repeat].
  rewrite sumq_cons, dot_cons, A, B. rewrite Nat2Z.inj_succ, <- Z.add_1_l, inject_Z_plus.
  split; [reflexivity|]. split; [ring|]. simpl. now rewrite C.
Qed.
Lemma full_semidefinite k q : (1 <= k)%nat -> q < 1 ->
  (semidefinite (full_matrix k q) <-> 0 <= 1 + (inject_Z (Z.of_nat k) - 1) * q).
Proof.
  intros K Q1. unfold semidefinite. rewrite full_length. split; intros H.
  - destruct (ones k) as (A & B & C). specialize (H _ C). rewrite <- C in H at 1. rewrite quad_full, A, B in H.
    assert (P : 0 < inject_Z (Z.of_nat k)) by (change 0 with (inject_Z 0); rewrite <- Zlt_Qlt; lia).
    nra.
  - intros x L. subst k. rewrite quad_full. pose proof (cauchy x) as C. pose proof (dot_self_nonneg x) as D.
    fold (qn x) in H. pose proof (sq_nonneg (sumq x)).
    destruct (Qlt_le_dec q 0).
    + assert (q * (qn x * dot x x) <= q * (sumq x * sumq x)) by nra. nra.
    + nra.
Qed.

Lemma full_stands k q : stands_for k (CScalar q) (full_matrix k q).
Proof.
  split; [apply full_length|]. split; [|intros; now apply full_entry].
  intros row H. apply in_map_iff in H as (i & <- & _). now rewrite map_length, seq_length.
Qed.

(* ------------------------------------------------------------------ *)
(** * correlate *)
Lemma np_matrix_ok m m' : np_matrix m = Ok m' <-> m' = m /\ forall row, In row m -> length row = length (hd [] m).
Proof.
  unfold np_matrix. destruct m as [|r m0].
  - split; [intros H; inversion H; split; auto; intros ? []|]. intros [-> _]. reflexivity.
  - set (m := r :: m0). simpl hd. destruct (forallb (fun r0 => Nat.eqb (length r0) (length r)) m) eqn:E.
    + rewrite forallb_forall in E. split.
      * intros H. inversion H. split; auto. intros row Hr. apply Nat.eqb_eq. now apply E.
      * intros [-> _]. reflexivity.
    + split; [discriminate|]. intros [_ H].
      assert (X : forallb (fun r0 => Nat.eqb (length r0) (length r)) m = true).
      { apply forallb_forall. intros row Hr. apply Nat.eqb_eq. now apply H. } congruence.
Qed.

Section Corr.
  Variable eig_ok : matrix -> bool.

  (** The matrix finally used. *)
  Definition used (k : nat) (c : corr_arg) : matrix := match c with CScalar q => full_matrix k q | CMatrix m => m end.
  Lemma matrix_accepted k c : (2 <= k)%nat ->
    ((exists m, to_matrix k c = Ok m /\ check_matrix eig_ok k m = Ok tt) <->
     match c with CScalar q => -1 < q /\ q < 1 | CMatrix m => proper_matrix k m end /\ eig_ok (used k c) = true).
  Proof.
    intros K. destruct c as [q|m]; simpl.
    - destruct (Qlt_bool (-1) q && Qlt_bool q 1) eqn:E.
      + apply andb_true_iff in E as [A B]. apply clt_true in A, B.
        assert (P : proper_matrix k (full_matrix k q)) by (apply full_proper; lra).
        assert (X : check_matrix eig_ok k (full_matrix k q) = Ok tt <-> proper_matrix k (full_matrix k q) /\ eig_ok (full_matrix k q) = true).
        { apply check_matrix_ok; [lia|]. destruct P as (L & R & _). intros row Hr. rewrite (R row Hr).
          destruct (full_matrix k q) as [|r0 l0] eqn:F; [destruct Hr|]. symmetry. apply R. simpl; auto. }
        split.
        * intros (m & H & C). inversion H; subst. apply X in C. tauto.
        * intros (_ & C). exists (full_matrix k q). split; auto. apply X. auto.
      + split; [intros (m & H & _); discriminate|]. intros ((A & B) & _).
        apply clt_true in A, B. rewrite A, B in E. discriminate.
    - split.
      + intros (m' & H & C). apply np_matrix_ok in H as [-> R]. apply check_matrix_ok in C; auto; lia.
      + intros [P E]. exists m. assert (R : forall row, In row m -> length row = length (hd [] m)).
        { destruct P as (L & R & _). intros row Hr. rewrite (R row Hr). destruct m as [|r0 l0]; [destruct Hr|]. symmetry. apply R. simpl; auto. }
        split; [apply np_matrix_ok; auto|]. apply check_matrix_ok; auto; lia.
  Qed.

  Lemma mapM_vars h vs objs : mapM (fun v => match nth_error (vars h) v with Some o => Ok o | None => Err Unmodelled end) vs = Ok objs <->
    Forall2 (fun v o => nth_error (vars h) v = Some o) vs objs.
  Proof.
    revert objs. induction vs as [|v vs IH]; intros objs; simpl.
    - split; intros H; inversion H; auto.
    - destruct (nth_error (vars h) v) as [o|] eqn:E; cbn [bind].
      + destruct (mapM _ vs) as [r|e] eqn:M; cbn [bind]; split; intros H.
        * inversion H; subst. constructor; auto. now apply IH.
        * inversion H as [|? ? ? r' A B]; subst. apply IH in B. inversion B; subst. congruence.
        * discriminate.
        * inversion H as [|? ? ? r' A B]; subst. apply IH in B. discriminate.
      + split; [discriminate|]. intros H. inversion H as [|? ? ? r' A B]; subst. congruence.
  Qed.
  Lemma in_vars h vs : (forall v, In v vs -> (v < length (vars h))%nat) ->
    exists objs, Forall2 (fun v o => nth_error (vars h) v = Some o) vs objs.
  Proof.
    induction vs as [|v vs IH]; intros H; [exists []; constructor|].
    destruct (nth_error (vars h) v) as [o|] eqn:E.
    - destruct IH as (objs & F); [intros; apply H; simpl; auto|]. exists (o :: objs). constructor; auto.
    - apply nth_error_None in E. specialize (H v (or_introl eq_refl)). lia.
  Qed.
  Lemma f2_in {A B} (R : A -> B -> Prop) l m : Forall2 R l m -> forall y, In y m -> exists x, In x l /\ R x y.
  Proof.
    induction 1 as [|a b l m H F IH]; intros y []; [subst; exists a; simpl; auto|].
    destruct (IH y H0) as (x & ? & ?). exists x. simpl; auto.
  Qed.
  Lemma f2_in_l {A B} (R : A -> B -> Prop) l m : Forall2 R l m -> forall x, In x l -> exists y, In y m /\ R x y.
  Proof.
    induction 1 as [|a b l m H F IH]; intros x []; [subst; exists b; simpl; auto|].
    destruct (IH x H0) as (y & ? & ?). exists y. simpl; auto.
  Qed.

  Lemma correlate_ok h vs c t u r : (forall v, In v vs -> (v < length (vars h))%nat) ->
    correlate eig_ok h vs c t u = Ok r <->
    (2 <= length vs)%nat /\ (forall v, In v vs -> uncorrelated h v) /\
    (exists m, to_matrix (length vs) c = Ok m /\ check_matrix eig_ok (length vs) m = Ok tt) /\
    r = (map (fun v => (length (vars h) + index_of v (firsts [] vs))%nat) vs,
         mkHeap (vars h ++ map (fun v => mkVar (what (nth v (vars h) (mkVar 0 None))) (Some (length (groups h)))) (firsts [] vs))
                (groups h ++ [mkGroup (map (fun v => (length (vars h) + index_of v (firsts [] vs))%nat) vs)
                                      (used (length vs) c) t u])).
  Proof.
    intros V. unfold correlate. destruct (Nat.ltb_spec (length vs) 2) as [L|L].
    { split; [discriminate|]. intros (? & _). lia. }
    destruct (in_vars h vs V) as (objs & F). pose proof F as F'. apply mapM_vars in F'. rewrite F'. cbn [bind].
    destruct (forallb (fun o => match grp o with None => true | Some _ => false end) objs) eqn:G; cbn [negb].
    - assert (UC : forall v, In v vs -> uncorrelated h v).
      { intros v Hv. destruct (f2_in_l _ _ _ F v Hv) as (o & Ho & E). rewrite forallb_forall in G. specialize (G o Ho).
        destruct o as [w [g|]]; [discriminate|]. exists w. auto. }
      assert (UM : forall m, to_matrix (length vs) c = Ok m -> m = used (length vs) c).
      { intros m. destruct c; simpl; [destruct (_ && _); intros H; inversion H; auto|]. intros H. now apply np_matrix_ok in H as [-> _]. }
      destruct (to_matrix (length vs) c) as [m|e] eqn:TM; cbn [bind].
      + destruct (check_matrix eig_ok (length vs) m) as [[]|e] eqn:CM; cbn [bind].
        * rewrite <- (UM m eq_refl). split; [intros H; inversion H; subst; repeat split; auto; eauto|].
          intros (_ & _ & _ & ->). reflexivity.
        * split; [discriminate|]. intros (_ & _ & (m' & H & C) & _). inversion H; subst. congruence.
      + split; [discriminate|]. intros (_ & _ & (m' & H & C) & _). discriminate.
    - split; [discriminate|]. intros (_ & UC & _).
      assert (X : forallb (fun o => match grp o with None => true | Some _ => false end) objs = true).
      { apply forallb_forall. intros o Ho. destruct (f2_in _ _ _ F o Ho) as (v & Hv & E). destruct (UC v Hv) as (w & W).
        rewrite W in E. inversion E; subst. reflexivity. } congruence.
  Qed.

  Lemma correlate_accepts h vs c t u : (forall v, In v vs -> (v < length (vars h))%nat) ->
    ((exists r, correlate eig_ok h vs c t u = Ok r) <->
     (2 <= length vs)%nat /\ (forall v, In v vs -> uncorrelated h v) /\
     match c with CScalar q => -1 < q /\ q < 1 | CMatrix m => proper_matrix (length vs) m end /\
     eig_ok (used (length vs) c) = true).
  Proof.
    intros V. split.
    - intros (r & H). apply correlate_ok in H as (L & U & M & _); auto. apply matrix_accepted in M; auto.
    - intros (L & U & M). apply matrix_accepted in M; auto. eexists. apply correlate_ok; auto.
  Qed.
  Lemma correlate_accepts_exact h vs c t u : eigen_test eig_ok -> (forall v, In v vs -> (v < length (vars h))%nat) ->
    ((exists r, correlate eig_ok h vs c t u = Ok r) <->
     (2 <= length vs)%nat /\ (forall v, In v vs -> uncorrelated h v) /\
     match c with
     | CScalar q => - (1) <= (inject_Z (Z.of_nat (length vs)) - 1) * q /\ -1 < q /\ q < 1
     | CMatrix m => proper_matrix (length vs) m /\ semidefinite m
     end).
  Proof.
    intros T V. rewrite correlate_accepts by auto. split; intros (L & U & M); (split; [auto|split; [auto|]]).
    - destruct c as [q|m]; simpl in M; destruct M as [P E].
      + apply (T (length vs)) in E; [|apply full_proper; lra]. apply full_semidefinite in E; [lra|lia|lra].
      + apply (T (length vs)) in E; auto.
    - destruct c as [q|m]; simpl.
      + destruct M as (A & B & C). split; [split; auto|]. apply (T (length vs)); [apply full_proper; lra|].
        apply full_semidefinite; [lia|lra|lra].
      + destruct M as [P S]. split; auto. apply (T (length vs)); auto.
  Qed.
  Lemma np_matrix_err m e : np_matrix m = Err e ->
    (exists s, e = ValueError s) /\ exists row, In row m /\ length row <> length (hd [] m).
  Proof.
    unfold np_matrix. destruct m as [|r m]; [discriminate|].
    destruct (forallb (fun r0 => Nat.eqb (length r0) (length r)) (r :: m)) eqn:E; intros H; inversion H; split; eauto.
    assert (X : exists x, In x (r :: m) /\ Nat.eqb (length x) (length r) = false).
    { clear H. revert E. generalize (r :: m). induction l as [|x l IH]; simpl; [discriminate|].
      destruct (Nat.eqb (length x) (length r)) eqn:Y; [|intros _; exists x; auto].
      intros Z. destruct (IH Z) as (y & ? & ?). exists y. auto. }
    destruct X as (x & A & B). exists x. split; auto. apply Nat.eqb_neq. auto.
  Qed.
  (** A refusal is a ValueError for fewer than two variables and an AssertionError
      otherwise, except for arguments that are not a rectangle of numbers. *)
  Lemma correlate_errors h vs c t u e : (forall v, In v vs -> (v < length (vars h))%nat) ->
    correlate eig_ok h vs c t u = Err e ->
    ((length vs < 2)%nat /\ exists s, e = ValueError s) \/
    ((2 <= length vs)%nat /\ e = AssertionError) \/
    ((2 <= length vs)%nat /\ exists m, c = CMatrix m /\
       ((m = [] /\ e = IndexError) \/
        ((exists s, e = ValueError s) /\ exists row, In row m /\ length row <> length (hd [] m)))).
  Proof.
    intros V. unfold correlate. destruct (Nat.ltb_spec (length vs) 2) as [L|L].
    { intros H. inversion H. left. eauto. }
    destruct (in_vars h vs V) as (objs & F). apply mapM_vars in F. rewrite F. cbn [bind].
    intros H. right. destruct (forallb _ objs); cbn [negb] in H; [|inversion H; auto].
    assert (CE : forall m, check_matrix eig_ok (length vs) m = Err e -> (e = AssertionError) \/ (m = [] /\ e = IndexError)).
    { intros m. unfold check_matrix. destruct m; [intros K; inversion K; auto|].
      repeat match goal with |- context [if ?b then _ else _] => destruct b end; intros K; inversion K; auto. }
    destruct c as [q|m]; simpl in H.
    - destruct (_ && _); cbn [bind] in H; [|inversion H; auto].
      destruct (check_matrix eig_ok (length vs) (full_matrix (length vs) q)) as [[]|e'] eqn:E; cbn [bind] in H; inversion H; subst.
      destruct (CE _ E) as [->|[X _]]; auto.
      apply (f_equal (@length (list Q))) in X. rewrite full_length in X. simpl in X. lia.
    - destruct (np_matrix m) as [m'|e'] eqn:N; cbn [bind] in H.
      + destruct (check_matrix eig_ok (length vs) m') as [[]|e''] eqn:E; cbn [bind] in H; inversion H; subst.
        apply np_matrix_ok in N as [-> _]. destruct (CE _ E) as [->|[X ->]]; auto. right. split; auto. exists m. auto.
      + inversion H; subst. apply np_matrix_err in N as [S R]. right. split; auto. exists m. auto.
  Qed.

  (** ** deepcopy *)
  Lemma firsts_in seen l x : In x (firsts seen l) <-> In x l /\ ~ In x seen.
  Proof.
    revert seen. induction l as [|y l IH]; intros seen; simpl; [tauto|].
    assert (D : existsb (Nat.eqb y) seen = true <-> In y seen).
    { rewrite existsb_exists. split; [intros (z & A & B); apply Nat.eqb_eq in B; now subst|]. intros H; exists y; split; auto. apply Nat.eqb_refl. }
    destruct (existsb (Nat.eqb y) seen) eqn:E.
    - rewrite IH. destruct D as [D _]. specialize (D eq_refl). split; [tauto|]. intros [[->|H] N]; tauto.
    - simpl. rewrite IH. simpl. assert (~ In y seen) by (intros C; apply D in C; discriminate).
      split.
      + intros [->|(A & B)]; [tauto|]. tauto.
      + intros [[->|H1] N]; auto. destruct (Nat.eq_dec y x); [auto|]. right. split; auto. intros [?|?]; auto.
  Qed.
  Lemma index_of_nth x l : In x l -> nth_error l (index_of x l) = Some x.
  Proof.
    induction l as [|y l IH]; intros []; simpl.
    - subst. rewrite Nat.eqb_refl. reflexivity.
    - destruct (Nat.eqb_spec x y); [subst; reflexivity|]. simpl. auto.
  Qed.

  (** The copies: fresh objects, same parameters, linked to a new group; the originals
      are as before. *)
  Lemma correlate_result h vs c t u vs' h' : (forall v, In v vs -> (v < length (vars h))%nat) ->
    correlate eig_ok h vs c t u = Ok (vs', h') ->
    (forall v, (v < length (vars h))%nat -> nth_error (vars h') v = nth_error (vars h) v) /\
    (forall k, (k < length (groups h))%nat -> nth_error (groups h') k = nth_error (groups h) k) /\
    (exists m, stands_for (length vs) c m /\ nth_error (groups h') (length (groups h)) = Some (mkGroup vs' m t u)) /\
    Forall2 (fun v v' => (length (vars h) <= v')%nat /\
               exists w, nth_error (vars h) v = Some (mkVar w None) /\
                         nth_error (vars h') v' = Some (mkVar w (Some (length (groups h))))) vs vs' /\
    (forall i j, (i < length vs)%nat -> (j < length vs)%nat ->
       (nth i vs 0%nat = nth j vs 0%nat <-> nth i vs' 0%nat = nth j vs' 0%nat)).
  Proof.
    intros V H. apply correlate_ok in H as (L & U & _ & E); auto. inversion E; subst. clear E. cbn [vars groups].
    split; [intros v Hv; now rewrite nth_error_app1|]. split; [intros v Hv; now rewrite nth_error_app1|].
    split; [exists (used (length vs) c); split; [destruct c; [apply full_stands|reflexivity]|rewrite nth_error_app2, Nat.sub_diag by lia; reflexivity]|].
    assert (X : forall v, In v vs -> nth_error (firsts [] vs) (index_of v (firsts [] vs)) = Some v).
    { intros v Hv. apply index_of_nth. apply firsts_in. simpl; tauto. }
    split.
    - assert (Y : forall l, (forall v, In v l -> In v vs) ->
        Forall2 (fun v v' => (length (vars h) <= v')%nat /\
               exists w, nth_error (vars h) v = Some (mkVar w None) /\
                         nth_error (vars h ++ map (fun v => mkVar (what (nth v (vars h) (mkVar 0 None))) (Some (length (groups h)))) (firsts [] vs)) v'
                         = Some (mkVar w (Some (length (groups h))))) l
                (map (fun v => (length (vars h) + index_of v (firsts [] vs))%nat) l)).
      { induction l as [|v l IH]; intros I; simpl; constructor; [|apply IH; intros; apply I; simpl; auto].
        split; [lia|]. destruct (U v) as (w & W); [apply I; simpl; auto|]. exists w. split; auto.
        rewrite nth_error_app2 by lia. replace (length (vars h) + index_of v (firsts [] vs) - length (vars h))%nat with (index_of v (firsts [] vs)) by lia.
        rewrite nth_error_map, X by (apply I; simpl; auto). simpl. now rewrite (nth_error_nth _ _ _ W). }
      apply Y. auto.
    - intros i j Hi Hj.
      assert (N : forall i, (i < length vs)%nat -> nth i (map (fun v => (length (vars h) + index_of v (firsts [] vs))%nat) vs) 0%nat
                  = (length (vars h) + index_of (nth i vs 0%nat) (firsts [] vs))%nat).
      { intros k Hk. rewrite (nth_indep _ 0%nat (length (vars h) + index_of 0%nat (firsts [] vs))%nat) by (now rewrite map_length).
        now rewrite (map_nth (fun v => (length (vars h) + index_of v (firsts [] vs))%nat)). }
      rewrite !N by auto. split; [intros ->; auto|]. intros E.
      assert (E' : index_of (nth i vs 0%nat) (firsts [] vs) = index_of (nth j vs 0%nat) (firsts [] vs)) by lia.
      pose proof (X _ (nth_In vs 0%nat Hi)) as A. pose proof (X _ (nth_In vs 0%nat Hj)) as B. rewrite E' in A. congruence.
  Qed.
End Corr.

(** The identity matrix leaves the samples alone. *)
Lemma identity_test m : is_identity m = true <->
  forall i j, (i < length m)%nat -> (j < length m)%nat -> entry m i j == (if Nat.eqb i j then 1 else 0).
Proof.
  unfold is_identity. rewrite forallb_forall. split.
  - intros H i j Hi Hj. assert (In i (seq 0 (length m))) as Ii by (apply in_seq; lia). specialize (H i Ii). rewrite forallb_forall in H.
    apply Qeq_bool_iff, H, in_seq. lia.
  - intros H i Hi. apply in_seq in Hi. apply forallb_forall. intros j Hj. apply in_seq in Hj. apply Qeq_bool_iff, H; lia.
Qed.
Lemma identity_unchanged argsort scores spearman g cols out :
  (forall i j, (i < length (wanted g))%nat -> (j < length (wanted g))%nat -> entry (wanted g) i j == (if Nat.eqb i j then 1 else 0)) ->
  induce_correlation argsort scores spearman g cols = Ok out -> out = cols.
Proof.
  intros H. apply identity_test in H. unfold induce_correlation. rewrite H.
  destruct (no_rows cols); [discriminate|]. destruct (negb _); [discriminate|]. congruence.
Qed.
