(** A decision procedure for semidefinite matrices: the eigenvalue and Cholesky
    contracts of SpecCorr can be met. *)
From Verif Require Import Base M_Values M_Sampler M_Corr SpecCorr P_Corr.
From Coq Require Import Lqa.
Open Scope Q_scope.

Fixpoint zipw {A B C} (f : A -> B -> C) (a : list A) (b : list B) : list C :=
  match a, b with x :: a', y :: b' => f x y :: zipw f a' b' | _, _ => [] end.
(** [c - b b^T / a]. *)
Definition schur (a : Q) (b : list Q) (c : matrix) : matrix :=
  zipw (fun bi ci => zipw (fun bj cij => cij - bi * bj / a) b ci) b c.
Fixpoint psd (k : nat) (m : matrix) : bool :=
  match k, m with
  | S k', (a :: b) :: rest =>
      if Qlt_bool a 0 then false
      else if Qeq_bool a 0 then forallb (fun x => Qeq_bool x 0) b && psd k' (map (@tl Q) rest)
      else psd k' (schur a b (map (@tl Q) rest))
  | _, _ => true
  end.
Fixpoint pd (k : nat) (m : matrix) : bool :=
  match k, m with
  | S k', (a :: b) :: rest => Qlt_bool 0 a && pd k' (schur a b (map (@tl Q) rest))
  | _, _ => true
  end.

(** Symmetric matrices, row by row. *)
Fixpoint sym (k : nat) (m : matrix) : Prop :=
  match k with
  | O => m = []
  | S k' => exists a b bs cs, m = (a :: b) :: zipw cons bs cs /\ length b = k' /\ length bs = k' /\ length cs = k' /\
              (forall r, In r cs -> length r = k') /\ Forall2 Qeq b bs /\ sym k' cs
  end.
Lemma zipw_length {A B C} (f : A -> B -> C) : forall a b, length a = length b -> length (zipw f a b) = length a.
Proof. induction a as [|x a IH]; intros [|y b] L; simpl in *; try discriminate; auto. Qed.
Lemma tl_zipw : forall (a : list Q) (b : matrix), length a = length b -> map (@tl Q) (zipw cons a b) = b.
Proof. induction a as [|x a IH]; intros [|y b] L; simpl in *; try discriminate; auto. f_equal. auto. Qed.
Lemma zipw_rows k : forall m : matrix, (forall r, In r m -> length r = S k) ->
  m = zipw cons (map (hd 0) m) (map (@tl Q) m).
Proof.
  induction m as [|r m IH]; intros H; simpl; auto. f_equal; [|apply IH; intros; apply H; simpl; auto].
  specialize (H r (or_introl eq_refl)). destruct r; [discriminate|reflexivity].
Qed.
Lemma sym_of k : forall m, length m = k -> (forall r, In r m -> length r = k) ->
  (forall i j, (i < k)%nat -> (j < k)%nat -> entry m i j == entry m j i) -> sym k m.
Proof.
  induction k as [|k IH]; intros m L R S; simpl.
  - destruct m; [auto|discriminate].
  - destruct m as [|[|a b] rest]; [discriminate|specialize (R [] (or_introl eq_refl)); discriminate|].
    simpl in L. injection L as L. pose proof (R _ (or_introl eq_refl)) as LB. simpl in LB. injection LB as LB.
    assert (RR : forall r, In r rest -> length r = Datatypes.S k) by (intros; apply R; simpl; auto).
    exists a, b, (map (hd 0) rest), (map (@tl Q) rest).
    split; [f_equal; now apply (zipw_rows k)|]. split; auto. rewrite !map_length. split; auto. split; auto.
    split. { intros r I. apply in_map_iff in I as (x & <- & I). specialize (RR _ I). destruct x; simpl in *; [discriminate|lia]. }
    split.
    + assert (X : forall j, (j < k)%nat -> nth j b 0 == hd 0 (nth j rest [])).
      { intros j J. specialize (S 0%nat (Datatypes.S j)). unfold entry in S. simpl in S. rewrite S by lia.
        destruct (nth j rest []); reflexivity. }
      clear - L LB X. revert k b L LB X. induction rest as [|r rest IH]; intros k b L LB X; destruct b; simpl in *; try lia; constructor.
      * apply (X 0%nat). lia.
      * apply (IH (length rest)); auto; [lia|]. intros j J. apply (X (Datatypes.S j)). lia.
    + apply IH; [now rewrite map_length|intros r I; apply in_map_iff in I as (x & <- & I); specialize (RR _ I); destruct x; simpl in *; [discriminate|lia]|].
      intros i j I J. specialize (S (Datatypes.S i) (Datatypes.S j)). unfold entry in *. simpl in S.
      assert (T : forall i j, (i < k)%nat -> nth j (nth i (map (@tl Q) rest) []) 0 = nth (Datatypes.S j) (nth i rest []) 0).
      { intros p q P. rewrite (nth_indep _ [] (tl [])) by (rewrite map_length; lia). rewrite map_nth.
        destruct (nth p rest []); [destruct q; reflexivity|reflexivity]. }
      rewrite !T by auto. apply S; lia.
Qed.

Lemma dot_nil_r x : dot x [] = 0.
Proof. destruct x; reflexivity. Qed.
Lemma dot_comm : forall a b, dot a b == dot b a.
Proof.
  induction a as [|x a IH]; intros [|y b]; try reflexivity. rewrite !dot_cons, IH. ring.
Qed.
Lemma dot_ext_l x a b : Forall2 Qeq a b -> dot a x == dot b x.
Proof. intros F. rewrite dot_comm, (dot_ext x _ _ F). apply dot_comm. Qed.
Lemma quad_cons a b bs cs x y : length bs = length cs -> length y = length cs -> Forall2 Qeq b bs ->
  quad ((a :: b) :: zipw cons bs cs) (x :: y) == a * (x * x) + 2 * x * dot b y + quad cs y.
Proof.
  intros L1 L2 F. unfold quad. cbn [map]. rewrite !dot_cons.
  assert (X : dot y (map (fun row => dot row (x :: y)) (zipw cons bs cs)) ==
              x * dot bs y + dot y (map (fun row => dot row y) cs)).
  { clear F. assert (X : forall z y, length y = length cs ->
      dot y (map (fun row => dot row (x :: z)) (zipw cons bs cs)) == x * dot bs y + dot y (map (fun row => dot row z) cs)); [|apply X; auto].
    clear y L2. intros z. revert cs L1. induction bs as [|u bs IH]; intros [|c cs] L1 w L2; simpl in L1; try discriminate.
    - simpl. rewrite !dot_nil_r. simpl. unfold dot; simpl. ring.
    - destruct w as [|v w]; [discriminate|]. cbn [zipw map]. rewrite !dot_cons, IH by (simpl in *; lia). ring. }
  rewrite X, (dot_ext_l y _ _ F). ring.
Qed.
Lemma dot_schur a bi : ~ a == 0 -> forall b ci y, length b = length ci ->
  dot (zipw (fun bj cij => cij - bi * bj / a) b ci) y == dot ci y - bi * dot b y / a.
Proof.
  intros A. induction b as [|u b IH]; intros [|c ci] y L; simpl in L; try discriminate; [unfold dot; simpl; field; auto|].
  destruct y as [|v y]; [rewrite !dot_nil_r; field; auto|]. cbn [zipw]. rewrite !dot_cons, IH by lia. field; auto.
Qed.
Lemma quad_schur a b cs y : ~ a == 0 -> length b = length cs -> (forall r, In r cs -> length r = length b) ->
  quad (schur a b cs) y == quad cs y - dot b y * dot b y / a.
Proof.
  intros A L R. unfold quad, schur.
  assert (X : forall b' cs' w, length b' = length cs' -> (forall r, In r cs' -> length r = length b) ->
    dot w (map (fun row => dot row y) (zipw (fun bi ci => zipw (fun bj cij => cij - bi * bj / a) b ci) b' cs')) ==
    dot w (map (fun row => dot row y) cs') - dot b' w * dot b y / a).
  { clear L R. induction b' as [|u b' IH]; intros [|c cs'] w L R; simpl in L; try discriminate.
    - simpl. rewrite dot_nil_r. unfold dot at 1. simpl. field; auto.
    - destruct w as [|v w]; [unfold dot; simpl; field; auto|]. cbn [zipw map]. rewrite !dot_cons.
      rewrite IH by (auto; intros; apply R; simpl; auto). rewrite dot_schur by (auto; symmetry; apply R; simpl; auto). field; auto. }
  apply X; auto.
Qed.
Lemma schur_rows a b cs r : (forall r, In r cs -> length r = length b) -> In r (schur a b cs) -> length r = length b.
Proof.
  unfold schur. intros R. assert (X : forall b' cs', (forall r, In r cs' -> length r = length b) ->
    In r (zipw (fun bi ci => zipw (fun bj cij => cij - bi * bj / a) b ci) b' cs') -> length r = length b).
  { induction b' as [|u b' IH]; intros [|c cs'] RR; simpl; try tauto. intros [<-|I].
    - apply zipw_length. symmetry. apply RR. simpl; auto.
    - apply (IH cs'); auto. intros; apply RR; simpl; auto. }
  now apply X.
Qed.
Lemma sym_schur k : forall a b cs, sym k cs -> length b = k -> sym k (schur a b cs).
Proof.
  induction k as [|k IH]; intros a b m S L.
  - simpl in S. subst. destruct b; [reflexivity|discriminate].
  - destruct S as (c & d & ds & cs & -> & LD & LDS & LCS & R & F & S). destruct b as [|u b]; [discriminate|]. simpl in L. injection L as L.
    simpl. exists (c - u * u / a), (zipw (fun bj cij => cij - u * bj / a) b d), (zipw (fun bi di => di - bi * u / a) b ds), (schur a b cs).
    split; [|split; [|split; [|split; [|split; [|split]]]]].
    + unfold schur. cbn [zipw]. f_equal. clear - L LDS LCS R.
      set (b0 := b) at 1 4. assert (LL : length b0 = length b) by auto. clearbody b0.
      assert (Y : forall b' ds' cs', length b' = length ds' -> length ds' = length cs' ->
        zipw (fun bi ci => zipw (fun bj cij => cij - bi * bj / a) (u :: b0) ci) b' (zipw cons ds' cs') =
        zipw cons (zipw (fun bi di => di - bi * u / a) b' ds')
                  (zipw (fun bi ci => zipw (fun bj cij => cij - bi * bj / a) b0 ci) b' cs')).
      { induction b' as [|v b' IH]; intros [|e ds'] [|f cs'] L1 L2; simpl in *; try discriminate; auto.
        f_equal. apply IH; lia. }
      apply Y; lia.
    + rewrite zipw_length; lia.
    + rewrite zipw_length; lia.
    + unfold schur. rewrite zipw_length; lia.
    + intros r I. apply schur_rows in I; [lia|]. intros q Q. rewrite (R q Q). auto.
    + clear - F L LD LDS. revert b L. revert k LD LDS. induction F as [|x y d ds E F IH]; intros k LD LDS [|v b] L; simpl in *; try lia; constructor.
      * rewrite E. setoid_replace (v * u / a) with (u * v / a) by (unfold Qdiv; ring). reflexivity.
      * apply (IH (length d)); auto. lia. lia.
    + apply IH; auto.
Qed.

Lemma quad_zero_b b y : Forall (fun x => x == 0) b -> dot b y == 0.
Proof.
  intros F. revert y. induction F as [|x b E F IH]; intros y; [destruct y; reflexivity|]. destruct y as [|v y]; [reflexivity|].
  rewrite dot_cons, E, IH. ring.
Qed.
Lemma dot_zeros : forall b k, dot b (repeat 0 k) == 0.
Proof. induction b as [|x b IH]; intros [|k]; try reflexivity. cbn [repeat]. rewrite dot_cons, IH. ring. Qed.
Lemma dot_zeros_l : forall b k, dot (repeat 0 k) b == 0.
Proof. intros. rewrite dot_comm. apply dot_zeros. Qed.

Lemma psd_spec k : forall m, sym k m -> (psd k m = true <-> forall x, length x = k -> 0 <= quad m x).
Proof.
  induction k as [|k IH]; intros m S.
  - simpl in S. subst. split; auto. intros _ x L. destruct x; [unfold quad, dot; simpl; lra|discriminate].
  - destruct S as (a & b & bs & cs & -> & LB & LBS & LCS & R & F & S). cbn [psd].
    rewrite tl_zipw by congruence.
    assert (QC : forall x y, length y = k -> quad ((a :: b) :: zipw cons bs cs) (x :: y) == a * (x * x) + 2 * x * dot b y + quad cs y).
    { intros x y L. apply quad_cons; auto; congruence. }
    assert (DC : forall P : list Q -> Prop, (forall x, length x = Datatypes.S k -> P x) <-> (forall x y, length y = k -> P (x :: y))).
    { intros P. split; intros H; [intros x y L; apply H; simpl; lia|]. intros [|x y] L; [discriminate|]. apply H. simpl in L. lia. }
    rewrite DC. destruct (Qlt_bool a 0) eqn:A1; [|destruct (Qeq_bool a 0) eqn:A2].
    + apply clt_true in A1. split; [discriminate|]. intros H. specialize (H 1 (repeat 0 k) (repeat_length _ _)).
      rewrite QC in H by apply repeat_length. unfold quad in H. rewrite dot_zeros, dot_zeros_l in H. lra.
    + apply Qeq_bool_iff in A2. split.
      * intros H x y L. apply andb_true_iff in H as [B C]. rewrite QC by auto. rewrite (IH cs S) in C. specialize (C y L).
        assert (Z : dot b y == 0).
        { apply quad_zero_b. apply Forall_forall. intros v V. rewrite forallb_forall in B. now apply Qeq_bool_iff, B. }
        rewrite A2, Z. lra.
      * intros H. apply andb_true_iff. split.
        -- apply forallb_forall. intros v V. apply Qeq_bool_iff.
           destruct (In_nth _ _ 0 V) as (j & J & E). set (e := map (fun i => if Nat.eqb i j then 1 else 0) (seq 0 k)).
           assert (LE : length e = k) by (unfold e; now rewrite map_length, seq_length).
           assert (DE : dot b e == v).
           { rewrite <- E. unfold e. clear - J LB. subst k.
             revert j J. induction b as [|u b IH]; intros j J; [simpl in J; lia|].
             cbn [length seq map]. rewrite dot_cons, <- seq_shift, map_map. destruct j as [|j].
             - simpl. assert (Z : dot b (map (fun _ => 0) (seq 0 (length b))) == 0).
               { clear. generalize (seq 0 (length b)). induction b as [|v b IH]; intros [|n l]; try reflexivity. cbn [map]. rewrite dot_cons, IH. ring. }
               rewrite Z. ring.
             - cbn [Nat.eqb nth]. rewrite IH by (simpl in J; lia). ring. }
           destruct (Qeq_dec v 0) as [|NZ]; auto. exfalso.
           specialize (H (- (quad cs e + 1) / (2 * v)) e LE). rewrite QC in H by auto. rewrite A2, DE in H.
           setoid_replace (0 * (- (quad cs e + 1) / (2 * v) * (- (quad cs e + 1) / (2 * v))) + 2 * (- (quad cs e + 1) / (2 * v)) * v + quad cs e)
             with (- (1)) in H by (field; auto). lra.
        -- apply (IH cs S). intros y L. specialize (H 0 y L). rewrite QC in H by auto. lra.
    + assert (NZ : ~ a == 0) by (intros C; apply Qeq_bool_iff in C; congruence). apply clt_false in A1.
      assert (AP : 0 < a) by lra.
      rewrite (IH (schur a b cs)) by (apply sym_schur; auto; congruence).
      assert (QS : forall y, quad (schur a b cs) y == quad cs y - dot b y * dot b y / a).
      { intros y. apply quad_schur; auto; [congruence|]. intros r I. rewrite (R r I). auto. }
      split.
      * intros H x y L. specialize (H y L). rewrite QS in H. rewrite QC by auto.
        setoid_replace (a * (x * x) + 2 * x * dot b y + quad cs y)
          with (a * ((x + dot b y / a) * (x + dot b y / a)) + (quad cs y - dot b y * dot b y / a)) by (field; auto).
        pose proof (sq_nonneg (x + dot b y / a)). assert (0 <= a * ((x + dot b y / a) * (x + dot b y / a))) by (apply Qmult_le_0_compat; lra). lra.
      * intros H y L. specialize (H (- (dot b y) / a) y L). rewrite QC in H by auto. rewrite QS.
        setoid_replace (a * (- dot b y / a * (- dot b y / a)) + 2 * (- dot b y / a) * dot b y + quad cs y)
          with (quad cs y - dot b y * dot b y / a) in H by (field; auto). exact H.
Qed.

Lemma pd_spec k : forall m, sym k m -> pd k m = true -> forall x, length x = k -> (exists v, In v x /\ ~ v == 0) -> 0 < quad m x.
Proof.
  induction k as [|k IH]; intros m S H x L (v & V & NV).
  - destruct x; [destruct V|discriminate].
  - destruct S as (a & b & bs & cs & -> & LB & LBS & LCS & R & F & S). cbn [pd] in H. rewrite tl_zipw in H by congruence.
    apply andb_true_iff in H as [A P]. apply clt_true in A. destruct x as [|x y]; [discriminate|]. simpl in L. injection L as L.
    assert (NZ : ~ a == 0) by lra. rewrite quad_cons by (auto; congruence).
    assert (QS : quad (schur a b cs) y == quad cs y - dot b y * dot b y / a).
    { apply quad_schur; auto; [congruence|]. intros r I. rewrite (R r I). auto. }
    setoid_replace (a * (x * x) + 2 * x * dot b y + quad cs y)
      with (a * ((x + dot b y / a) * (x + dot b y / a)) + (quad cs y - dot b y * dot b y / a)) by (field; auto).
    rewrite <- QS. pose proof (sq_nonneg (x + dot b y / a)) as SQ.
    assert (0 <= a * ((x + dot b y / a) * (x + dot b y / a))) by (apply Qmult_le_0_compat; lra).
    destruct (Exists_dec (fun w => ~ w == 0) y) as [E|E].
    { intros w. destruct (Qeq_dec w 0); [right; tauto|left; auto]. }
    + apply Exists_exists in E. assert (0 < quad (schur a b cs) y) by (apply (IH _ (sym_schur k a b cs S LB) P y L E)). lra.
    + assert (Z : forall w, In w y -> w == 0).
      { intros w W. destruct (Qeq_dec w 0); auto. exfalso. apply E, Exists_exists. eauto. }
      assert (NX : ~ x == 0) by (destruct V as [->|V]; auto; specialize (Z _ V); contradiction).
      assert (ZB : dot b y == 0).
      { rewrite dot_comm. apply quad_zero_b. apply Forall_forall. auto. }
      assert (ZQ : quad (schur a b cs) y == 0).
      { unfold quad. apply quad_zero_b. apply Forall_forall. auto. }
      rewrite ZQ, ZB. setoid_replace (a * ((x + 0 / a) * (x + 0 / a)) + 0) with (a * (x * x)) by (field; auto).
      pose proof (sq_nonneg x). assert (~ x * x == 0) by (intros C; apply Qmult_integral in C; tauto).
      assert (0 < x * x) by lra. apply Qmult_lt_0_compat; auto.
Qed.

Lemma proper_sym k m : proper_matrix k m -> sym k m.
Proof. intros (L & R & _ & _ & S). now apply sym_of. Qed.
Lemma psd_eigen : eigen_test (fun m => psd (length m) m).
Proof.
  intros k m P. pose proof (proper_sym _ _ P) as S. destruct P as (L & _). unfold semidefinite. rewrite L. now apply psd_spec.
Qed.
Lemma pd_cholesky (f : matrix -> list (list nat) -> list (list Q)) :
  cholesky_test (fun m r => if pd (length m) m then Ok (f m r) else Err LinAlgError).
Proof.
  intros k m r P ND. destruct (pd (length m) m) eqn:E; auto. exfalso. apply ND. pose proof (proper_sym _ _ P) as S.
  destruct P as (L & _). unfold definite. rewrite L in *. now apply pd_spec.
Qed.
