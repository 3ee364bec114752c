(** Lemmas about [induce_correlation] (C53-C55, C97, C98). *)
From Verif Require Import Base M_Corr SpecCorr P_Corr.
From Coq Require Import Lqa Permutation Sorted.
Open Scope Q_scope.

(* ------------------------------------------------------------------ *)
(** * np.unique counts distinct values *)
Definition inq (x : Q) (l : list Q) : Prop := exists y, In y l /\ x == y.
Lemma uinsert_in v x l : inq v (uinsert x l) <-> v == x \/ inq v l.
Proof.
  induction l as [|y l IH]; simpl.
  - split; [intros (z & [<-|[]] & E); auto|]. intros [E|(z & [] & _)]. exists x. simpl; auto.
  - destruct (Qlt_bool x y) eqn:A; [|destruct (Qlt_bool y x) eqn:B].
    + split.
      * intros (z & [<-|I] & E); [auto|]. right. exists z; auto.
      * intros [E|(z & I & E)]; [exists x; simpl; auto|exists z; simpl; auto].
    + split.
      * intros (z & [<-|I] & E); [right; exists y; simpl; auto|]. assert (X : inq v (uinsert x l)) by (exists z; auto).
        apply IH in X as [X|(w & W & X)]; auto. right. exists w; simpl; auto.
      * intros [E|(z & [<-|I] & E)].
        -- destruct (proj2 IH (or_introl E)) as (w & W & X). exists w; simpl; auto.
        -- exists y; simpl; auto.
        -- destruct (proj2 IH (or_intror (ex_intro _ z (conj I E)))) as (w & W & X). exists w; simpl; auto.
    + apply clt_false in A, B. split; [intros H; right; exact H|]. intros [E|H]; auto. exists y. simpl. split; auto. lra.
Qed.
Lemma uinsert_lb v x l : (forall y, In y l -> v < y) -> v < x -> forall y, In y (uinsert x l) -> v < y.
Proof.
  intros H X. induction l as [|z l IH]; simpl; [intros y [<-|[]]; auto|].
  destruct (Qlt_bool x z); [intros y [<-|I]; auto|]. destruct (Qlt_bool z x); intros y [<-|I]; auto.
  - apply H; simpl; auto.
  - apply IH; auto. intros; apply H; simpl; auto.
  - apply H; simpl; auto.
  - apply H; simpl; auto.
Qed.
Lemma uinsert_sorted x l : StronglySorted Qlt l -> StronglySorted Qlt (uinsert x l).
Proof.
  induction 1 as [|y l S IH F]; simpl; [repeat constructor|]. rewrite Forall_forall in F.
  destruct (Qlt_bool x y) eqn:A; [|destruct (Qlt_bool y x) eqn:B].
  - apply clt_true in A. constructor; [constructor; auto; now apply Forall_forall|]. constructor; auto.
    apply Forall_forall. intros z Hz. specialize (F z Hz). lra.
  - apply clt_true in B. constructor; auto. apply Forall_forall. apply uinsert_lb; auto.
  - constructor; auto. now apply Forall_forall.
Qed.
Lemma np_unique_sorted l : StronglySorted Qlt (np_unique l).
Proof. induction l; simpl; [constructor|]. now apply uinsert_sorted. Qed.
Lemma np_unique_in v l : inq v (np_unique l) <-> inq v l.
Proof.
  induction l as [|x l IH]; simpl; [tauto|]. rewrite uinsert_in, IH. split.
  - intros [E|(z & I & E)]; [exists x; simpl; auto|exists z; simpl; auto].
  - intros (z & [<-|I] & E); auto. right. exists z; auto.
Qed.
Lemma sorted_nodup_red l : StronglySorted Qlt l -> NoDup (map Qred l).
Proof.
  induction 1 as [|y l S IH F]; simpl; constructor; auto.
  intros C. apply in_map_iff in C as (z & E & I). rewrite Forall_forall in F. specialize (F z I).
  assert (z == y) by (rewrite <- (Qred_correct z), E; apply Qred_correct). lra.
Qed.
Lemma inq_red v l : In (Qred v) (map Qred l) <-> inq v l.
Proof.
  rewrite in_map_iff. split.
  - intros (y & E & I). exists y. split; auto. rewrite <- (Qred_correct v), <- E. apply Qred_correct.
  - intros (y & I & E). exists y. split; auto. apply Qred_complete. now symmetry.
Qed.
Lemma red_red v : Qred (Qred v) = Qred v.
Proof. apply Qred_complete, Qred_correct. Qed.
Lemma np_unique_distinct l : length (np_unique l) = distinct l.
Proof.
  unfold distinct. rewrite <- (map_length Qred (np_unique l)). apply Permutation_length. apply NoDup_Permutation.
  - apply sorted_nodup_red, np_unique_sorted.
  - apply NoDup_nodup.
  - intros x. rewrite nodup_In. split; intros H.
    + assert (E : x = Qred x) by (apply in_map_iff in H as (y & <- & _); symmetry; apply red_red).
      rewrite E. apply inq_red, np_unique_in, inq_red. now rewrite <- E.
    + assert (E : x = Qred x) by (apply in_map_iff in H as (y & <- & _); symmetry; apply red_red).
      rewrite E. apply inq_red, np_unique_in, inq_red. now rewrite <- E.
Qed.
Lemma diverse_enough u col : col <> [] -> (diverse u col = true <-> enough u col).
Proof.
  intros N. unfold diverse, enough. rewrite np_unique_distinct, andb_true_iff, Z.leb_le, Qle_bool_iff.
  assert (L : (0 < length col)%nat) by (destruct col; [congruence|simpl; lia]).
  assert (P : 0 < inject_Z (Z.of_nat (length col))) by (change 0 with (inject_Z 0); rewrite <- Zlt_Qlt; lia).
  assert (X : (7 # 10) <= inject_Z (Z.of_nat (distinct col)) / inject_Z (Z.of_nat (length col)) <->
              (7 * length col <= 10 * distinct col)%nat).
  { set (d := inject_Z (Z.of_nat (distinct col))) in *. set (n := inject_Z (Z.of_nat (length col))) in *.
    transitivity (7 * n <= 10 * d).
    - split; intros H.
      + apply (Qmult_le_compat_r _ _ n) in H; [|lra]. unfold Qdiv in H.
        setoid_replace (d * / n * n) with d in H by (field; intros C; rewrite C in P; lra). lra.
      + apply Qle_shift_div_l; auto. lra.
    - subst d n. change 7 with (inject_Z 7). change 10 with (inject_Z 10). rewrite <- !inject_Z_mult, <- Zle_Qle. lia. }
  tauto.
Qed.

(* ------------------------------------------------------------------ *)
(** * Ranks *)
Definition below (l : list Q) (x : Q) : nat := length (filter (fun y => Qlt_bool y x) l).
Lemma filter_le {A} (f g : A -> bool) l : (forall x, In x l -> f x = true -> g x = true) ->
  (length (filter f l) <= length (filter g l))%nat.
Proof.
  induction l as [|x l IH]; intros H; simpl; [lia|].
  assert (IH' := IH (fun y I => H y (or_intror I))). pose proof (H x (or_introl eq_refl)) as X.
  destruct (f x); destruct (g x); simpl; lia || (discriminate X; auto).
Qed.
Lemma filter_lt {A} (f g : A -> bool) l x : (forall x, In x l -> f x = true -> g x = true) ->
  In x l -> f x = false -> g x = true -> (length (filter f l) < length (filter g l))%nat.
Proof.
  induction l as [|y l IH]; intros H I F T; [destruct I|]. destruct I as [->|I]; simpl.
  - rewrite F, T. simpl. pose proof (filter_le f g l (fun y I => H y (or_intror I))). lia.
  - assert (IH' := IH (fun y I => H y (or_intror I)) I F T). pose proof (H y (or_introl eq_refl)) as X.
    destruct (f y); destruct (g y); simpl; lia || (discriminate X; auto).
Qed.
Lemma below_mono l a b : a <= b -> (below l a <= below l b)%nat.
Proof. intros H. apply filter_le. intros x _ X. apply clt_true in X. apply clt_true. lra. Qed.
Lemma below_lt l a b : In a l -> a < b -> (below l a < below l b)%nat.
Proof.
  intros I H. apply filter_lt with (x := a); auto.
  - intros x _ X. apply clt_true in X. apply clt_true. lra.
  - apply clt_false. lra.
  - now apply clt_true.
Qed.
Lemma below_iff l a b : In a l -> In b l -> ((below l a < below l b)%nat <-> a < b).
Proof.
  intros A B. split; [|now apply below_lt]. intros H. destruct (Qlt_le_dec a b) as [|C]; auto.
  pose proof (below_mono l _ _ C). lia.
Qed.
Lemma below_le_iff l a b : In a l -> In b l -> ((below l a <= below l b)%nat <-> a <= b).
Proof.
  intros A B. split; [|now apply below_mono]. intros H. destruct (Qlt_le_dec b a) as [C|]; auto.
  apply (below_lt l) in C; auto. lia.
Qed.
Lemma below_bound l a : In a l -> (below l a < length l)%nat.
Proof.
  intros I. replace (length l) with (length (filter (fun _ => true) l)).
  - apply filter_lt with (x := a); auto. apply clt_false. lra.
  - clear. induction l; simpl; auto.
Qed.
Lemma rank_min_below l : rank_min l = map (fun x => S (below l x)) l.
Proof. reflexivity. Qed.

(** ** n_unique *)
Lemma ninsert_in v x l : In v (ninsert x l) <-> v = x \/ In v l.
Proof.
  induction l as [|y l IH]; simpl; [intuition congruence|].
  destruct (Nat.ltb_spec x y); [simpl; intuition congruence|]. destruct (Nat.ltb_spec y x); simpl.
  - rewrite IH. tauto.
  - assert (x = y) by lia. subst. intuition congruence.
Qed.
Lemma ninsert_sorted x l : StronglySorted lt l -> StronglySorted lt (ninsert x l).
Proof.
  induction 1 as [|y l S IH F]; simpl; [repeat constructor|]. rewrite Forall_forall in F.
  destruct (Nat.ltb_spec x y); [|destruct (Nat.ltb_spec y x)].
  - constructor; [constructor; auto; now apply Forall_forall|]. constructor; auto.
    apply Forall_forall. intros z Hz. specialize (F z Hz). lia.
  - constructor; auto. apply Forall_forall. intros z Hz. apply ninsert_in in Hz as [->|Hz]; auto.
  - constructor; auto. now apply Forall_forall.
Qed.
Lemma n_unique_sorted l : StronglySorted lt (n_unique l).
Proof. induction l; simpl; [constructor|]. now apply ninsert_sorted. Qed.
Lemma n_unique_in v l : In v (n_unique l) <-> In v l.
Proof. induction l as [|x l IH]; simpl; [tauto|]. rewrite ninsert_in, IH. intuition congruence. Qed.
Lemma ssorted_unique : forall a b, StronglySorted lt a -> StronglySorted lt b -> (forall x, In x a <-> In x b) -> a = b.
Proof.
  induction a as [|x a IH]; intros b A B E.
  - destruct b as [|y b]; auto. exfalso. apply (E y). simpl; auto.
  - inversion A as [|? ? SA FA]; subst. rewrite Forall_forall in FA.
    destruct b as [|y b]; [exfalso; apply (E x); simpl; auto|].
    inversion B as [|? ? SB FB]; subst. rewrite Forall_forall in FB.
    assert (x = y).
    { destruct (proj1 (E x) (or_introl eq_refl)) as [|H]; auto. destruct (proj2 (E y) (or_introl eq_refl)) as [|H']; auto.
      specialize (FA _ H'). specialize (FB _ H). lia. }
    subst y. f_equal. apply IH; auto. intros z. split; intros H.
    + destruct (proj1 (E z) (or_intror H)) as [<-|]; auto. specialize (FA _ H). lia.
    + destruct (proj2 (E z) (or_intror H)) as [<-|]; auto. specialize (FB _ H). lia.
Qed.
Lemma seq_ssorted n : forall o, StronglySorted lt (seq o n).
Proof.
  induction n as [|n IH]; intros o; simpl; constructor; auto. apply Forall_forall. intros x H. apply in_seq in H. lia.
Qed.
Lemma index_of_seq r n : forall o, (o <= r < o + n)%nat -> index_of r (seq o n) = (r - o)%nat.
Proof.
  induction n as [|n IH]; intros o H; [lia|]. simpl. destruct (Nat.eqb_spec r o); [lia|]. rewrite IH by lia. lia.
Qed.
Lemma index_of_lt x l : In x l -> (index_of x l < length l)%nat.
Proof.
  intros H. apply index_of_nth in H. apply nth_error_Some. congruence.
Qed.
Lemma index_of_mono l : StronglySorted lt l -> forall x y, In x l -> In y l -> ((index_of x l <= index_of y l)%nat <-> (x <= y)%nat).
Proof.
  induction 1 as [|z l S IH F]; intros x y X Y; [destruct X|]. rewrite Forall_forall in F. simpl.
  destruct (Nat.eqb_spec x z) as [->|NX].
  - destruct Y as [->|Y]; [split; lia|]. specialize (F _ Y). split; lia.
  - destruct X as [->|X]; [congruence|]. pose proof (F _ X).
    destruct (Nat.eqb_spec y z) as [->|NY]; [split; lia|]. destruct Y as [->|Y]; [congruence|].
    rewrite <- (IH x y X Y). split; lia.
Qed.

(* ------------------------------------------------------------------ *)
(** * resort *)
Section Resort.
  Variable argsort : list nat -> list nat.
  Hypothesis SO : sorts argsort.

  Lemma map_nth_perm (l : list Q) p : Permutation p (seq 0 (length l)) -> Permutation (map (fun k => nth k l 0) p) l.
  Proof. intros H. eapply Permutation_trans; [apply Permutation_map, H|]. now rewrite map_nth_all. Qed.
  Lemma nth_map2 {A B} (f : A -> B) l i d d' : (i < length l)%nat -> nth i (map f l) d = f (nth i l d').
  Proof. intros H. rewrite (nth_indep _ d (f d')) by (now rewrite map_length). apply map_nth. Qed.
  Lemma in_order_perm l i : (i < length l)%nat -> (nth i (argsort l) 0 < length l)%nat.
  Proof.
    intros H. destruct (SO l) as [P _].
    assert (I : In (nth i (argsort l) 0%nat) (argsort l)) by (apply nth_In; rewrite (Permutation_length P), seq_length; auto).
    apply (Permutation_in _ P) in I. apply in_seq in I. lia.
  Qed.

  (** Sorting by any key that orders the column like its values does sorts it. *)
  Lemma sorted_by_key col key : length key = length col ->
    (forall i j, (i < length col)%nat -> (j < length col)%nat -> (nth i key 0 <= nth j key 0)%nat -> nth i col 0 <= nth j col 0) ->
    let s := map (fun k => nth k col 0) (argsort key) in
    Permutation s col /\ (forall i j, (i <= j < length col)%nat -> nth i s 0 <= nth j s 0).
  Proof.
    intros L M s. destruct (SO key) as [P O]. split.
    - apply map_nth_perm. now rewrite <- L.
    - intros i j H. assert (LA : length (argsort key) = length col) by (rewrite (Permutation_length P), seq_length; auto).
      unfold s. rewrite !nth_map2 with (d' := 0%nat) by lia. apply M.
      + rewrite <- L. apply in_order_perm. lia.
      + rewrite <- L. apply in_order_perm. lia.
      + apply O. lia.
  Qed.

  Lemma inverse_nth all l i : (i < length l)%nat -> nth i (inverse all l) 0%nat = index_of (nth i l 0%nat) (n_unique all).
  Proof. intros H. unfold inverse. now rewrite nth_map2 with (d' := 0%nat). Qed.
  Lemma rank_nth col i : (i < length col)%nat -> nth i (rank_min col) 0%nat = S (below col (nth i col 0)).
  Proof. intros H. rewrite rank_min_below. now rewrite nth_map2 with (d' := 0). Qed.
  Lemma rank_length col : length (rank_min col) = length col.
  Proof. unfold rank_min. apply map_length. Qed.

  (** The sorted column inside [resort]: always a sorted rearrangement. *)
  Lemma resort_sorted col new :
    let s := map (fun k => nth k col 0) (argsort (inverse (rank_min col ++ new) (rank_min col))) in
    Permutation s col /\ (forall i j, (i <= j < length col)%nat -> nth i s 0 <= nth j s 0).
  Proof.
    apply sorted_by_key.
    - unfold inverse. now rewrite map_length, rank_length.
    - intros i j Hi Hj H. rewrite !inverse_nth in H by (now rewrite rank_length).
      rewrite (index_of_mono _ (n_unique_sorted _)) in H.
      + rewrite !rank_nth in H by auto. apply le_S_n in H. apply below_le_iff in H; auto; now apply nth_In.
      + apply n_unique_in, in_or_app. left. apply nth_In. now rewrite rank_length.
      + apply n_unique_in, in_or_app. left. apply nth_In. now rewrite rank_length.
  Qed.

  Lemma ranks_range col r : In r (rank_min col) -> (1 <= r <= length col)%nat.
  Proof.
    rewrite rank_min_below. intros H. apply in_map_iff in H as (x & <- & I). pose proof (below_bound col x I). lia.
  Qed.
  Lemma unique_bound n l : (forall r, In r l -> (1 <= r <= n)%nat) -> (length (n_unique l) <= n)%nat.
  Proof.
    intros H. rewrite <- (seq_length n 1) at 1. apply NoDup_incl_length.
    - generalize (n_unique_sorted l). induction 1 as [|x m S IH F]; constructor; auto.
      intros C. rewrite Forall_forall in F. specialize (F _ C). lia.
    - intros x I. apply in_seq. specialize (H x (proj1 (n_unique_in x l) I)). lia.
  Qed.
  Lemma resort_length col old new : length (resort argsort col old new) = length new.
  Proof. unfold resort, inverse. now rewrite !map_length. Qed.

  (** Whatever the scores, output values are input values. *)
  Lemma resort_incl col s : length s = length col ->
    forall x, In x (resort argsort col (rank_min col) (rank_min s)) -> In x col.
  Proof.
    intros L x I. unfold resort in I. apply in_map_iff in I as (k & <- & I).
    destruct (resort_sorted col (rank_min s)) as [P _]. apply (Permutation_in _ P), nth_In.
    rewrite (Permutation_length P). unfold inverse in I. apply in_map_iff in I as (r & <- & I).
    assert (IU : In r (n_unique (rank_min col ++ rank_min s))) by (apply n_unique_in, in_or_app; auto).
    apply index_of_lt in IU. eapply Nat.lt_le_trans; [exact IU|]. apply unique_bound.
    intros q Q. apply in_app_or in Q as [Q|Q]; apply ranks_range in Q; lia.
  Qed.
  (** ... in the order of the scores. *)
  Lemma resort_ordered col s : length s = length col ->
    ordered_as s (resort argsort col (rank_min col) (rank_min s)).
  Proof.
    intros L. split; [now rewrite resort_length, rank_length|]. intros i j Hi Hj H.
    destruct (resort_sorted col (rank_min s)) as [P S]. unfold resort. cbn zeta.
    set (t := map (fun k => nth k col 0) (argsort (inverse (rank_min col ++ rank_min s) (rank_min col)))) in *.
    clearbody t.
    assert (LI : length (inverse (rank_min col ++ rank_min s) (rank_min s)) = length s)
      by (unfold inverse; now rewrite map_length, rank_length).
    rewrite !nth_map2 with (d' := 0%nat) by lia. rewrite !inverse_nth by (now rewrite rank_length).
    assert (IN : forall i, (i < length s)%nat -> In (nth i (rank_min s) 0%nat) (n_unique (rank_min col ++ rank_min s))).
    { intros k Hk. apply n_unique_in, in_or_app. right. apply nth_In. now rewrite rank_length. }
    apply S. split.
    - apply (index_of_mono _ (n_unique_sorted _)); auto. rewrite !rank_nth by auto. apply le_n_S, below_mono, H.
    - eapply Nat.lt_le_trans; [apply index_of_lt, IN; auto|]. apply unique_bound.
      intros q Q. apply in_app_or in Q as [Q|Q]; apply ranks_range in Q; lia.
  Qed.

  (** ** Tie-free scores *)
  Lemma tie_free_ranks s : tie_free s -> Permutation (map (below s) s) (seq 0 (length s)).
  Proof.
    intros T. apply NoDup_Permutation_bis.
    - apply (NoDup_nth _ 0%nat). intros i j Hi Hj E. rewrite map_length in Hi, Hj.
      rewrite !nth_map2 with (d' := 0) in E by auto. apply T; auto. apply Qle_antisym.
      + apply (below_le_iff s); [now apply nth_In|now apply nth_In|]. lia.
      + apply (below_le_iff s); [now apply nth_In|now apply nth_In|]. lia.
    - now rewrite seq_length, map_length.
    - intros x I. apply in_map_iff in I as (v & <- & I). apply in_seq. pose proof (below_bound s v I). lia.
  Qed.
  Lemma resort_permutation col s : length s = length col -> tie_free s ->
    Permutation (resort argsort col (rank_min col) (rank_min s)) col.
  Proof.
    intros L T. pose proof (tie_free_ranks s T) as PR.
    assert (U : n_unique (rank_min col ++ rank_min s) = seq 1 (length s)).
    { apply ssorted_unique; [apply n_unique_sorted|apply seq_ssorted|]. intros x. rewrite n_unique_in, in_app_iff, in_seq. split.
      - intros [H|H]; apply ranks_range in H; lia.
      - intros H. right. rewrite rank_min_below. rewrite <- (map_map (below s) S). apply in_map_iff. exists (x - 1)%nat. split; [lia|].
        apply (Permutation_in _ (Permutation_sym PR)). apply in_seq. lia. }
    assert (I : inverse (rank_min col ++ rank_min s) (rank_min s) = map (below s) s).
    { unfold inverse. rewrite U, rank_min_below, map_map. apply map_ext_in. intros x X.
      rewrite index_of_seq; [lia|]. pose proof (below_bound s x X). lia. }
    unfold resort. cbn zeta. rewrite I. destruct (resort_sorted col (rank_min s)) as [P _].
    apply Permutation_trans with (2 := P). apply map_nth_perm. rewrite (Permutation_length P). now rewrite <- L.
  Qed.
End Resort.

(* ------------------------------------------------------------------ *)
(** * induce_correlation *)
Section InduceP.
  Variable argsort : list nat -> list nat.
  Variable scores : matrix -> list (list nat) -> res (list (list Q)).
  Variable spearman : list (list Q) -> matrix.
  Notation induce := (induce_correlation argsort scores spearman).

  Lemma rows_some cols : (forall c, In c cols -> c <> []) -> no_rows cols = false.
  Proof. destruct cols as [|[|x c] cols]; auto. intros H. exfalso. apply (H []); simpl; auto. Qed.
  Lemma forallb_diverse u cols : (forall c, In c cols -> c <> []) ->
    (forallb (diverse u) cols = true <-> forall c, In c cols -> enough u c).
  Proof.
    intros N. rewrite forallb_forall. split; intros H c I.
    - apply diverse_enough; auto.
    - apply diverse_enough; auto.
  Qed.
  Lemma induce_diverse g cols : (forall c, In c cols -> c <> []) ->
    (forall m r, scores m r <> Err diversity_error) ->
    (induce g cols = Err diversity_error <-> exists c, In c cols /\ ~ enough (min_unique g) c).
  Proof.
    intros N SC. unfold induce_correlation. rewrite (rows_some _ N).
    destruct (forallb (diverse (min_unique g)) cols) eqn:E; cbn [negb].
    - rewrite forallb_diverse in E by auto. split.
      + destruct (is_identity _); [discriminate|].
        destruct (scores (wanted g) (map rank_min cols)) as [news|e] eqn:S; cbn [bind].
        * destruct (tol g) as [t|]; [|discriminate]. destruct (Qeq_bool t 0); [discriminate|].
          destruct (well_correlated _ _ _ _); discriminate.
        * intros H. inversion H; subst. exfalso. apply (SC _ _ S).
      + intros (c & I & C). exfalso. auto.
    - split; auto. intros _.
      assert (X : exists c, In c cols /\ diverse (min_unique g) c = false).
      { clear N. induction cols as [|c cols IH]; [discriminate|]. simpl in E. destruct (diverse (min_unique g) c) eqn:D.
        - destruct IH as (x & ? & ?); auto. exists x; simpl; auto.
        - exists c; simpl; auto. }
      destruct X as (c & I & D). exists c. split; auto. intros C. apply diverse_enough in C; auto. congruence.
  Qed.

  Lemma map3_nth {A B C D} (f : A -> B -> C -> D) : forall a b c i da db dc dd, length a = length b -> length b = length c ->
    (i < length a)%nat -> nth i (map3 f a b c) dd = f (nth i a da) (nth i b db) (nth i c dc).
  Proof.
    induction a as [|x a IH]; intros [|y b] [|z c] i da db dc dd L1 L2 H; simpl in *; try lia; try discriminate.
    destruct i; auto. apply IH; lia.
  Qed.
  Lemma map3_length {A B C D} (f : A -> B -> C -> D) : forall a b c, length a = length b -> length b = length c ->
    length (map3 f a b c) = length a.
  Proof. induction a as [|x a IH]; intros [|y b] [|z c] L1 L2; simpl in *; try discriminate; auto. Qed.

  Lemma f2_len {A B} (R : A -> B -> Prop) l m : Forall2 R l m -> length l = length m.
  Proof. induction 1; simpl; auto. Qed.
  Lemma f2_nth {A B} (R : A -> B -> Prop) l m i da db : Forall2 R l m -> (i < length l)%nat -> R (nth i l da) (nth i m db).
  Proof. intros F. revert i. induction F as [|x y l m E F IH]; intros [|i] K; simpl in *; try lia; auto. apply IH. lia. Qed.

  (** The two ways to return. *)
  Lemma induce_ok g cols out : well_shaped scores -> induce g cols = Ok out ->
    (is_identity (wanted g) = true /\ out = cols) \/
    (is_identity (wanted g) = false /\ length out = length cols /\
     exists news, scores (wanted g) (map rank_min cols) = Ok news /\ length news = length cols /\
       (forall i, (i < length cols)%nat -> length (nth i news []) = length (nth i cols []) /\
          nth i out [] = resort argsort (nth i cols []) (rank_min (nth i cols [])) (rank_min (nth i news []))) /\
       (forall t, tol g = Some t -> Qeq_bool t 0 = false -> well_correlated spearman t (wanted g) out = true)).
  Proof.
    intros W H. unfold induce_correlation in H. destruct (no_rows cols); [discriminate|]. destruct (forallb _ cols); cbn [negb] in H; [|discriminate].
    destruct (is_identity (wanted g)) eqn:I; [inversion H; subst; left; auto|]. right. split; auto.
    destruct (scores (wanted g) (map rank_min cols)) as [news|] eqn:S; cbn [bind] in H; [|discriminate].
    pose proof (W _ _ _ S) as F. pose proof (f2_len _ _ _ F) as L. rewrite map_length in L.
    assert (O : out = map3 (resort argsort) cols (map rank_min cols) (map rank_min news) /\
                (forall t, tol g = Some t -> Qeq_bool t 0 = false -> well_correlated spearman t (wanted g) out = true)).
    { destruct (tol g) as [t|]; [|inversion H; split; auto; discriminate].
      destruct (Qeq_bool t 0) eqn:Z; [inversion H; split; auto; intros ? K; inversion K; subst; congruence|].
      destruct (well_correlated spearman t (wanted g) _) eqn:WC; [|discriminate].
      inversion H; subst. split; auto. intros ? K; inversion K; subst; auto. }
    destruct O as [-> O]. split; [rewrite map3_length; rewrite ?map_length; auto|]. exists news. split; auto. split; auto.
    split; auto. intros i Hi.
    rewrite (map3_nth _ cols (map rank_min cols) (map rank_min news) i [] [] []) by (rewrite ?map_length; auto).
    rewrite !nth_map2 with (d' := []) by lia. split; auto.
    pose proof (f2_nth _ _ _ i [] [] F) as X. rewrite map_length in X. specialize (X Hi).
    rewrite nth_map2 with (d' := []) in X by lia. rewrite rank_length in X. auto.
  Qed.

  Lemma induce_columns g cols out i : sorts argsort -> well_shaped scores -> induce g cols = Ok out -> (i < length cols)%nat ->
    length out = length cols /\ length (nth i out []) = length (nth i cols []) /\
    (forall x, In x (nth i out []) -> In x (nth i cols [])) /\
    (forall news, scores (wanted g) (map rank_min cols) = Ok news -> tie_free (nth i news []) ->
       Permutation (nth i out []) (nth i cols []) /\
       (is_identity (wanted g) = false -> ordered_as (nth i news []) (nth i out []))).
  Proof.
    intros SO W H I. apply induce_ok in H as [(ID & ->)|(ID & L & news & S & LN & C & _)]; auto.
    - split; auto. split; auto. split; auto. intros news _ T. split; [apply Permutation_refl|]. congruence.
    - destruct (C i I) as [LC E]. rewrite E. split; auto. split; [rewrite resort_length, rank_length; auto|].
      split; [apply resort_incl; auto|]. intros news' S' T. rewrite S in S'. inversion S'; subst news'.
      split; [now apply resort_permutation|]. intros _. now apply resort_ordered.
  Qed.

  (** ** Tolerance *)
  Lemma close_spec t a b : close t a b = true <-> - t <= a - b /\ a - b <= t.
  Proof. unfold close. rewrite andb_true_iff, !Qle_bool_iff. split; intros [? ?]; split; lra. Qed.
  Lemma induce_tolerance g cols out t : well_shaped scores -> induce g cols = Ok out ->
    tol g = Some t -> ~ t == 0 -> is_identity (wanted g) = false ->
    (length cols = 2%nat -> - t <= entry (spearman out) 0 1 - entry (wanted g) 0 1 /\
                            entry (spearman out) 0 1 - entry (wanted g) 0 1 <= t) /\
    (length cols <> 2%nat -> forall i j, (i < length cols)%nat -> (j < length cols)%nat ->
       - t <= entry (spearman out) i j - entry (wanted g) i j /\ entry (spearman out) i j - entry (wanted g) i j <= t).
  Proof.
    intros W H T NZ NI. apply induce_ok in H as [(ID & _)|(_ & L & news & _ & _ & _ & C)]; auto; [congruence|].
    assert (Z : Qeq_bool t 0 = false) by (apply not_true_is_false; intros X; apply Qeq_bool_iff in X; auto).
    specialize (C t T Z). unfold well_correlated in C. rewrite L in C. destruct (Nat.eqb_spec (length cols) 2) as [E|E].
    - split; [intros _; now apply close_spec|congruence].
    - split; [congruence|]. intros _ i j Hi Hj. rewrite forallb_seq in C. specialize (C i Hi). rewrite forallb_seq in C.
      apply close_spec. auto.
  Qed.

  Lemma induce_singular g cols k : cholesky_test scores -> proper_matrix k (wanted g) -> ~ definite (wanted g) ->
    is_identity (wanted g) = false -> (forall c, In c cols -> c <> []) ->
    (forall c, In c cols -> enough (min_unique g) c) -> induce g cols = Err LinAlgError.
  Proof.
    intros CT P ND I N E. unfold induce_correlation. rewrite (rows_some _ N). apply forallb_diverse in E; auto. rewrite E, I. cbn [negb].
    now rewrite (CT k).
  Qed.

  (** ** A repeated value below the largest loses the largest *)
  Lemma filter_map_len {A B} (f : A -> B) p l : length (filter p (map f l)) = length (filter (fun x => p (f x)) l).
  Proof. induction l as [|x l IH]; simpl; auto. destruct (p (f x)); simpl; auto. Qed.
  Lemma rank_increasing f col : (forall a b, In a (rank_min col) -> In b (rank_min col) -> (a < b)%nat -> f a < f b) -> rank_min (map f (rank_min col)) = rank_min col.
  Proof.
    intros M. rewrite !rank_min_below in *. rewrite !map_map. apply map_ext_in. intros x X. f_equal.
    unfold below at 1. rewrite filter_map_len. unfold below at 3. f_equal. apply filter_ext_in. intros y Y.
    destruct (Qlt_bool y x) eqn:E.
    - apply clt_true in E. apply clt_true. apply M; [apply in_map_iff; eauto|apply in_map_iff; eauto|]. pose proof (below_lt col y x Y E). lia.
    - apply clt_false in E. apply clt_false. pose proof (below_mono col _ _ E).
      destruct (Nat.eq_dec (below col x) (below col y)) as [->|]; [lra|]. apply Qlt_le_weak, M; [apply in_map_iff; eauto|apply in_map_iff; eauto|]. lia.
  Qed.

  Lemma filter_none {A} (f : A -> bool) l : (forall x, In x l -> f x = false) -> filter f l = [].
  Proof.
    induction l as [|x l IH]; intros H; simpl; auto. rewrite (H x) by (simpl; auto). apply IH. intros; apply H; simpl; auto.
  Qed.
  Lemma filter_perm_len {A} (f : A -> bool) l m : Permutation l m -> length (filter f l) = length (filter f m).
  Proof.
    induction 1; simpl; auto; try congruence.
    - destruct (f x); simpl; auto.
    - destruct (f x); destruct (f y); simpl; auto.
  Qed.
  Lemma sorted_prefix col t m k : Permutation t col -> (forall i j, (i <= j < length col)%nat -> nth i t 0 <= nth j t 0) ->
    (k < below col m)%nat -> nth k t 0 < m.
  Proof.
    intros P S K. destruct (Qlt_le_dec (nth k t 0) m) as [|C]; auto. exfalso.
    assert (L : length t = length col) by (now apply Permutation_length).
    unfold below in K. rewrite <- (filter_perm_len _ _ _ P), <- (firstn_skipn k t) in K.
    rewrite filter_app, app_length in K. rewrite (filter_none _ (skipn k t)) in K.
    - pose proof (filter_le (fun y => Qlt_bool y m) (fun _ => true) (firstn k t) (fun _ _ _ => eq_refl)) as B.
      assert (X : filter (fun _ : Q => true) (firstn k t) = firstn k t) by (clear; induction (firstn k t); simpl; congruence).
      rewrite X in B. pose proof (firstn_le_length k t). simpl in K.
      assert (length (firstn k t) <= k)%nat by apply firstn_le_length. lia.
    - intros x I. apply clt_false. destruct (In_nth _ _ 0 I) as (j & J & <-). rewrite skipn_length in J.
      assert (E : nth j (skipn k t) 0 = nth (k + j) t 0).
      { rewrite <- (firstn_skipn k t) at 2. rewrite app_nth2; rewrite firstn_length_le by lia; [|lia]. f_equal. lia. }
      rewrite E. apply Qle_trans with (1 := C). apply S. lia.
  Qed.

  Lemma resort_loses col s m a : sorts argsort -> rank_min s = rank_min col ->
    In m col -> (forall x, In x col -> x <= m) -> repeated a col -> a < m ->
    forall x, In x (resort argsort col (rank_min col) (rank_min s)) -> x < m.
  Proof.
    intros SO R IM MX (l1 & l2 & b & E & IB & BA) AM x IX. rewrite R in IX. unfold resort in IX. cbn zeta in IX.
    apply in_map_iff in IX as (k & <- & IK).
    destruct (resort_sorted argsort SO col (rank_min col)) as [P S0]. apply (sorted_prefix col _ m k P S0).
    unfold inverse in IK. apply in_map_iff in IK as (r & <- & IR).
    set (U := n_unique (rank_min col ++ rank_min col)) in *.
    assert (LU : (length U <= below col m)%nat).
    { assert (BL : below col m = S (length (filter (fun y => Qlt_bool y m) (l1 ++ l2)))).
      { unfold below. rewrite E, !filter_app, !app_length. simpl. apply clt_true in AM. rewrite AM. simpl. lia. }
      rewrite BL.
      transitivity (length (S (below col m) :: map (fun y => S (below col y)) (filter (fun y => Qlt_bool y m) (l1 ++ l2)))).
      2:{ simpl. now rewrite map_length. }
      apply NoDup_incl_length.
      - generalize (n_unique_sorted (rank_min col ++ rank_min col)). fold U. induction 1 as [|y q SS IH F]; constructor; auto.
        intros C. rewrite Forall_forall in F. specialize (F _ C). lia.
      - intros q Q. apply (n_unique_in q (rank_min col ++ rank_min col)) in Q. assert (Q' : In q (rank_min col)) by (apply in_app_or in Q; tauto).
        rewrite rank_min_below in Q'. apply in_map_iff in Q' as (y & <- & Y).
        destruct (Qlt_le_dec y m) as [LT|GE].
        + right. apply clt_true in LT as LT'. rewrite E in Y. apply in_app_or in Y.
          assert (Y' : In y (l1 ++ l2) \/ y = a) by (rewrite in_app_iff; simpl in Y; intuition congruence).
          destruct Y' as [Y'| ->].
          * apply in_map_iff. exists y. split; auto. now apply filter_In.
          * apply in_map_iff. exists b. split.
            -- f_equal. apply Nat.le_antisymm; apply below_mono; lra.
            -- apply filter_In. split; auto. apply clt_true. lra.
        + left. f_equal. specialize (MX _ Y). apply Nat.le_antisymm; apply below_mono; lra. }
    eapply Nat.lt_le_trans; [|exact LU]. apply index_of_lt, n_unique_in, in_or_app. auto.
  Qed.

  (** ... for the first variable of every group. *)
  Lemma induce_loses g c0 cols out m a : sorts argsort -> well_shaped scores -> first_kept scores ->
    induce g (c0 :: cols) = Ok out -> is_identity (wanted g) = false ->
    In m c0 -> (forall x, In x c0 -> x <= m) -> repeated a c0 -> a < m ->
    ~ In m (hd [] out) /\ ~ Permutation (hd [] out) c0.
  Proof.
    intros SO W FK H NI IM MX RP AM. apply induce_ok in H as [(ID & _)|(_ & L & news & S & LN & C & _)]; auto; [congruence|].
    destruct (C 0%nat) as [LC E]; [simpl; lia|]. destruct (FK _ _ _ _ S) as (f & F & M).
    assert (E' : hd [] out = resort argsort c0 (rank_min c0) (rank_min (hd [] news))).
    { destruct out; destruct news; simpl in *; try discriminate; auto. }
    rewrite F in E'. assert (X : ~ In m (hd [] out)).
    { intros I. rewrite E' in I. apply (resort_loses c0 _ m a SO (rank_increasing f c0 M)) in I; auto. lra. }
    split; auto. intros P. apply X. apply (Permutation_in _ (Permutation_sym P)). auto.
  Qed.
  (** Without repetitions the first variable is returned as it is. *)
  Lemma induce_first g c0 cols out : sorts argsort -> well_shaped scores -> first_kept scores ->
    induce g (c0 :: cols) = Ok out -> tie_free c0 -> Permutation (hd [] out) c0.
  Proof.
    intros SO W FK H T. apply induce_ok in H as [(ID & ->)|(_ & L & news & S & LN & C & _)]; auto.
    destruct (C 0%nat) as [LC E]; [simpl; lia|]. destruct (FK _ _ _ _ S) as (f & F & M).
    assert (E' : hd [] out = resort argsort c0 (rank_min c0) (rank_min (hd [] news))).
    { destruct out; destruct news; simpl in *; try discriminate; auto. }
    rewrite E'. apply resort_permutation; auto.
    - rewrite F. now rewrite map_length, rank_length.
    - rewrite F. intros i j Hi Hj EQ. rewrite map_length, rank_length in Hi, Hj.
      rewrite !nth_map2 with (d' := 0%nat) in EQ by (now rewrite rank_length). apply T; auto.
      rewrite !rank_nth in EQ by auto.
      destruct (Nat.lt_trichotomy (below c0 (nth i c0 0)) (below c0 (nth j c0 0))) as [K|[K|K]].
      + assert (f (Datatypes.S (below c0 (nth i c0 0))) < f (Datatypes.S (below c0 (nth j c0 0)))) by (apply M; try lia; rewrite rank_min_below; apply in_map_iff; eexists; (split; [reflexivity|]); now apply nth_In). lra.
      + apply Qle_antisym; apply (below_le_iff c0); try (now apply nth_In); lia.
      + assert (f (Datatypes.S (below c0 (nth j c0 0))) < f (Datatypes.S (below c0 (nth i c0 0)))) by (apply M; try lia; rewrite rank_min_below; apply in_map_iff; eexists; (split; [reflexivity|]); now apply nth_In). lra.
  Qed.
End InduceP.
