(** Equal weights, counterexamples, and logarithms of percentiles. *)
From Coq Require Import Lqa Setoid Permutation Sorted Reals Qreals.
From Coq Require Lra.
From Verif Require Import Base M_Values M_Ops M_Formulas M_Percentiles M_LogPercentiles SpecPercentiles SpecRound
  P_Support P_Ctor P_Round P_Percentiles P_Percentiles2 P_Percentiles3.
Open Scope Q_scope.

(* ------------------------------------------------- equal weights *)
Lemma sum_repeat w n : sum (repeat w n) == inject_Z (Z.of_nat n) * w.
Proof. induction n as [|n IH]; [simpl; ring|]. cbn [repeat sum]. rewrite IH, inject_S. ring. Qed.
Lemma all_same_repeat (w : Q) l : (forall x, In x l -> x = w) -> l = repeat w (length l).
Proof. induction l as [|y l IH]; simpl; intros H; auto. f_equal; auto. Qed.
Lemma point_equal l w i : 0 < w -> (i < length l)%nat -> (forall x, In x (map snd l) -> x = w) ->
  point l i == (inject_Z (Z.of_nat i) + (1#2)) / inject_Z (Z.of_nat (length l)).
Proof.
  intros W L H. unfold point, weight.
  assert (E1 : map snd l = repeat w (length l)) by (rewrite <- (map_length snd l); now apply all_same_repeat).
  assert (E2 : map snd (firstn i l) = repeat w i).
  { rewrite <- firstn_map, E1. clear - L. revert L. generalize (length l). induction i as [|i IH]; intros [|n] L; simpl; auto; [lia|]. f_equal. apply IH. lia. }
  assert (E3 : snd (nth i l (0, 0)) = w) by (apply H, in_map, nth_In; auto).
  rewrite E1, E2, E3, !sum_repeat. assert (~ inject_Z (Z.of_nat (length l)) == 0).
  { intros Z. change 0 with (inject_Z (Z.of_nat 0)) in Z. unfold Qeq in Z. simpl in Z. lia. }
  field. split; auto. intros Z. lra.
Qed.
Lemma sorted_datum_stat l data weights i : length weights = length data -> Permutation l (combine data weights) -> sorted_pairs l ->
  (i < length l)%nat -> order_stat data i (datum l i).
Proof.
  intros E P Sd L. assert (map fst (combine data weights) = data) as Ed.
  { clear - E. revert weights E. induction data as [|d data IH]; intros [|w ws] E; simpl in *; try discriminate; auto. f_equal. auto. }
  assert (Pd : Permutation (map fst l) data) by (rewrite <- Ed; now apply Permutation_map).
  apply (order_stat_perm (map fst l)); auto.
  assert (datum l i = nth i (map fst l) 0) as -> by (unfold datum; rewrite <- (map_nth fst l (0, 0) i); reflexivity).
  apply sorted_order_stat; [|now rewrite map_length].
  clear - Sd. assert (H : forall i j, (i <= j < length (map fst l))%nat -> nth i (map fst l) 0 <= nth j (map fst l) 0).
  { intros i j I. rewrite map_length in I. specialize (Sd i j I). unfold datum in Sd.
    rewrite <- !(map_nth fst l (0, 0)) in Sd. exact Sd. }
  revert H. generalize (map fst l). clear. induction l as [|x l IH]; intros H; constructor.
  - apply IH. intros i j I. apply (H (S i) (S j)). simpl. lia.
  - apply Forall_forall. intros y Iy. apply In_nth with (d := 0) in Iy as (j & Lj & <-). apply (H 0%nat (S j)). simpl. lia.
Qed.
Lemma equal_weights data w q r : 0 < w -> data <> [] -> percent q ->
  weighted_percentile_of data (repeat w (length data)) ((50 + q * inject_Z (Z.of_nat (length data - 1))) / inject_Z (Z.of_nat (length data))) r ->
  percentile_of data q r.
Proof.
  intros W N [Q0 Q1] (l & P & Sd & I). set (n := length data) in *. set (k := (n - 1)%nat) in *.
  assert (Lw : length (repeat w n) = n) by apply repeat_length.
  assert (Ln : length l = n) by (rewrite (Permutation_length P), combine_length, Lw; unfold n; apply Nat.min_id).
  assert (Nn : (0 < n)%nat) by (unfold n; destruct data; simpl; [congruence|lia]).
  assert (En : inject_Z (Z.of_nat n) == inject_Z (Z.of_nat k) + 1) by (rewrite <- inject_S; unfold k; replace (S (n - 1)) with n by lia; reflexivity).
  assert (K0 : 0 <= inject_Z (Z.of_nat k)) by (change 0 with (inject_Z (Z.of_nat 0)); apply inject_nat_le; lia).
  set (N' := inject_Z (Z.of_nat n)) in *. set (K := inject_Z (Z.of_nat k)) in *.
  assert (Np : 0 < N') by lra.
  assert (Same : forall x, In x (map snd l) -> x = w).
  { intros x J. apply in_map_iff in J as ([d v] & <- & J). eapply Permutation_in in J; [|exact P]. apply in_combine_r in J.
    now apply repeat_spec in J. }
  assert (Pt : forall i, (i < n)%nat -> point l i == (inject_Z (Z.of_nat i) + (1#2)) / N').
  { intros i L. rewrite (point_equal l w i); auto; rewrite Ln; auto. reflexivity. }
  assert (St : forall i, (i < n)%nat -> order_stat data i (datum l i)).
  { intros i L. eapply sorted_datum_stat; eauto. now rewrite Ln. }
  set (v := K * (q / 100)). assert (V0 : 0 <= v).
  { unfold v. apply Qmult_le_0_compat; auto. unfold Qdiv. apply Qmult_le_0_compat; auto. discriminate. }
  assert (V1 : v <= K).
  { unfold v. assert (q / 100 <= 1) by (apply Qle_shift_div_r; [reflexivity|lra]).
    pose proof (Qmult_le_0_compat K (1 - q / 100) K0). assert (0 <= 1 - q/100) by lra. specialize (H0 H1). lra. }
  assert (X : (50 + q * K) / N' / 100 == (v + (1#2)) / N') by (unfold v; field; lra).
  assert (Lt : forall i, (inject_Z (Z.of_nat i) + (1#2)) / N' <= (v + (1#2)) / N' <-> inject_Z (Z.of_nat i) <= v).
  { intros i. split; intros H.
    - assert (H' : (inject_Z (Z.of_nat i) + (1#2)) / N' * N' <= (v + (1#2)) / N' * N') by (apply Qmult_le_compat_r; auto; lra).
      rewrite !(Qmult_comm _ N'), !Qmult_div_r in H' by lra. lra.
    - unfold Qdiv. apply Qmult_le_compat_r; [lra|]. apply Qlt_le_weak, Qinv_lt_0_compat; auto. }
  assert (Gt : forall i, (v + (1#2)) / N' < (inject_Z (Z.of_nat i) + (1#2)) / N' -> v < inject_Z (Z.of_nat i)).
  { intros i H. apply Qnot_le_lt. intros C. apply Lt in C. apply (Qlt_not_le _ _ H). exact C. }
  assert (Vn : inject_Z (Z.of_nat (length data - 1)) * (q / 100) == v) by reflexivity.
  destruct I as [[I _]|[[I R]|(i & Li & I1 & I2 & R)]].
  - exfalso. rewrite X, (Pt 0%nat) in I by auto. apply Gt in I. change (inject_Z (Z.of_nat 0)) with 0 in I. lra.
  - rewrite Ln in I, R. fold k in I, R. rewrite X, (Pt k) in I by (unfold k; lia). apply (proj1 (Lt k)) in I. fold K in I.
    exists k, (datum l k), (datum l k). cbv zeta. fold n k K v. split; [exact I|]. split; [lra|].
    split; [apply St; unfold k; lia|]. split; [replace (Nat.min (S k) k) with k by lia; apply St; unfold k; lia|]. fold K. rewrite R. ring.
  - rewrite Ln in Li. rewrite X, (Pt i) in I1 by lia. rewrite X, (Pt (S i)) in I2 by lia. apply (proj1 (Lt i)) in I1. apply Gt in I2.
    rewrite inject_S in I2. exists i, (datum l i), (datum l (S i)). cbv zeta. fold n k K v. split; auto. split; auto.
    split; [apply St; lia|]. split; [replace (Nat.min (S i) k) with (S i) by (unfold k; lia); apply St; lia|].
    rewrite R, X, (Pt i), (Pt (S i)) by lia. rewrite inject_S. field. split; lra.
Qed.
Lemma weighted_of_compat data weights p p' r : p == p' -> weighted_percentile_of data weights p r -> weighted_percentile_of data weights p' r.
Proof.
  intros E (l & P & Sd & I). exists l. split; auto. split; auto.
  assert (E1 : p / 100 == p' / 100) by (rewrite E; reflexivity).
  destruct I as [[I R]|[[I R]|(i & Li & I1 & I2 & R)]]; [left|right; left|right; right].
  - rewrite <- E1. auto.
  - rewrite <- E1. auto.
  - exists i. rewrite <- E1. auto.
Qed.
Lemma equal_weights_median data w r : 0 < w -> data <> [] ->
  weighted_percentile_of data (repeat w (length data)) 50 r -> percentile_of data 50 r.
Proof.
  intros W N H. eapply equal_weights; eauto; [split; discriminate|]. eapply weighted_of_compat; [|exact H].
  assert (E : inject_Z (Z.of_nat (length data)) == inject_Z (Z.of_nat (length data - 1)) + 1).
  { rewrite <- inject_S. destruct data; [congruence|]. cbn [length]. replace (S (S (length data) - 1)) with (S (length data)) by lia. reflexivity. }
  assert (K0 : 0 <= inject_Z (Z.of_nat (length data - 1))) by (change 0 with (inject_Z (Z.of_nat 0)); apply inject_nat_le; lia).
  rewrite E. field. lra.
Qed.

(* ------------------------------------------------- an argsort *)
Fixpoint insertp (x : Q * nat) (l : list (Q * nat)) : list (Q * nat) :=
  match l with [] => [x] | y :: l' => if Qle_bool (fst x) (fst y) then x :: l else y :: insertp x l' end.
Definition argsort0 (l : list Q) : list nat := map snd (fold_right insertp [] (combine l (seq 0 (length l)))).
Lemma insertp_perm x l : Permutation (insertp x l) (x :: l).
Proof.
  induction l as [|y l IH]; simpl; auto. destruct (Qle_bool _ _); auto.
  rewrite IH. apply perm_swap.
Qed.
Lemma insertp_sorted x l : StronglySorted (fun a b => fst a <= fst b) l -> StronglySorted (fun a b => fst a <= fst b) (insertp x l).
Proof.
  induction 1 as [|y l S IH F]; simpl; [repeat constructor|]. destruct (Qle_bool (fst x) (fst y)) eqn:E.
  - apply Qle_bool_iff in E. constructor; [now constructor|]. constructor; auto.
    eapply Forall_impl; [|exact F]. simpl. intros a La. eapply Qle_trans; eauto.
  - assert (L : fst y <= fst x). { destruct (Qlt_le_dec (fst x) (fst y)) as [H|H]; auto. apply Qlt_le_weak, Qle_bool_iff in H. congruence. }
    constructor; auto. apply Forall_forall. intros z I. eapply Permutation_in in I; [|apply insertp_perm].
    destruct I as [<-|I]; auto. rewrite Forall_forall in F. auto.
Qed.
Lemma argsort0_sorts : sorts_numbers argsort0.
Proof.
  intros l. unfold argsort0. set (s := fold_right insertp [] (combine l (seq 0 (length l)))).
  assert (P : Permutation s (combine l (seq 0 (length l)))).
  { unfold s. clear. induction (combine l (seq 0 (length l))) as [|x m IH]; simpl; auto. rewrite insertp_perm. now constructor. }
  assert (SS : StronglySorted (fun a b : Q * nat => fst a <= fst b) s).
  { unfold s. clear. induction (combine l (seq 0 (length l))) as [|x m IH]; simpl; [constructor|]. now apply insertp_sorted. }
  assert (Ls : length s = length l) by (rewrite (Permutation_length P), combine_length, seq_length; apply Nat.min_id).
  split.
  - rewrite P. assert (map snd (combine l (seq 0 (length l))) = seq 0 (length l)) as ->; auto.
    assert (L : length l = length (seq 0 (length l))) by now rewrite seq_length.
    revert L. generalize (seq 0 (length l)). clear. induction l as [|x l IH]; intros [|k ks] L; simpl in *; try discriminate; auto. f_equal. auto.
  - assert (V : forall i, (i < length l)%nat -> nth (nth i (map snd s) 0%nat) l 0 = fst (nth i s (0, 0%nat))).
    { intros i I. rewrite <- Ls in I. assert (J : In (nth i s (0, 0%nat)) s) by now apply nth_In.
      eapply Permutation_in in J; [|exact P]. change 0%nat with (snd (0, 0%nat)) at 1. rewrite map_nth.
      destruct (nth i s (0, 0%nat)) as [x k]. cbn [fst snd]. clear - J.
      assert (G : forall l a, In (x, k) (combine l (seq a (length l))) -> (a <= k)%nat /\ nth (k - a) l 0 = x).
      { clear. induction l as [|y l IH]; intros a J; simpl in J; [contradiction|]. destruct J as [J|J].
        - inversion J; subst. split; auto. now rewrite Nat.sub_diag.
        - apply IH in J as [La E]. split; [lia|]. replace (k - a)%nat with (S (k - S a)) by lia. exact E. }
      apply G in J as [_ E]. now rewrite Nat.sub_0_r in E. }
    intros i j I. rewrite !V by lia. rewrite <- Ls in I. clear - SS I. revert i j I.
    induction SS as [|x s S IH F]; intros i j I; simpl in I; [lia|]. destruct i, j; simpl; try lia.
    + apply Qle_refl.
    + rewrite Forall_forall in F. apply F, nth_In. lia.
    + apply IH. lia.
Qed.

(* ------------------------------------------------- forced orders *)
Lemma perm_three (l : list nat) : Permutation l [0;1;2]%nat ->
  In l [[0;1;2];[0;2;1];[1;0;2];[1;2;0];[2;0;1];[2;1;0]]%nat.
Proof.
  intros P. pose proof (Permutation_length P) as L. destruct l as [|a [|b [|c [|d l]]]]; try discriminate.
  assert (ND : NoDup [a; b; c]) by (eapply Permutation_NoDup; [symmetry; exact P|]; repeat constructor; simpl; intuition discriminate).
  assert (A : In a [0;1;2]%nat) by (eapply Permutation_in; [exact P|simpl; auto]).
  assert (B : In b [0;1;2]%nat) by (eapply Permutation_in; [exact P|simpl; auto]).
  assert (C : In c [0;1;2]%nat) by (eapply Permutation_in; [exact P|simpl; auto]).
  inversion ND as [|? ? N1 ND1]; subst. inversion ND1 as [|? ? N2 _]; subst. simpl in N1, N2, A, B, C.
  destruct A as [<-|[<-|[<-|[]]]], B as [<-|[<-|[<-|[]]]], C as [<-|[<-|[<-|[]]]]; first [exfalso; tauto | simpl; auto 10].
Qed.
Ltac qdecide := vm_compute; intuition congruence.
Lemma order_two argsort a b : sorts_numbers argsort -> a < b -> argsort [a; b] = [0; 1]%nat.
Proof.
  intros H L. destruct (H [a; b]) as [P M]. cbn [length seq] in *. pose proof (Permutation_length P) as Len.
  destruct (argsort [a; b]) as [|i [|j [|]]]; try discriminate.
  apply Permutation_length_2_inv in P || apply Permutation_sym, Permutation_length_2_inv in P.
  destruct P as [E|E]; inversion E; subst; auto. specialize (M 0%nat 1%nat ltac:(lia)). simpl in M. lra.
Qed.
Lemma order_three argsort a b c : sorts_numbers argsort -> a < b -> b < c -> argsort [a; b; c] = [0; 1; 2]%nat.
Proof.
  intros H L1 L2. destruct (H [a; b; c]) as [P M]. cbn [length seq] in *. apply perm_three in P.
  pose proof (M 0%nat 1%nat ltac:(lia)) as M1. pose proof (M 1%nat 2%nat ltac:(lia)) as M2.
  destruct P as [E|[E|[E|[E|[E|[E|[]]]]]]]; rewrite <- E in *; auto; simpl in M1, M2; lra.
Qed.
Lemma order_tie argsort a b : sorts_numbers argsort -> a < b -> argsort [a; b; b] = [0; 1; 2]%nat \/ argsort [a; b; b] = [0; 2; 1]%nat.
Proof.
  intros H L. destruct (H [a; b; b]) as [P M]. cbn [length seq] in *. apply perm_three in P.
  pose proof (M 0%nat 1%nat ltac:(lia)) as M1. pose proof (M 1%nat 2%nat ltac:(lia)) as M2.
  destruct P as [E|[E|[E|[E|[E|[E|[]]]]]]]; rewrite <- E in *; auto; simpl in M1, M2; lra.
Qed.

Lemma ties_differ argsort : sorts_numbers argsort ->
  exists data weights data' weights' p v v', positive_weights data weights /\
    Permutation (combine data weights) (combine data' weights') /\ length weights' = length data' /\ percent p /\
    get_percentiles argsort data (POne p) (Some weights) false None = Ok (One v) /\
    get_percentiles argsort data' (POne p) (Some weights') false None = Ok (One v') /\ ~ v == v'.
Proof.
  intros H. pose (d := [0; 1; 1]). pose (w := [1; 1; 3]). pose (w' := [1; 3; 1]).
  exists d, w, d, w', 20.
  exists (np_interp (weighted_points argsort d w) (20 / 100)), (np_interp (weighted_points argsort d w') (20 / 100)).
  split. { split; [reflexivity|]. split; [discriminate|]. simpl. intros x [<-|[<-|[<-|[]]]]; reflexivity. }
  split. { simpl. apply perm_skip, perm_swap. }
  split; [reflexivity|]. split; [split; discriminate|]. split; [reflexivity|]. split; [reflexivity|].
  unfold weighted_points, d. destruct (order_tie argsort 0 1 H ltac:(reflexivity)) as [-> | ->]; vm_compute; discriminate.
Qed.
Lemma equal_differ argsort : sorts_numbers argsort ->
  exists data w p v v', 0 < w /\ percent p /\
    get_percentiles argsort data (POne p) (Some (repeat w (length data))) false None = Ok (One v) /\
    get_percentiles argsort data (POne p) None false None = Ok (One v') /\ ~ v == v'.
Proof.
  intros H. exists [0; 10], 1, 25. pose (d := [0; 10]). pose (w := [1; 1]).
  exists (np_interp (weighted_points argsort d w) (25 / 100)), (np_percentile [0; 10] 25).
  split; [reflexivity|]. split; [split; discriminate|]. split; [reflexivity|].
  split; [|unfold weighted_points, d; rewrite (order_two argsort 0 10 H ltac:(reflexivity)); vm_compute; discriminate].
  reflexivity.
Qed.
Lemma zero_weight_matters argsort : sorts_numbers argsort ->
  exists a b c v v', get_percentiles argsort [a; b; c] (POne 50) (Some [1; 0; 1]) false None = Ok (One v) /\
    get_percentiles argsort [a; c] (POne 50) (Some [1; 1]) false None = Ok (One v') /\ ~ v == v'.
Proof.
  intros H. exists 0, 9, 10.
  exists (np_interp (weighted_points argsort [0;9;10] [1;0;1]) (50 / 100)), (np_interp (weighted_points argsort [0;10] [1;1]) (50 / 100)).
  split; [reflexivity|]. split; [reflexivity|]. unfold weighted_points.
  rewrite (order_two argsort 0 10 H ltac:(reflexivity)), (order_three argsort 0 9 10 H ltac:(reflexivity) ltac:(reflexivity)).
  vm_compute. discriminate.
Qed.
Lemma mean_ignores_weights argsort : sorts_numbers argsort ->
  exists data weights r, positive_weights data weights /\ get_mean_and_ci argsort data 90 (Some weights) None = Ok r /\
    ~ weighted_mean_of data weights (mc_mean r).
Proof.
  intros H. destruct (mean_ci_run argsort H [0; 10] 90 (Some [1; 3]) None) as (r & E & _ & M & _).
  { split; [reflexivity|]. split; [|reflexivity]. simpl. intros x [<-|[<-|[]]]; discriminate. }
  { split; discriminate. }
  exists [0; 10], [1; 3], r. split; [|split; auto].
  - split; [reflexivity|]. split; [discriminate|]. simpl. intros x [<-|[<-|[]]]; reflexivity.
  - rewrite M. vm_compute. discriminate.
Qed.
Lemma mean_ci_mean argsort data c w w' digits r r' : sorts_numbers argsort -> good_ci data w -> good_ci data w' -> percent c ->
  get_mean_and_ci argsort data c w digits = Ok r -> get_mean_and_ci argsort data c w' digits = Ok r' -> mc_mean r = mc_mean r'.
Proof.
  intros H G G' C E E'. destruct (mean_ci_run argsort H data c w digits G C) as (x & Ex & _ & M & _).
  destruct (mean_ci_run argsort H data c w' digits G' C) as (y & Ey & _ & M' & _).
  rewrite E in Ex. rewrite E' in Ey. inversion Ex. inversion Ey. subst. congruence.
Qed.

(* ------------------------------------------------- through get_percentiles *)
Lemma gp_rejects argsort data pa reverse digits p : In p (plist pa) -> ~ percent p ->
  get_percentiles argsort data pa None reverse digits = Err (ValueError "Percentiles must be in the range [0, 100]").
Proof. intros I N. unfold get_percentiles. now rewrite (np_percentiles_rejects data _ p). Qed.
Lemma gp_mismatch argsort data pa w reverse digits : length data <> length w ->
  get_percentiles argsort data pa (Some w) reverse digits = Err (ValueError "Data and weights must be of the same length").
Proof. intros N. unfold get_percentiles, weighted_percentile. apply Nat.eqb_neq in N. now rewrite N. Qed.

(* ------------------------------------------------- logarithms *)
Lemma log_single_display argsort round_real data p weights reverse digits x :
  get_log_percentiles argsort round_real data (POne p) weights reverse true digits = Ok x -> x = LNone.
Proof.
  unfold get_log_percentiles. destruct (get_percentiles _ _ _ _ _ _) as [o|] eqn:E; [|discriminate].
  assert (exists v, o = One v) as (v & ->).
  { unfold get_percentiles in E. cbn [plist] in E. destruct (match weights with Some _ => _ | None => _ end) as [vs|]; [|discriminate].
    cbn [bind] in E. destruct reverse; cbn [rev app] in E; destruct (map (round_to digits) vs); inversion E; eauto. }
  cbn [bind]. destruct (scientific digits v); simpl; intros H; inversion H; auto.
Qed.
Lemma log_no_digits argsort round_real data pa weights reverse x :
  plist pa <> [] -> get_log_percentiles argsort round_real data pa weights reverse true None <> Ok x.
Proof.
  intros N. unfold get_log_percentiles. destruct (get_percentiles _ _ _ _ _ _) as [o|] eqn:E; [|discriminate].
  cbn [bind]. destruct o as [v|d]; [discriminate|]. destruct d as [|[k v] d]; [|discriminate]. exfalso.
  unfold get_percentiles in E. remember (plist pa) as ps.
  assert (R : exists vs, length vs = length ps /\ (match weights with Some w => weighted_percentile argsort data w ps | None => np_percentiles data ps end) = Ok vs).
  { destruct (match weights with Some _ => _ | None => _ end) as [vs|] eqn:EV; [|discriminate]. exists vs. split; auto.
    destruct weights as [w|].
    - unfold weighted_percentile in EV. destruct (negb _); [discriminate|]. destruct data; [discriminate|].
      destruct (forallb _ _ && _); [|discriminate]. inversion EV. now rewrite map_length.
    - unfold np_percentiles in EV. destruct (negb _); [discriminate|]. destruct data; [discriminate|]. inversion EV. simpl. now rewrite map_length. }
  destruct R as (vs & L & EV). rewrite EV in E. cbn [bind] in E.
  set (labels := if reverse then rev ps else ps) in *.
  assert (Ll : length labels = length ps) by (unfold labels; destruct reverse; auto; apply rev_length).
  assert (Ed : match labels, map (round_to None) vs with [_], v :: _ => Ok (One v) | [_], [] => Err IndexError
               | _, _ => Ok (Dict (dict_of (combine labels (map (round_to None) vs)))) end = Ok (Dict [])) by exact E.
  destruct labels as [|a lr] eqn:EL; [destruct ps; [congruence|discriminate]|].
  destruct vs as [|v vr]; [destruct ps; [congruence|discriminate]|]. cbn [map] in Ed.
  assert (D : forall k v m, dict_of (combine (k :: m) (v :: map (round_to None) vr)) <> []).
  { intros k v0 m C. assert (I : In (k, v0) (combine (k :: m) (v0 :: map (round_to None) vr))) by (simpl; auto).
    destruct (dict_has _ _ _ I) as (v' & G). rewrite C in G. discriminate. }
  destruct lr; [discriminate|]. injection Ed as Ed'. revert Ed'. apply (D a (round_to None v) (q :: lr)).
Qed.
Lemma pow_log v : 0 < v -> (Rpower 10 (ln (Q2R v) / ln 10) = Q2R v)%R.
Proof.
  intros P. assert (0 < Q2R v)%R by (rewrite <- RMicromega.Q2R_0; now apply Qlt_Rlt).
  unfold Rpower. assert (ln 10 <> 0)%R.
  { intros Z. assert (ln 1 < ln 10)%R by (apply ln_increasing; Lra.lra). rewrite ln_1 in *. Lra.lra. }
  replace (ln (Q2R v) / ln 10 * ln 10)%R with (ln (Q2R v)) by (field; auto). now apply exp_ln.
Qed.
Lemma least_positive data : (forall x, In x data -> 0 < x) -> exists lo hi, 0 < lo /\ all_between lo hi data.
Proof.
  induction data as [|a data IH]; intros H; [exists 1, 1; split; [reflexivity|intros x []]|].
  destruct IH as (lo & hi & L & B); [intros; apply H; now right|]. pose proof (H a (or_introl eq_refl)).
  exists (if Qle_bool lo a then lo else a), (if Qle_bool a hi then hi else a). split.
  - destruct (Qle_bool lo a); auto.
  - intros x [<-|I].
    + split.
      * destruct (Qle_bool lo a) eqn:E; [now apply Qle_bool_iff|apply Qle_refl].
      * destruct (Qle_bool a hi) eqn:E; [now apply Qle_bool_iff|apply Qle_refl].
    + destruct (B x I). split.
      * destruct (Qle_bool lo a) eqn:E; auto. destruct (Qlt_le_dec a lo) as [La|La]; [|apply Qle_bool_iff in La; congruence]. lra.
      * destruct (Qle_bool a hi) eqn:E; auto. destruct (Qlt_le_dec hi a) as [La|La]; [|apply Qle_bool_iff in La; congruence]. lra.
Qed.
Lemma log_unrounded argsort round_real data p weights reverse : sorts_numbers argsort -> good_call data weights [p] ->
  (forall x, In x data -> 0 < x) ->
  exists v x, percentile_is data weights p v /\
    get_log_percentiles argsort round_real data (POne p) weights reverse false None = Ok (LLog (RFin x)) /\
    (Rpower 10 x = Q2R v)%R.
Proof.
  intros H G Pos. set (u := pct argsort data weights p). assert (I : In p [p]) by now left.
  assert (PU : 0 < u).
  { destruct (least_positive data Pos) as (lo & hi & L & B). destruct (pct_between argsort H data weights [p] p lo hi G I B).
    fold u in H0. lra. }
  exists u, (ln (Q2R u) / ln 10)%R. split; [now apply (pct_spec argsort H data weights [p])|]. split.
  - unfold get_log_percentiles. rewrite get_vals by auto. cbn [plist]. replace (if reverse then rev [p] else [p]) with [p] by (destruct reverse; auto).
    cbn [map bind round_to]. fold u. unfold np_log10.
    replace (Qlt_bool 0 u) with true; [reflexivity|]. symmetry. unfold Qlt_bool. apply negb_true_iff.
    destruct (Qle_bool u 0) eqn:C; auto. apply Qle_bool_iff in C. lra.
  - now apply pow_log.
Qed.
Lemma log_list argsort round_real data ps weights reverse d :
  get_percentiles argsort data (PList ps) weights reverse None = Ok (Dict d) -> (forall kv, In kv d -> 0 < snd kv) ->
  exists ld, get_log_percentiles argsort round_real data (PList ps) weights reverse false None = Ok (LLogs ld) /\
    Forall2 (fun kv kx => fst kx = fst kv /\ exists x, snd kx = RFin x /\ (Rpower 10 x = Q2R (snd kv))%R) d ld.
Proof.
  intros E P. unfold get_log_percentiles. rewrite E. cbn [bind]. clear E.
  induction d as [|[k v] d IH]; [exists []; split; [reflexivity|constructor]|].
  destruct IH as (ld & E & F); [intros; apply P; now right|].
  assert (PV : 0 < v) by (apply (P (k, v)); now left).
  exists ((k, RFin (ln (Q2R v) / ln 10)%R) :: ld). split.
  - cbn [mapM]. unfold round_log, np_log10 at 1. cbn [snd fst bind].
    replace (Qlt_bool 0 v) with true
      by (symmetry; unfold Qlt_bool; apply negb_true_iff; destruct (Qle_bool v 0) eqn:C; auto; apply Qle_bool_iff in C; lra).
    cbn [bind]. unfold round_log in E. destruct (mapM _ d) as [r|e]; cbn [bind] in *; [|discriminate]. now inversion E.
  - constructor; auto. split; auto. exists (ln (Q2R v) / ln 10)%R. split; auto. now apply pow_log.
Qed.
Lemma log_rounds_first argsort round_real :
  exists data p v, percentile_of data p v /\ 0 < v /\
    get_log_percentiles argsort round_real data (POne p) None false false (Some 1%Z) = Ok (LLog RMinf).
Proof.
  exists [1#25], 50, (1#25). split; [|split; reflexivity].
  eapply percentile_compat; [reflexivity| |apply np_percentile_spec; [discriminate|split; discriminate]]. reflexivity.
Qed.

Lemma same_dset d d' k v v' : Forall2 (fun x y : Q * Q => fst x = fst y /\ snd x == snd y) d d' -> v == v' ->
  Forall2 (fun x y => fst x = fst y /\ snd x == snd y) (dset d k v) (dset d' k v').
Proof.
  intros F E. induction F as [|[a x] [b y] d d' [E1 E2] F IH]; simpl in *.
  - repeat constructor. auto.
  - subst b. destruct (Qeq_bool a k); constructor; auto.
Qed.
Lemma same_dict_of ls vs vs' : Forall2 Qeq vs vs' ->
  Forall2 (fun x y => fst x = fst y /\ snd x == snd y) (dict_of (combine ls vs)) (dict_of (combine ls vs')).
Proof.
  intros F. unfold dict_of. assert (G : Forall2 (fun x y : Q * Q => fst x = fst y /\ snd x == snd y) [] []) by constructor.
  revert G. generalize (@nil (Q * Q)) at 1 3. generalize (@nil (Q * Q)). revert vs vs' F.
  induction ls as [|l ls IH]; intros vs vs' F d d' G; simpl; auto. destruct F as [|v v' vs vs' E F]; simpl; auto.
  apply IH; auto. now apply same_dset.
Qed.
Lemma gp_same as1 as2 data data' w w' pa reverse digits : sorts_numbers as1 -> sorts_numbers as2 ->
  good_call data w (plist pa) -> good_call data' w' (plist pa) ->
  (forall p, In p (plist pa) -> pct as1 data w p == pct as2 data' w' p) ->
  exists o o', get_percentiles as1 data pa w reverse digits = Ok o /\ get_percentiles as2 data' pa w' reverse digits = Ok o' /\ same_out o o'.
Proof.
  intros H1 H2 G G' E. rewrite (get_vals as1 data pa w) by auto. rewrite (get_vals as2 data' pa w') by auto. cbv zeta.
  set (labels := if reverse then rev (plist pa) else plist pa).
  set (v := map (fun p => round_to digits (pct as1 data w p)) (plist pa)).
  set (v' := map (fun p => round_to digits (pct as2 data' w' p)) (plist pa)).
  assert (F : Forall2 Qeq v v').
  { unfold v, v'. revert E. generalize (plist pa). induction l as [|p l IH]; simpl; intros E; constructor; auto.
    apply round_to_compat; auto. }
  assert (Lv : length v = length labels) by (unfold v, labels; destruct reverse; rewrite map_length, ?rev_length; auto).
  destruct labels as [|a [|b ls]] eqn:EL.
  - eexists; eexists; split; [reflexivity|]; split; [reflexivity|]. simpl. constructor.
  - destruct F as [|x x' y y' Ex F]; [discriminate|]. eexists; eexists; split; [reflexivity|]; split; [reflexivity|]. exact Ex.
  - eexists; eexists; split; [reflexivity|]; split; [reflexivity|]. now apply same_dict_of.
Qed.
Lemma gp_perm as1 as2 data data' pa reverse digits : sorts_numbers as1 -> sorts_numbers as2 -> Permutation data data' ->
  good_call data None (plist pa) ->
  exists o o', get_percentiles as1 data pa None reverse digits = Ok o /\ get_percentiles as2 data' pa None reverse digits = Ok o' /\ same_out o o'.
Proof.
  intros H1 H2 P G. destruct G as [N C]. assert (N' : data' <> []) by (intros ->; apply N; now apply Permutation_nil, Permutation_sym).
  apply gp_same; auto; [split; auto|split; auto|]. intros p I. simpl. eapply percentile_unique; [eapply percentile_perm; [exact P|]|]; apply np_percentile_spec; auto.
Qed.
Lemma gp_scale argsort data w k pa reverse digits : sorts_numbers argsort -> 0 < k -> usable_weights data w ->
  exists o o', get_percentiles argsort data pa (Some w) reverse digits = Ok o /\
    get_percentiles argsort data pa (Some (map (fun x => k * x) w)) reverse digits = Ok o' /\ same_out o o'.
Proof.
  intros H K U. apply gp_same; auto; [now apply usable_scale|]. intros p I. simpl. symmetry. now apply weighted_scale.
Qed.
Lemma sum_perm_snd l l' : Permutation l l' -> sum (map snd l) == sum (map (@snd Q Q) l').
Proof. intros P. apply sum_perm. now apply Permutation_map. Qed.
Lemma combine_snd (d w : list Q) : length w = length d -> map snd (combine d w) = w.
Proof. revert w. induction d as [|x d IH]; intros [|y w] E; simpl in *; try discriminate; auto. f_equal. auto. Qed.
Lemma gp_weighted_perm as1 as2 data w data' w' pa reverse digits : sorts_numbers as1 -> sorts_numbers as2 ->
  usable_weights data w -> length w' = length data' -> Permutation (combine data w) (combine data' w') -> different data ->
  exists o o', get_percentiles as1 data pa (Some w) reverse digits = Ok o /\
    get_percentiles as2 data' pa (Some w') reverse digits = Ok o' /\ same_out o o'.
Proof.
  intros H1 H2 U L P D. assert (U' : usable_weights data' w').
  { destruct U as (E & W & T). split; auto. pose proof (Permutation_map snd P) as Ps. rewrite !combine_snd in Ps by auto. split.
    - intros x I. apply W. eapply Permutation_in; [symmetry; exact Ps|auto].
    - now rewrite <- (sum_perm _ _ Ps). }
  apply gp_same; auto. intros p I. simpl. now apply weighted_perm.
Qed.
Lemma gp_dict argsort data ps w digits lo hi : sorts_numbers argsort -> length ps <> 1%nat -> good_call data w ps -> all_between lo hi data ->
  exists d, get_percentiles argsort data (PList ps) w false digits = Ok (Dict d) /\
    dict_over ps d (fun p v => exists r, percentile_is data w p r /\ v == round_to digits r /\ lo <= r /\ r <= hi) /\
    forall p q u v, In p ps -> In q ps -> p <= q -> dget d p = Some u -> dget d q = Some v -> u <= v.
Proof.
  intros H L G B. destruct (get_list argsort H data ps w digits L G) as (d & E & K & K'). exists d. split; auto. split; [split; auto|].
  - intros p I. destruct (K p I) as (v & Ev & EQ). exists v. split; auto. exists (pct argsort data w p). split; [eapply pct_spec; eauto|].
    split; auto. eapply pct_between; eauto.
  - intros p q u v I J Lpq Eu Ev. destruct (K p I) as (u' & Eu' & EU). destruct (K q J) as (v' & Ev' & EV).
    rewrite Eu in Eu'. rewrite Ev in Ev'. inversion Eu'. inversion Ev'. subst u' v'. rewrite EU, EV. apply round_to_mono. eapply pct_mono; eauto.
Qed.

Lemma log_digits_written argsort round_real data ps w reverse digits d :
  get_percentiles argsort data (PList ps) w reverse (Some digits) = Ok (Dict d) -> d <> [] ->
  ((0 <= digits)%Z -> get_log_percentiles argsort round_real data (PList ps) w reverse true (Some digits) =
     Ok (LTexts (map (fun kv => (fst kv, (snd kv, digits))) d))) /\
  ((digits < 0)%Z -> exists m, get_log_percentiles argsort round_real data (PList ps) w reverse true (Some digits) = Err (ValueError m)).
Proof.
  intros E N. unfold get_log_percentiles. rewrite E. cbn [bind]. unfold scientific. split; intros L.
  - assert (digits <? 0 = false)%Z as -> by (apply Z.ltb_ge; lia). clear E N.
    assert (mapM (fun kv : Q * Q => do t <- Ok (snd kv, digits); Ok (fst kv, t)) d = Ok (map (fun kv => (fst kv, (snd kv, digits))) d)) as ->; auto.
    induction d as [|kv d IH]; [reflexivity|]. cbn [mapM map bind]. cbn [bind] in IH. rewrite IH. reflexivity.
  - assert (digits <? 0 = true)%Z as -> by (apply Z.ltb_lt; lia). destruct d as [|kv d]; [congruence|]. cbn [mapM bind]. eauto.
Qed.
