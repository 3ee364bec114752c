(** Concrete instances for the correlation contracts, and the counterexamples. *)
From Verif Require Import Base M_Weights M_Pick M_Values M_Sampler M_Corr SpecSampler SpecSampler2 SpecCorr
  P_Sampler P_Sampler2 P_Pure P_Corr P_Induce P_CorrSample P_Psd.
From Coq Require Import Lqa Permutation.
Open Scope Q_scope.

(** An insertion sort of positions. *)
Fixpoint ins (l : list nat) (i : nat) (p : list nat) : list nat :=
  match p with
  | [] => [i]
  | j :: p' => if Nat.leb (nth i l 0%nat) (nth j l 0%nat) then i :: p else j :: ins l i p'
  end.
Definition ex_argsort (l : list nat) : list nat := fold_right (ins l) [] (seq 0 (length l)).
Lemma ins_perm l i p : Permutation (ins l i p) (i :: p).
Proof.
  induction p as [|j p IH]; simpl; auto. destruct (Nat.leb _ _); auto.
  apply perm_trans with (j :: i :: p); [now constructor|apply perm_swap].
Qed.
Definition nondecreasing (l p : list nat) : Prop :=
  forall i j, (i <= j < length p)%nat -> (nth (nth i p 0) l 0 <= nth (nth j p 0) l 0)%nat.
Lemma ins_sorted l i p : nondecreasing l p -> nondecreasing l (ins l i p).
Proof.
  induction p as [|j p IH]; intros H; simpl.
  - intros a b L. simpl in L. assert (a = 0 /\ b = 0)%nat as [-> ->] by lia. auto.
  - assert (T : nondecreasing l p) by (intros a b L; apply (H (S a) (S b)); simpl; lia).
    assert (HD : forall k, In k p -> (nth j l 0 <= nth k l 0)%nat).
    { intros k K. destruct (In_nth _ _ 0%nat K) as (q & Q & <-). apply (H 0%nat (S q)). simpl. lia. }
    destruct (Nat.leb_spec (nth i l 0%nat) (nth j l 0%nat)) as [C|C].
    + intros [|a] [|b] L; simpl in *; auto; try lia.
      * destruct b; [lia|]. assert (nth j l 0 <= nth (nth b p 0) l 0)%nat by (apply HD, nth_In; lia). lia.
      * apply (H a b). simpl. lia.
    + specialize (IH T). intros [|a] [|b] L; simpl in *; auto; try lia.
      * assert (I : In (nth b (ins l i p) 0%nat) (ins l i p)) by (apply nth_In; lia).
        apply (Permutation_in _ (ins_perm l i p)) in I as [<-|I]; [lia|auto].
      * apply IH. lia.
Qed.
Lemma ex_sorts : sorts ex_argsort.
Proof.
  intros l. assert (P : Permutation (ex_argsort l) (seq 0 (length l))).
  { unfold ex_argsort. induction (seq 0 (length l)) as [|i p IH]; simpl; auto.
    apply perm_trans with (1 := ins_perm _ _ _). now constructor. }
  split; auto. intros i j L. assert (N : nondecreasing l (ex_argsort l)).
  { clear. unfold ex_argsort. induction (seq 0 (length l)) as [|k p IH]; simpl; [intros ? ? K; simpl in K; lia|now apply ins_sorted]. }
  apply N. rewrite (Permutation_length P), seq_length. lia.
Qed.

(** Scores: the first variable keeps its ranks, the others mix them with the first's;
    singular matrices have no Cholesky factor. *)
Definition q_of_nat (n : nat) : Q := inject_Z (Z.of_nat n).
Definition ex_mix (m : matrix) (r : list (list nat)) : list (list Q) :=
  match r with
  | [] => []
  | r0 :: rs => map q_of_nat r0 ::
      map (fun ri => zipw (fun a b => q_of_nat b + a) (map (fun a => 100 * entry m 0 1 * q_of_nat a) r0 ++ repeat 0 (length ri)) ri) rs
  end.
Definition ex_scores (m : matrix) (r : list (list nat)) : res (list (list Q)) :=
  if pd (length m) m then Ok (ex_mix m r) else Err LinAlgError.
Lemma zipw_len2 {A B C} (f : A -> B -> C) : forall a b, (length b <= length a)%nat -> length (zipw f a b) = length b.
Proof. induction a as [|x a IH]; intros [|y b] L; simpl in *; try lia. f_equal. apply IH. lia. Qed.
Lemma ex_shaped : well_shaped ex_scores.
Proof.
  intros m r news H. unfold ex_scores in H. destruct (pd _ _); inversion H; subst. unfold ex_mix.
  destruct r as [|r0 rs]; constructor; [now rewrite map_length|].
  induction rs as [|ri rs IH]; simpl; constructor; auto. rewrite zipw_len2; auto. rewrite app_length, repeat_length. lia.
Qed.
Lemma ex_first : first_kept ex_scores.
Proof.
  intros m c0 cs news H. unfold ex_scores in H. destruct (pd _ _); inversion H; subst. exists q_of_nat. split; auto.
  intros a b _ _ L. unfold q_of_nat. rewrite <- Zlt_Qlt. lia.
Qed.
Lemma ex_cholesky : cholesky_test ex_scores.
Proof. apply (pd_cholesky ex_mix). Qed.
Definition ex_spearman (cols : list (list Q)) : matrix :=
  map (fun a => map (fun b => rho a b) cols) cols.
Lemma ex_is_spearman : is_spearman ex_spearman.
Proof.
  intros cols i j Hi Hj _ _ _ _. unfold entry, ex_spearman.
  rewrite nth_map2 with (d' := []) by auto. rewrite nth_map2 with (d' := []) by auto. reflexivity.
Qed.
Definition ex_eig (m : matrix) : bool := psd (length m) m.
Lemma ex_eigen : eigen_test ex_eig.
Proof. exact psd_eigen. Qed.

(** Two variables, none correlated. *)
Definition ex_heap : cheap := mkHeap [mkVar 10 None; mkVar 20 None] [].
Definition ex_corr_group : group := mkGroup [2%nat; 3%nat] [[1; 1 # 2]; [1 # 2; 1]] None 3.
Lemma ex_correlate : correlate ex_eig ex_heap [0; 1]%nat (CScalar (1 # 2)) None 3 =
  Ok ([2; 3]%nat, mkHeap [mkVar 10 None; mkVar 20 None; mkVar 10 (Some 0%nat); mkVar 20 (Some 0%nat)] [ex_corr_group]).
Proof. vm_compute. reflexivity. Qed.

(** C54: the first variable has the value 1 twice; afterwards its largest value is
    gone. *)
Definition lossy_cols : list (list Q) := [[1; 1; 2; 3]; [4; 3; 2; 1]].
Lemma marginals_lost : exists out,
  induce_correlation ex_argsort ex_scores ex_spearman ex_corr_group lossy_cols = Ok out /\
  ~ Permutation (nth 0 out []) (nth 0 lossy_cols []) /\ In 3 (nth 0 lossy_cols []) /\ ~ In 3 (nth 0 out []).
Proof.
  eexists. split; [vm_compute; reflexivity|]. cbn [nth lossy_cols].
  assert (N : ~ In 3 [1; 1; 1; 2]) by (simpl; intros H; repeat (destruct H as [H|H]; [discriminate|]); auto).
  split; [|split; [simpl; auto|exact N]].
  intros P. apply N. apply (Permutation_in _ (Permutation_sym P)). simpl; auto.
Qed.

(** C98: perfect correlation passes the checks of [correlate] and cannot be induced. *)
Definition perfect : matrix := [[1; 1]; [1; 1]].
Lemma perfect_proper : proper_matrix 2 perfect.
Proof.
  split; auto. split; [intros r [<-|[<-|[]]]; auto|]. split; [|split].
  - intros [|[|i]] H; try lia; reflexivity.
  - intros [|[|i]] [|[|j]] Hi Hj; try lia; simpl; unfold entry; simpl; split; lra.
  - intros [|[|i]] [|[|j]] Hi Hj; try lia; reflexivity.
Qed.
Lemma perfect_singular : ~ definite perfect.
Proof.
  intros H. specialize (H [1; - (1)] eq_refl). assert (X : 0 < quad perfect [1; - (1)]).
  { apply H. exists 1. split; [simpl; auto|lra]. }
  vm_compute in X. discriminate.
Qed.
Lemma perfect_semidefinite : semidefinite perfect.
Proof. apply (ex_eigen 2%nat); [apply perfect_proper|]. vm_compute. reflexivity. Qed.
Lemma perfect_accepted eig_ok h vs t u : eigen_test eig_ok -> length vs = 2%nat ->
  (forall v, In v vs -> (v < length (vars h))%nat) -> (forall v, In v vs -> uncorrelated h v) ->
  exists r, correlate eig_ok h vs (CMatrix perfect) t u = Ok r.
Proof.
  intros E L V U. apply correlate_accepts_exact; auto. rewrite L. split; auto. split; auto.
  split; [apply perfect_proper|apply perfect_semidefinite].
Qed.
Lemma perfect_never argsort scores spearman g cols : cholesky_test scores -> wanted g = perfect ->
  (forall c, In c cols -> c <> []) ->
  exists e, induce_correlation argsort scores spearman g cols = Err e.
Proof.
  intros CT W N. destruct (induce_correlation argsort scores spearman g cols) as [out|e] eqn:E; eauto. exfalso.
  unfold induce_correlation in E. destruct (no_rows cols); [discriminate|]. destruct (forallb _ cols); cbn [negb] in E; [|discriminate]. rewrite W in E.
  assert (I : is_identity perfect = false) by (vm_compute; reflexivity). rewrite I in E.
  rewrite (CT 2%nat) in E by (auto using perfect_proper, perfect_singular). discriminate.
Qed.

(** C97: identity matrices and a tolerance of zero skip the check. *)
Definition ident : matrix := [[1; 0]; [0; 1]].
Definition id_group : group := mkGroup [2%nat; 3%nat] ident (Some (1 # 20)) 3.
Definition zero_group : group := mkGroup [2%nat; 3%nat] [[1; 1 # 2]; [1 # 2; 1]] (Some 0) 3.
Definition strict_group : group := mkGroup [2%nat; 3%nat] [[1; 1 # 2]; [1 # 2; 1]] (Some (1 # 20)) 3.
Definition tied_cols : list (list Q) := [[1; 2; 3; 4]; [1; 2; 3; 4]].
Lemma identity_skips : exists out, induce_correlation ex_argsort ex_scores ex_spearman id_group tied_cols = Ok out /\
  entry (ex_spearman out) 0 1 == 1.
Proof. exists tied_cols. split; vm_compute; reflexivity. Qed.
Lemma zero_skips : exists out, induce_correlation ex_argsort ex_scores ex_spearman zero_group tied_cols = Ok out /\
  entry (ex_spearman out) 0 1 == 1.
Proof. eexists. split; vm_compute; reflexivity. Qed.
Lemma strict_raises : induce_correlation ex_argsort ex_scores ex_spearman strict_group tied_cols = Err RuntimeError.
Proof. vm_compute. reflexivity. Qed.

(** C57: a generator counting its draws; the columns are returned as drawn. *)
Definition count_up (n : nat) (k : nat) : list Q := map (fun i => inject_Z (Z.of_nat i)) (seq k n).
Definition corr_oracle : oracle := {|
  G := nat;
  drawf := fun _ n k => (Ok (count_up n k), (k + n)%nat);
  drawi := fun _ n k => (Ok (repeat 0%Z n), (k + n)%nat);
  ppf := fun q => q; sqrt_ := fun q => q; exp_ := fun q => q; log_ := fun q => q; pow_ := fun x _ => x;
  fmt := fun _ => ""%string;
  induce := fun _ cols => Ok cols;
  die_fuel := 1%nat
|}.
Definition two_normals : list (dist nat) := [DLeaf (LNormal 0 (Some 1)) None None; DLeaf (LNormal 5 (Some 2)) None None].
Definition quiet : state nat := mkState 0%nat (fun _ _ => None).
Definition a_dist : obj (G corr_oracle) := ODist (DCorr 0 0 two_normals).
Definition b_dist : obj (G corr_oracle) := ODist (DCorr 0 1 two_normals).
Lemma corr_right_length : right_length corr_oracle.
Proof.
  split; intros r n g l g' H; simpl in H; inversion H; [unfold count_up; now rewrite map_length, seq_length|apply repeat_length].
Qed.
Lemma stale_count : exists va s1 vb s2,
  smp corr_oracle a_dist 3 None None quiet = (Ok va, s1) /\ n_samples 3 va /\
  smp corr_oracle b_dist 5 None None s1 = (Ok vb, s2) /\ ~ n_samples 5 vb /\ length (elems vb) = 3%nat.
Proof.
  do 4 eexists. split; [cbv; reflexivity|]. split; [eexists; split; reflexivity|].
  split; [cbv; reflexivity|]. split; [|reflexivity]. intros (l & E & L). inversion E; subst. discriminate.
Qed.
Lemma single_is_array : exists x s1, smp corr_oracle a_dist 1 None None quiet = (Ok (Arr [x]), s1).
Proof. do 2 eexists. cbv. reflexivity. Qed.
