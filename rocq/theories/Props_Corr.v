(** Correlated variables (C52-C57, C97, C98, C139). *)
From Verif Require Import Base M_Values M_Sampler M_Corr SpecSampler SpecSampler2 SpecCorr
  P_Sampler2 P_Corr P_Induce P_CorrSample P_Psd P_CorrEx P_Units.
From Coq Require Import Lqa Permutation.
Open Scope Q_scope.

(* ---------------------------------------------------------------- C52 *)
Theorem C52_accepts_exactly :
  forall eig_ok, eigen_test eig_ok ->
  forall h vs c t u, (forall v, In v vs -> (v < length (vars h))%nat) ->
  (exists r, correlate eig_ok h vs c t u = Ok r) <->
  (2 <= length vs)%nat /\ (forall v, In v vs -> uncorrelated h v) /\
  match c with
  | CScalar q => - (1) <= (inject_Z (Z.of_nat (length vs)) - 1) * q /\ -1 < q /\ q < 1
  | CMatrix m => proper_matrix (length vs) m /\ semidefinite m
  end.
Proof. intros; now apply correlate_accepts_exact. Qed.
Print Assumptions C52_accepts_exactly.

(** Without any assumption about the eigenvalue routine. *)
Theorem C52_accepted_is_proper :
  forall eig_ok h vs c t u, (forall v, In v vs -> (v < length (vars h))%nat) ->
  (exists r, correlate eig_ok h vs c t u = Ok r) ->
  (2 <= length vs)%nat /\ (forall v, In v vs -> uncorrelated h v) /\
  match c with CScalar q => -1 < q /\ q < 1 | CMatrix m => proper_matrix (length vs) m end.
Proof. intros eig_ok h vs c t u V H. apply correlate_accepts in H as (A & B & C & _); auto. Qed.
Print Assumptions C52_accepted_is_proper.

Theorem C52_rejections :
  forall eig_ok h vs c t u e, (forall v, In v vs -> (v < length (vars h))%nat) ->
  correlate eig_ok h vs c t u = Err e ->
  ((length vs < 2)%nat /\ exists s, e = ValueError s) \/
  ((2 <= length vs)%nat /\ e = AssertionError) \/
  ((2 <= length vs)%nat /\ exists m, c = CMatrix m /\
     ((m = [] /\ e = IndexError) \/
      ((exists s, e = ValueError s) /\ exists row, In row m /\ length row <> length (hd [] m)))).
Proof. exact correlate_errors. Qed.
Print Assumptions C52_rejections.

(** The results are fresh copies in a fresh group; every object that existed before is
    as it was. *)
Theorem C52_originals_unchanged :
  forall eig_ok h vs c t u vs' h', (forall v, In v vs -> (v < length (vars h))%nat) ->
  correlate eig_ok h vs c t u = Ok (vs', h') ->
  (forall v, (v < length (vars h))%nat -> nth_error (vars h') v = nth_error (vars h) v) /\
  (forall k, (k < length (groups h))%nat -> nth_error (groups h') k = nth_error (groups h) k) /\
  (exists m, stands_for (length vs) c m /\ nth_error (groups h') (length (groups h)) = Some (mkGroup vs' m t u)) /\
  Forall2 (fun v v' => (length (vars h) <= v')%nat /\
             exists w, nth_error (vars h) v = Some (mkVar w None) /\
                       nth_error (vars h') v' = Some (mkVar w (Some (length (groups h))))) vs vs' /\
  (forall i j, (i < length vs)%nat -> (j < length vs)%nat ->
     (nth i vs 0%nat = nth j vs 0%nat <-> nth i vs' 0%nat = nth j vs' 0%nat)).
Proof. exact correlate_result. Qed.
Print Assumptions C52_originals_unchanged.

Example C52_sat :
  eigen_test ex_eig /\
  correlate ex_eig ex_heap [0; 1]%nat (CScalar (1 # 2)) None 3 =
    Ok ([2; 3]%nat, mkHeap [mkVar 10 None; mkVar 20 None; mkVar 10 (Some 0%nat); mkVar 20 (Some 0%nat)] [ex_corr_group]) /\
  correlate ex_eig ex_heap [0; 1]%nat (CScalar 1) None 3 = Err AssertionError /\
  correlate ex_eig ex_heap [0; 1; 0]%nat (CScalar (- (9 # 10))) None 3 = Err AssertionError /\
  correlate ex_eig ex_heap [0; 1]%nat (CMatrix [[1; 1 # 2]; [1 # 3; 1]]) None 3 = Err AssertionError /\
  (exists s, correlate ex_eig ex_heap [0]%nat (CScalar 0) None 3 = Err (ValueError s)).
Proof.
  split; [exact ex_eigen|]. split; [exact ex_correlate|]. split; [vm_compute; reflexivity|]. split; [vm_compute; reflexivity|].
  split; [vm_compute; reflexivity|]. eexists. reflexivity.
Qed.

(* ---------------------------------------------------------------- C53 *)
Theorem C53_permutation_in_score_order :
  forall argsort scores spearman, sorts argsort -> well_shaped scores ->
  forall g cols out i,
  induce_correlation argsort scores spearman g cols = Ok out -> (i < length cols)%nat ->
  length out = length cols /\ length (nth i out []) = length (nth i cols []) /\
  (forall x, In x (nth i out []) -> In x (nth i cols [])) /\
  (forall news, scores (wanted g) (map rank_min cols) = Ok news -> tie_free (nth i news []) ->
     Permutation (nth i out []) (nth i cols []) /\
     (is_identity (wanted g) = false -> ordered_as (nth i news []) (nth i out []))).
Proof. intros; now apply (induce_columns argsort scores spearman). Qed.
Print Assumptions C53_permutation_in_score_order.

(** Without ties the output has exactly the ranks of the scores. *)
Theorem C53_ranks_of_scores :
  forall argsort scores spearman g cols out news i, sorts argsort -> well_shaped scores ->
  induce_correlation argsort scores spearman g cols = Ok out -> is_identity (wanted g) = false ->
  scores (wanted g) (map rank_min cols) = Ok news -> (i < length cols)%nat ->
  tie_free (nth i cols []) -> tie_free (nth i news []) -> rank_min (nth i out []) = rank_min (nth i news []).
Proof. exact induced_ranks. Qed.
Print Assumptions C53_ranks_of_scores.

(** What [sample] then returns for the variable. *)
Theorem C53_sampled :
  forall Or argsort scores spearman gr g i members n s s1 cols out col,
  sorts argsort -> well_shaped scores -> induces Or argsort scores spearman g gr ->
  Forall self_contained_dist members -> (1 <= n)%nat -> pending s g i ->
  clips (DCorr g i members) None None ->
  independent Or members n s = (Ok (map (fun c => simplify (flts c)) cols), s1) ->
  (forall c, In c cols -> c <> []) ->
  induce_correlation argsort scores spearman gr cols = Ok out ->
  nth_error out i = Some col ->
  smp Or (ODist (DCorr g i members)) n None None s = (Ok (Arr (flts col)), store_cols Or g i (map flts out) s1).
Proof. intros. eapply corr_marginals; eauto. now apply own_clips. Qed.
Print Assumptions C53_sampled.

Example C53_sat :
  sorts ex_argsort /\ well_shaped ex_scores /\
  induce_correlation ex_argsort ex_scores ex_spearman ex_corr_group [[5; 1; 3; 7]; [10; 40; 30; 20]] =
    Ok [[5; 1; 3; 7]; [30; 10; 20; 40]] /\
  (exists news, ex_scores (wanted ex_corr_group) (map rank_min [[5; 1; 3; 7]; [10; 40; 30; 20]]) = Ok news /\
     tie_free (nth 1 news [])).
Proof.
  split; [exact ex_sorts|]. split; [exact ex_shaped|]. split; [vm_compute; reflexivity|].
  eexists. split; [vm_compute; reflexivity|].
  intros [|[|[|[|i]]]] [|[|[|[|j]]]] Hi Hj E; simpl in Hi, Hj; try lia; vm_compute in E; congruence.
Qed.

(* ---------------------------------------------------------------- C54 *)
(** A value drawn twice is enough to lose another value. *)
Theorem C54_refuted :
  exists argsort scores spearman g cols out,
  sorts argsort /\ well_shaped scores /\ first_kept scores /\
  induce_correlation argsort scores spearman g cols = Ok out /\
  ~ Permutation (nth 0 out []) (nth 0 cols []).
Proof.
  destruct marginals_lost as (out & H & P & _). exists ex_argsort, ex_scores, ex_spearman, ex_corr_group, lossy_cols, out.
  repeat split; auto using ex_sorts, ex_shaped, ex_first; apply ex_sorts || auto.
Qed.
Print Assumptions C54_refuted.

(** In every group: if the first variable repeats any value but its largest, the
    largest is missing from the result. *)
Theorem C54_repeats_lose_the_largest :
  forall argsort scores spearman, sorts argsort -> well_shaped scores -> first_kept scores ->
  forall g c0 cols out m a,
  induce_correlation argsort scores spearman g (c0 :: cols) = Ok out -> is_identity (wanted g) = false ->
  In m c0 -> (forall x, In x c0 -> x <= m) -> repeated a c0 -> a < m ->
  ~ In m (hd [] out) /\ ~ Permutation (hd [] out) c0.
Proof. intros argsort scores spearman SO W F g c0 cols out m a. now apply (induce_loses argsort scores spearman). Qed.
Print Assumptions C54_repeats_lose_the_largest.

(** Without repetitions the first variable does keep its values. *)
Theorem C54_first_variable_partial :
  forall argsort scores spearman, sorts argsort -> well_shaped scores -> first_kept scores ->
  forall g c0 cols out,
  induce_correlation argsort scores spearman g (c0 :: cols) = Ok out -> tie_free c0 -> Permutation (hd [] out) c0.
Proof. intros argsort scores spearman SO W F g c0 cols out. now apply (induce_first argsort scores spearman). Qed.
Print Assumptions C54_first_variable_partial.

Example C54_sat :
  sorts ex_argsort /\ well_shaped ex_scores /\ first_kept ex_scores /\
  (exists out, induce_correlation ex_argsort ex_scores ex_spearman ex_corr_group lossy_cols = Ok out) /\
  repeated 1 (nth 0 lossy_cols []) /\ In 3 (nth 0 lossy_cols []).
Proof.
  split; [exact ex_sorts|]. split; [exact ex_shaped|]. split; [exact ex_first|].
  split; [destruct marginals_lost as (out & H & _); eauto|].
  split; [exists [], [1; 2; 3], 1; simpl; auto using Qeq_refl|simpl; auto].
Qed.

(** Asking for no correlation leaves the samples as they are; this is the only matrix
    treated so. *)
Theorem C54_identity :
  (forall m, is_identity m = true <->
     forall i j, (i < length m)%nat -> (j < length m)%nat -> entry m i j == (if Nat.eqb i j then 1 else 0)) /\
  forall argsort scores spearman g cols out,
    (forall i j, (i < length (wanted g))%nat -> (j < length (wanted g))%nat -> entry (wanted g) i j == (if Nat.eqb i j then 1 else 0)) ->
    induce_correlation argsort scores spearman g cols = Ok out -> out = cols.
Proof. split; [exact identity_test|exact identity_unchanged]. Qed.
Print Assumptions C54_identity.

(* ---------------------------------------------------------------- C55 *)
Theorem C55_diversity_check :
  forall argsort scores spearman, (forall m r, scores m r <> Err diversity_error) ->
  forall g cols, (forall c, In c cols -> c <> []) ->
  (induce_correlation argsort scores spearman g cols = Err diversity_error <->
   exists c, In c cols /\ ~ enough (min_unique g) c).
Proof. intros argsort scores spearman SC g cols N. now apply (induce_diverse argsort scores spearman). Qed.
Print Assumptions C55_diversity_check.

Example C55_sat :
  (forall m r, ex_scores m r <> Err diversity_error) /\
  induce_correlation ex_argsort ex_scores ex_spearman ex_corr_group [[1; 1; 2; 2]; [1; 2; 3; 4]] = Err diversity_error /\
  induce_correlation ex_argsort ex_scores ex_spearman ex_corr_group [[1; 2]; [1; 2]] = Err diversity_error /\
  enough 3 [1; 1; 2; 3].
Proof.
  split; [intros m r; unfold ex_scores; destruct (pd _ _); discriminate|]. split; [vm_compute; reflexivity|].
  split; [vm_compute; reflexivity|]. split; vm_compute; [repeat constructor|discriminate].
Qed.

(* ---------------------------------------------------------------- C56 *)
(** Sampling variable [i] draws all columns at once; sampling others afterwards, each
    at most once and in any order (and whatever number is asked for), hands out the
    columns of that draw without touching the generator. *)
Theorem C56_one_joint_draw :
  forall Or g i members n rest s vs s1 newcols,
  Forall self_contained_dist members -> (1 <= n)%nat -> pending s g i ->
  (forall j, (j < length members)%nat -> clips (DCorr g j members) None None) ->
  independent Or members n s = (Ok vs, s1) ->
  induce Or g (map enlist vs) = Ok newcols -> length newcols = length members ->
  (forall c, In c newcols -> uniform_kind c) ->
  (i < length members)%nat -> (forall j m, In (j, m) rest -> (j < length members)%nat /\ (1 <= m)%nat) ->
  NoDup (i :: map fst rest) ->
  exists s' s'',
    smp Or (ODist (DCorr g i members)) n None None s = (Ok (Arr (nth i newcols [])), s') /\
    rng s' = rng s1 /\
    mapS (fun jm => smp Or (ODist (DCorr g (fst jm) members)) (snd jm) None None) rest s' =
      (Ok (map (fun jm => Arr (nth (fst jm) newcols [])) rest), s'') /\
    rng s'' = rng s1 /\
    (forall j, In j (i :: map fst rest) -> pending s'' g j) /\
    (forall j, (j < length members)%nat -> ~ In j (i :: map fst rest) -> corr s'' g j = Some (Arr (nth j newcols []))) /\
    (forall g' j, g' <> g -> corr s'' g' j = corr s g' j).
Proof. intros. eapply corr_round; eauto. intros. apply own_clips; auto. Qed.
Print Assumptions C56_one_joint_draw.

(** A variable without a stored column (never sampled, or just handed out) always
    makes a new joint draw: failures of the draw or of the correlation step are
    failures of the call. *)
Theorem C56_resampling_draws_again :
  forall Or g i members n s, Forall self_contained_dist members -> (1 <= n)%nat -> pending s g i ->
  (forall e s1, independent Or members n s = (Err e, s1) ->
     smp Or (ODist (DCorr g i members)) n None None s = (Err e, s1)) /\
  (forall vs e s1, independent Or members n s = (Ok vs, s1) -> induce Or g (map enlist vs) = Err e ->
     smp Or (ODist (DCorr g i members)) n None None s = (Err e, s1)).
Proof.
  intros Or g i members n s F N P. split; intros.
  - now apply corr_fails.
  - now apply corr_induce_fails with vs.
Qed.
Print Assumptions C56_resampling_draws_again.

(** Clips act on the column of the joint draw. *)
Theorem C56_clipped_member :
  forall Or g i members n lc rc lo hi s v s' vs s1 newcols col,
  Forall self_contained_dist members -> pending s g i -> clips (DCorr g i members) lo hi ->
  independent Or members n s = (Ok vs, s1) ->
  induce Or g (map enlist vs) = Ok newcols -> nth_error newcols i = Some col -> uniform_kind col ->
  smp Or (ODist (DCorr g i members)) n lc rc s = (Ok v, s') ->
  s' = store_cols Or g i newcols s1 /\
  Forall2 (clamped (tight_lower (q_of lc) (q_of lo))
                   (tight_upper (q_of rc) (q_of hi))) col (elems v).
Proof. intros. apply (corr_clipped Or g i members n lc rc s v s' vs s1 newcols col) in H5 as (A & B); auto. rewrite (own_clips Or _ _ _ H1) in B. auto. Qed.
Print Assumptions C56_clipped_member.

Example C56_sat :
  Forall self_contained_dist two_normals /\ pending quiet 0 0 /\
  (exists vs s1, independent corr_oracle two_normals 3 quiet = (Ok vs, s1) /\
     induce corr_oracle 0 (map enlist vs) = Ok (map enlist vs) /\ length (map enlist vs) = 2%nat /\
     (forall c, In c (map enlist vs) -> uniform_kind c)) /\
  (forall j, (j < 2)%nat -> clips (DCorr 0 j two_normals) None None).
Proof.
  split; [repeat constructor|]. split; [reflexivity|]. split.
  - do 2 eexists. split; [cbv; reflexivity|]. split; [reflexivity|]. split; [reflexivity|].
    intros c [<-|[<-|[]]]; left; repeat constructor; eexists; reflexivity.
  - intros [|[|j]] H; try lia; eapply clips_correlated; try reflexivity; constructor.
Qed.

(* ---------------------------------------------------------------- C57 *)
(** After [sample(a, 3)], [sample(b, 5)] returns 3 values. *)
Theorem C57_refuted :
  exists Or (a b : obj (G Or)) s va s1 vb s2, right_length Or /\
  smp Or a 3 None None s = (Ok va, s1) /\ n_samples 3 va /\
  smp Or b 5 None None s1 = (Ok vb, s2) /\ ~ n_samples 5 vb /\ length (elems vb) = 3%nat.
Proof.
  destruct stale_count as (va & s1 & vb & s2 & A & B & C & D & E).
  exists corr_oracle, a_dist, b_dist, quiet, va, s1, vb, s2. split; [exact corr_right_length|]. auto.
Qed.
Print Assumptions C57_refuted.

(** [sample(a)] with n = 1 returns an array of one value instead of a number. *)
Theorem C57_single_refuted :
  exists Or (a : obj (G Or)) s x s1, right_length Or /\ smp Or a 1 None None s = (Ok (Arr [x]), s1).
Proof.
  destruct single_is_array as (x & s1 & H). exists corr_oracle, a_dist, quiet, x, s1. split; [exact corr_right_length|exact H].
Qed.
Print Assumptions C57_single_refuted.

(** A new joint draw does have n values. *)
Theorem C57_fresh_draw_partial :
  forall Or g i members n s v s', right_length Or -> keeps_shape Or g ->
  Forall (fun d => self_contained_dist d /\ covered_dist d) members -> pending s g i ->
  smp Or (ODist (DCorr g i members)) n None None s = (Ok v, s') ->
  length (elems v) = n.
Proof. exact corr_count. Qed.
Print Assumptions C57_fresh_draw_partial.

Example C57_sat :
  right_length corr_oracle /\ keeps_shape corr_oracle 0 /\
  Forall (fun d => self_contained_dist d /\ covered_dist d) two_normals /\ pending quiet 0 1 /\
  exists v s', smp corr_oracle b_dist 4 None None quiet = (Ok v, s').
Proof.
  split; [exact corr_right_length|].
  split; [intros cols out H; inversion H; subst; clear; induction out; constructor; auto|].
  split; [repeat constructor|]. split; [reflexivity|]. do 2 eexists. cbv. reflexivity.
Qed.

(* ---------------------------------------------------------------- C97 *)
(** With tolerance 0.05, two identical columns pass as uncorrelated; with tolerance 0
    nothing is checked. *)
Theorem C97_refuted :
  (exists argsort scores spearman g cols out t, sorts argsort /\ is_spearman spearman /\
     tol g = Some t /\ t < 1 /\
     induce_correlation argsort scores spearman g cols = Ok out /\
     entry (wanted g) 0 1 == 0 /\ entry (spearman out) 0 1 == 1) /\
  (exists argsort scores spearman g cols out, sorts argsort /\ is_spearman spearman /\
     tol g = Some 0 /\
     induce_correlation argsort scores spearman g cols = Ok out /\
     ~ entry (spearman out) 0 1 == entry (wanted g) 0 1).
Proof.
  split.
  - destruct identity_skips as (out & H & E). exists ex_argsort, ex_scores, ex_spearman, id_group, tied_cols, out, (1 # 20).
    split; [exact ex_sorts|]. split; [exact ex_is_spearman|]. repeat split; auto.
  - destruct zero_skips as (out & H & E). exists ex_argsort, ex_scores, ex_spearman, zero_group, tied_cols, out.
    split; [exact ex_sorts|]. split; [exact ex_is_spearman|]. split; auto. split; auto. rewrite E. discriminate.
Qed.
Print Assumptions C97_refuted.

Theorem C97_tolerance_partial :
  forall argsort scores spearman, well_shaped scores ->
  forall g cols out t, induce_correlation argsort scores spearman g cols = Ok out ->
  tol g = Some t -> ~ t == 0 -> is_identity (wanted g) = false ->
  (length cols = 2%nat -> - t <= entry (spearman out) 0 1 - entry (wanted g) 0 1 /\
                          entry (spearman out) 0 1 - entry (wanted g) 0 1 <= t) /\
  (length cols <> 2%nat -> forall i j, (i < length cols)%nat -> (j < length cols)%nat ->
     - t <= entry (spearman out) i j - entry (wanted g) i j /\ entry (spearman out) i j - entry (wanted g) i j <= t).
Proof. intros argsort scores spearman W g cols out t. now apply (induce_tolerance argsort scores spearman). Qed.
Print Assumptions C97_tolerance_partial.

Example C97_sat :
  well_shaped ex_scores /\ is_identity (wanted strict_group) = false /\
  induce_correlation ex_argsort ex_scores ex_spearman strict_group tied_cols = Err RuntimeError /\
  (exists out, induce_correlation ex_argsort ex_scores ex_spearman
     (mkGroup [2; 3]%nat [[1; 1 # 2]; [1 # 2; 1]] (Some (6 # 10)) 3) tied_cols = Ok out).
Proof.
  split; [exact ex_shaped|]. split; [reflexivity|]. split; [exact strict_raises|]. eexists. vm_compute. reflexivity.
Qed.

(* ---------------------------------------------------------------- C98 *)
(** The matrix [[1,1],[1,1]] is accepted for any two variables and no sampling with it
    can succeed. *)
Theorem C98_refuted :
  exists m, forall eig_ok h vs t u, eigen_test eig_ok -> length vs = 2%nat ->
  (forall v, In v vs -> (v < length (vars h))%nat) -> (forall v, In v vs -> uncorrelated h v) ->
  (exists r, correlate eig_ok h vs (CMatrix m) t u = Ok r) /\
  (forall argsort scores spearman g cols, cholesky_test scores -> wanted g = m ->
     (forall c, In c cols -> c <> []) -> exists e, induce_correlation argsort scores spearman g cols = Err e).
Proof.
  exists perfect. intros eig_ok h vs t u E L V U. split; [now apply perfect_accepted|]. intros. now apply perfect_never.
Qed.
Print Assumptions C98_refuted.

Theorem C98_singular_fails :
  forall argsort scores spearman, cholesky_test scores ->
  forall g cols k, proper_matrix k (wanted g) -> ~ definite (wanted g) -> is_identity (wanted g) = false ->
  (forall c, In c cols -> c <> []) -> (forall c, In c cols -> enough (min_unique g) c) ->
  induce_correlation argsort scores spearman g cols = Err LinAlgError.
Proof. intros argsort scores spearman CT g cols k. now apply (induce_singular argsort scores spearman). Qed.
Print Assumptions C98_singular_fails.

Example C98_sat :
  eigen_test ex_eig /\ cholesky_test ex_scores /\ proper_matrix 2 perfect /\ ~ definite perfect /\ semidefinite perfect /\
  induce_correlation ex_argsort ex_scores ex_spearman (mkGroup [2; 3]%nat perfect None 3) tied_cols = Err LinAlgError.
Proof.
  split; [exact ex_eigen|]. split; [exact ex_cholesky|]. split; [exact perfect_proper|]. split; [exact perfect_singular|].
  split; [exact perfect_semidefinite|]. vm_compute. reflexivity.
Qed.

(* ---------------------------------------------------------------- C139 *)
(** Each variable may be converted by its own increasing function, before or after. *)
Theorem C139_units :
  forall argsort scores spearman g fs cols, sorts argsort -> well_shaped scores -> rank_based spearman ->
  conversions fs cols ->
  induce_correlation argsort scores spearman g (convert fs cols) =
  match induce_correlation argsort scores spearman g cols with Ok out => Ok (convert fs out) | Err e => Err e end.
Proof. exact induce_converts. Qed.
Print Assumptions C139_units.

(** Without a tolerance nothing need be known of the correlation coefficient. *)
Theorem C139_units_without_tolerance :
  forall argsort scores spearman g fs cols, sorts argsort -> well_shaped scores -> tol g = None ->
  conversions fs cols ->
  induce_correlation argsort scores spearman g (convert fs cols) =
  match induce_correlation argsort scores spearman g cols with Ok out => Ok (convert fs out) | Err e => Err e end.
Proof.
  intros argsort scores spearman g fs cols SO W T C.
  assert (E : forall cs, induce_correlation argsort scores spearman g cs = induce_correlation argsort scores (fun _ => []) g cs)
    by (intros cs; unfold induce_correlation; now rewrite T).
  rewrite !E. now apply induce_converts.
Qed.
Print Assumptions C139_units_without_tolerance.

Example C139_sat :
  sorts ex_argsort /\ well_shaped ex_scores /\ rank_based (fun cols => map (map (fun r => inject_Z (Z.of_nat r))) (map rank_min cols)) /\
  conversions [(fun x => 2 * x); (fun x => x + 100)] [[5; 1; 3; 7]; [10; 40; 30; 20]] /\ tol ex_corr_group = None /\
  induce_correlation ex_argsort ex_scores ex_spearman ex_corr_group [[10; 2; 6; 14]; [110; 140; 130; 120]] =
    Ok [[10; 2; 6; 14]; [130; 110; 120; 140]].
Proof.
  split; [exact ex_sorts|]. split; [exact ex_shaped|]. split; [intros fs cols C; now rewrite convert_ranks|].
  split; [repeat constructor; cbv beta; intros; lra|]. split; [reflexivity|]. vm_compute. reflexivity.
Qed.
