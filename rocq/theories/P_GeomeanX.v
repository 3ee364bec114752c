(** Geometric means of zeros, infinities and NA. *)
From Coq Require Import Reals Lra Qreals.
From Verif Require Import Base M_Weights SpecWeights P_Weights P_Sampler M_Formulas SpecFormulas P_Formulas P_Geomean.
Open Scope R_scope.

Definition lg (v : rnum) : rnum :=
  match v with
  | RFin x => if Rlt_dec 0 x then RFin (ln x) else if Req_EM_T x 0 then RMinf else RNan
  | RInf => RInf
  | _ => RNan
  end.
Lemma logs_total xs : ~ In RNone xs -> mapM np_log xs = Ok (map lg xs).
Proof.
  induction xs as [|x xs IH]; intros N; [reflexivity|]. cbn [mapM map]. rewrite IH by (intros I; apply N; now right).
  destruct x; cbn; try reflexivity; try (destruct (Rlt_dec 0 r); try destruct (Req_EM_T r 0); reflexivity). destruct N. now left.
Qed.
Lemma logs_none xs : In RNone xs -> mapM np_log xs = Err TypeError.
Proof.
  induction xs as [|x xs IH]; intros I; [destruct I|]. destruct I as [->|I]; [reflexivity|]. cbn [mapM]. rewrite IH by exact I. now destruct x.
Qed.
Lemma nan_in l : In RNan l \/ ~ In RNan l.
Proof. induction l as [|x l [I|I]]; [right; tauto|left; now right|]. destruct x; try (right; intros [E|E]; [discriminate|tauto]). left. now left. Qed.
Lemma scale_pos k x : 0 < k -> rscale k x = match x with RFin r => RFin (k * r) | RInf => RInf | RMinf => RMinf | _ => RNan end.
Proof. intros P. destruct x; try reflexivity; cbn; destruct (Rlt_dec 0 k); try reflexivity; contradiction. Qed.
(** Sums with positive weights. *)
Lemma sum_kinds ws : positive ws -> forall l, length ws = length l -> ~ In RNan l -> ~ In RNone l ->
  match weighted_sum ws l with
  | RFin _ => ~ In RInf l /\ ~ In RMinf l
  | RInf => In RInf l /\ ~ In RMinf l
  | RMinf => In RMinf l /\ ~ In RInf l
  | RNan => In RInf l /\ In RMinf l
  | RNone => False
  end.
Proof.
  induction 1 as [|w ws H F IH]; intros [|x l] L N N'; cbn in L; try discriminate; [cbn; tauto|].
  injection L as L. specialize (IH l L ltac:(intros I; apply N; now right) ltac:(intros I; apply N'; now right)).
  cbn [weighted_sum]. rewrite scale_pos by (now apply q2r_pos). destruct (weighted_sum ws l); destruct x; cbn [radd];
    cbn [In] in *; try (exfalso; tauto); intuition (try discriminate); try congruence.
Qed.
Lemma mean_unusual ws xs : positive ws -> length ws = length xs ->
  (xs = [] -> gm_of ws (map GVal xs) = Err ZeroDivisionError) /\
  (In RNone xs -> gm_of ws (map GVal xs) = Err TypeError) /\
  (~ In RNone xs -> (exists x, In x xs /\ no_log x) -> gm_of ws (map GVal xs) = Ok RNan) /\
  (~ In RNone xs -> In (RFin 0) xs -> In RInf xs -> gm_of ws (map GVal xs) = Ok RNan) /\
  (~ In RNone xs -> ~ (exists x, In x xs /\ no_log x) -> In (RFin 0) xs -> ~ In RInf xs -> gm_of ws (map GVal xs) = Ok (RFin 0)) /\
  (~ In RNone xs -> ~ (exists x, In x xs /\ no_log x) -> ~ In (RFin 0) xs -> In RInf xs -> gm_of ws (map GVal xs) = Ok RInf).
Proof.
  intros P L.
  assert (Ln : length ws = length (map lg xs)) by (now rewrite map_length).
  assert (Lnone : ~ In RNone (map lg xs)).
  { intros I. apply in_map_iff in I as (x & E & _). destruct x; cbn in E; try discriminate.
    destruct (Rlt_dec 0 r); [discriminate|]. destruct (Req_EM_T r 0); discriminate. }
  assert (Linf : In RInf (map lg xs) <-> In RInf xs).
  { split; intros I; [|apply in_map_iff; now exists RInf]. apply in_map_iff in I as (x & E & I). destruct x; cbn in E; try discriminate; [|exact I].
    destruct (Rlt_dec 0 r); [discriminate|]. destruct (Req_EM_T r 0); discriminate. }
  assert (Lminf : In RMinf (map lg xs) <-> In (RFin 0) xs).
  { split; intros I.
    - apply in_map_iff in I as (x & E & I). destruct x; cbn in E; try discriminate.
      destruct (Rlt_dec 0 r); [discriminate|]. destruct (Req_EM_T r 0) as [->|]; [exact I|discriminate].
    - apply in_map_iff. exists (RFin 0). split; [|exact I]. cbn. destruct (Rlt_dec 0 0); [lra|]. now destruct (Req_EM_T 0 0). }
  assert (Lnan : In RNan (map lg xs) <-> In RNone xs \/ exists x, In x xs /\ no_log x).
  { split; intros I.
    - apply in_map_iff in I as (x & E & I). destruct x; cbn in E; try discriminate; [|right; now exists RMinf|right; now exists RNan|now left].
      destruct (Rlt_dec 0 r); [discriminate|]. destruct (Req_EM_T r 0); [discriminate|]. right. exists (RFin r). split; [exact I|cbn; lra].
    - apply in_map_iff. destruct I as [I|(x & I & B)]; [now exists RNone|]. exists x. split; [|exact I].
      destruct x; cbn in *; try reflexivity; try contradiction. destruct (Rlt_dec 0 r); [lra|]. destruct (Req_EM_T r 0); [lra|reflexivity]. }
  assert (G : xs <> [] -> ~ In RNone xs ->
    gm_of ws (map GVal xs) = Ok (np_exp (rscale (/ weight_total ws) (weighted_sum ws (map lg xs)))) /\ 0 < / weight_total ws).
  { intros NE NN. assert (NW : ws <> []) by (intros ->; destruct xs; [contradiction|discriminate]).
    pose proof (weight_total_pos ws P NW) as W. split; [|now apply Rinv_0_lt_compat].
    unfold gm_of. rewrite gnum_vals. cbn [bind]. rewrite logs_total by exact NN. cbn [bind]. unfold average.
    destruct (Req_EM_T (weight_total ws) 0); [lra|reflexivity]. }
  assert (NEl : forall x, In x xs -> xs <> []) by (intros x I ->; destruct I).
  pose proof (sum_kinds ws P (map lg xs) Ln) as K.
  split. { intros ->. destruct ws; [|discriminate]. unfold gm_of. cbn. unfold average. cbn. now destruct (Req_EM_T 0 0). }
  split. { intros I. unfold gm_of. rewrite gnum_vals. cbn [bind]. now rewrite logs_none. }
  split. { intros NN (x & I & B). destruct (G (NEl x I) NN) as (-> & W). rewrite weighted_nan; [reflexivity|exact Ln|]. apply Lnan. right. eauto. }
  split.
  { intros NN Z I. destruct (G (NEl _ I) NN) as (-> & W). destruct (nan_in (map lg xs)) as [J|J].
    - rewrite weighted_nan; auto.
    - specialize (K J Lnone). apply Linf in I. apply Lminf in Z. rewrite scale_pos by exact W. destruct (weighted_sum ws (map lg xs)); try reflexivity; tauto. }
  split; intros NN NB Z I; (assert (J : ~ In RNan (map lg xs)) by (rewrite Lnan; tauto)); specialize (K J Lnone);
    rewrite <- Linf in I; rewrite <- Lminf in Z.
  - destruct (G (NEl _ (proj1 Lminf Z)) NN) as (-> & W). rewrite scale_pos by exact W.
    destruct (weighted_sum ws (map lg xs)); try reflexivity; tauto.
  - destruct (G (NEl _ (proj1 Linf I)) NN) as (-> & W). rewrite scale_pos by exact W.
    destruct (weighted_sum ws (map lg xs)); try reflexivity; tauto.
Qed.
Lemma geomean_unusual w rw v d ws xs : fst (pwv g_pair g_na w rw v d) = Ok (ws, map GVal xs) ->
  (xs = [] -> geomean w rw v d = Err ZeroDivisionError) /\
  (In RNone xs -> geomean w rw v d = Err TypeError) /\
  (~ In RNone xs -> (exists x, In x xs /\ no_log x) -> geomean w rw v d = Ok RNan) /\
  (~ In RNone xs -> In (RFin 0) xs -> In RInf xs -> geomean w rw v d = Ok RNan) /\
  (~ In RNone xs -> ~ (exists x, In x xs /\ no_log x) -> In (RFin 0) xs -> ~ In RInf xs -> geomean w rw v d = Ok (RFin 0)) /\
  (~ In RNone xs -> ~ (exists x, In x xs /\ no_log x) -> ~ In (RFin 0) xs -> In RInf xs -> geomean w rw v d = Ok RInf).
Proof.
  intros H. pose proof (pwv_out g_pair g_na w rw v d _ _ H) as (P & L). rewrite map_length in L.
  rewrite geomean_unfold, H. cbn [bind fst snd]. now apply mean_unusual.
Qed.
