(** What the README's programs compute (C190). *)
From Coq Require Import Qabs ZArith Lia Lqa.
From Verif Require Import Base M_Weights M_Values M_Sampler M_Ops M_SampleApi M_Bayesnet M_Kelly SpecSampler SpecWeights SpecBayes SpecConversation SpecShare SpecProgram SpecReadme P_Program M_Double M_DoubleProb.
Open Scope Q_scope.

Lemma mammography_fits prior lh lnh : 0 <= prior <= 1 -> 0 <= lh <= 1 -> 0 <= lnh <= 1 -> fits (mammography prior lh lnh) 2 4.
Proof.
  intros A B C. cbn [mammography fits proper]. split; [lra|]. exists 1%nat, 2%nat. split; [reflexivity|]. split; [reflexivity|].
  intros w v _. split; [destruct (is_true v); lra|]. exists 0%nat, 0%nat. split; [reflexivity|]. split; [reflexivity|]. intros; exact I.
Qed.
Lemma mammography_joint prior lh lnh : chance (mammography prior lh lnh) (fun a => snd a && fst a) == lh * prior.
Proof. cbn. ring. Qed.
Lemma mammography_given prior lh lnh : chance (mammography prior lh lnh) snd == lh * prior + lnh * (1 - prior).
Proof. cbn. ring. Qed.
Lemma mammography_bayes prior lh lnh x : simple_bayes lh lnh prior = Ok x -> chance_given (mammography prior lh lnh) fst snd == x.
Proof.
  unfold simple_bayes, chance_given. destruct (Qeq_bool _ 0) eqn:E; [discriminate|]. intros H. inversion H; subst.
  rewrite mammography_joint, mammography_given. reflexivity.
Qed.
Lemma mammography_readme : exists x, simple_bayes (8#10) (96#1000) (1#100) = Ok x /\ x == 25 # 322 /\
  chance_given (mammography (1#100) (8#10) (96#1000)) fst snd == 25 # 322.
Proof. eexists. split; [reflexivity|]. split; reflexivity. Qed.
Lemma mammography_net Or N ahead : (0 < N)%nat -> right_length Or -> reads Or N ahead ->
  forall prior lh lnh Y wire (q : bcall (state (G Or)) (bool * bool) Y) w f e,
  0 <= prior <= 1 -> 0 <= lh <= 1 -> 0 <= lnh <= 1 -> e == 4 / qnat N -> e < lh * prior + lnh * (1 - prior) ->
  q_fn _ _ _ q = Some f -> wonders _ _ _ q fst snd -> q_cores _ _ _ q = 1%nat -> q_dump _ _ _ q = None -> uncached _ _ _ q w ->
  each_once N 2 (map (coming Or ahead 2) (starts Or (mammography prior lh lnh) (q_n _ _ _ q) (b_st _ _ w))) ->
  exists x y, fst (bayesnet _ _ _ (fun _ => run Or (mammography prior lh lnh)) wire q w) = Ok (OMean _ _ (PFlt (Fin x))) /\
    simple_bayes lh lnh prior = Ok y /\ Qabs (x - y) <= 2 * e / (lh * prior + lnh * (1 - prior) - e).
Proof.
  intros HN RL R prior lh lnh Y wire q w f e P1 P2 P3 E Lt Q1 Q2 Q3 Q4 Q5 Eo.
  destruct (answer_close Or N ahead HN RL R (mammography prior lh lnh) 2 4 fst snd wire q w f (mammography_fits _ _ _ P1 P2 P3) Q1 Q2 Q3 Q4 Q5 Eo) as (x & X & B).
  { rewrite mammography_given. change (qnat 4) with 4. now rewrite <- E. }
  assert (D : Qeq_bool (lh * prior + lnh * (1 - prior)) 0 = false).
  { destruct (Qeq_bool _ 0) eqn:Z; auto. apply Qeq_bool_iff in Z. assert (0 <= e).
    { rewrite E. apply Qle_shift_div_l; [now apply qnat_pos|lra]. } lra. }
  exists x, (lh * prior / (lh * prior + lnh * (1 - prior))). split; [exact X|]. split; [unfold simple_bayes; now rewrite D|].
  rewrite mammography_given, mammography_joint in B. change (qnat 4) with 4 in B. rewrite <- E in B. exact B.
Qed.

Lemma alarm_net_fits : fits alarm_net 5 10.
Proof.
  unfold alarm_net. cbn [fits proper]. split; [lra|]. exists 4%nat, 8%nat. split; [reflexivity|]. split; [reflexivity|].
  intros w1 b _. split; [lra|]. exists 3%nat, 6%nat. split; [reflexivity|]. split; [reflexivity|].
  intros w2 e _. split; [unfold p_alarm_goes_off; destruct (is_true b), (is_true e); lra|]. exists 2%nat, 4%nat. split; [reflexivity|]. split; [reflexivity|].
  intros w3 a _. split; [unfold p_john_calls; destruct (is_true a); lra|]. exists 1%nat, 2%nat. split; [reflexivity|]. split; [reflexivity|].
  intros w4 j _. split; [unfold p_mary_calls; destruct (is_true a); lra|]. exists 0%nat, 0%nat. split; [reflexivity|]. split; [reflexivity|].
  intros; exact I.
Qed.
Lemma alarm_net_values :
  chance_given alarm_net (fun d => mary d && john d) earthquake == 18347047 # 100000000 /\
  chance_given alarm_net burglary (fun d => mary d && john d) == 592242590 # 2084100239.
Proof. split; vm_compute; reflexivity. Qed.
Lemma monty_fits : fits monty_hall 4 10.
Proof.
  unfold monty_hall. cbn [fits]. split; [split; [discriminate|cbn; lia]|]. exists 3%nat, 7%nat. split; [reflexivity|]. split; [reflexivity|].
  intros w1 door I1. split; [cbn; lra|]. exists 2%nat, 5%nat. split; [reflexivity|]. split; [reflexivity|].
  intros w2 sw _. split; [split; [discriminate|cbn; lia]|]. exists 1%nat, 2%nat. split; [reflexivity|]. split; [reflexivity|].
  intros w3 car I2.
  destruct I1 as [I1|[I1|[I1|[]]]], I2 as [I2|[I2|[I2|[]]]]; inversion I1; inversion I2; subst; (split; [split; [discriminate|cbn; lia]|]);
    (exists 0%nat; (exists 0%nat; split; [reflexivity|]; split; [reflexivity|]; intros; exact I) || (exists 1%nat; split; [reflexivity|]; split; [reflexivity|]; intros; exact I)).
Qed.
Lemma monty_values : chance_given monty_hall fst snd == 2#3 /\ chance_given monty_hall fst (fun a => negb (snd a)) == 1#3.
Proof. split; vm_compute; reflexivity. Qed.
Lemma bags_fits : fits bags 3 26.
Proof.
  unfold bags. cbn [fits]. split; [exact I|]. exists 2%nat, 24%nat. split; [reflexivity|]. split; [reflexivity|].
  intros w c [E|[E|[]]]; inversion E; subst; cbn [is_str String.eqb fits].
  - split; [cbn; lia|]. exists 1%nat, 18%nat. split; [reflexivity|]. split; [reflexivity|]. intros; exact I.
  - split; [split; [discriminate|cbn; lia]|]. exists 1%nat, 20%nat. split; [reflexivity|]. split; [reflexivity|].
    intros w v [F|[F|[F|[F|[]]]]]; inversion F; subst; (split; [cbn; lia|]); exists 0%nat.
    + exists 16%nat. split; [reflexivity|]. split; [reflexivity|]. intros; exact I.
    + exists 14%nat. split; [reflexivity|]. split; [reflexivity|]. intros; exact I.
    + exists 10%nat. split; [reflexivity|]. split; [reflexivity|]. intros; exact I.
    + exists 0%nat. split; [reflexivity|]. split; [reflexivity|]. intros; exact I.
Qed.
Lemma bags_values : chance bags (fun z => (z =? 6)%Z) == 59#480 /\ np_round (59#480) 5 == 12292#100000.
Proof. split; vm_compute; reflexivity. Qed.

Lemma kelly_readme power error : exists r, kelly power (70#100) (65#100) 0 1000 NoDate 0 error = Ok r /\
  k_kelly r == 143#1000 /\ k_target r == 14286#100 /\ k_expected_roi r == 77#1000.
Proof. destruct error; (eexists; split; [reflexivity|]; split; [|split]; vm_compute; reflexivity). Qed.

Lemma double_readme : exists q, fl_simple_bayes (rnd (8#10)) (rnd (96#1000)) (rnd (1#100)) = Ok q /\ q == rnd (7763975155279504 # 100000000000000000).
Proof. eexists. split; [vm_compute; reflexivity|]. vm_compute. reflexivity. Qed.
