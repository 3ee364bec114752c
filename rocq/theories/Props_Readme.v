(** C190: the worked examples of README.md. *)
From Coq Require Import Qabs Lia Lqa.
From Verif Require Import Base M_Weights M_Values M_Sampler M_Ops M_SampleApi M_Bayesnet M_Kelly M_Double M_DoubleProb
  SpecSampler SpecBayes SpecConversation SpecShare SpecProgram SpecReadme P_Program P_Readme.
Open Scope Q_scope.

(** The two ways of answering the mammography question agree for all probabilities:
    the program's conditional probability is what [simple_bayes] returns ... *)
Theorem C190_mammography :
  forall prior lh lnh x, simple_bayes lh lnh prior = Ok x -> chance_given (mammography prior lh lnh) fst snd == x.
Proof. exact mammography_bayes. Qed.
Print Assumptions C190_mammography.
(** ... and [bayesnet] approximates it. *)
Theorem C190_mammography_net :
  forall Or N ahead, (0 < N)%nat -> right_length Or -> reads Or N ahead ->
  forall prior lh lnh Y wire (q : bcall (state (G Or)) (bool * bool) Y) w f e,
  0 <= prior <= 1 -> 0 <= lh <= 1 -> 0 <= lnh <= 1 -> e == 4 / qnat N -> e < lh * prior + lnh * (1 - prior) ->
  q_fn _ _ _ q = Some f -> wonders _ _ _ q fst snd -> q_cores _ _ _ q = 1%nat -> q_dump _ _ _ q = None -> uncached _ _ _ q w ->
  each_once N 2 (map (coming Or ahead 2) (starts Or (mammography prior lh lnh) (q_n _ _ _ q) (b_st _ _ w))) ->
  exists x y, fst (bayesnet _ _ _ (fun _ => SpecProgram.run Or (mammography prior lh lnh)) wire q w) = Ok (OMean _ _ (PFlt (Fin x))) /\
    simple_bayes lh lnh prior = Ok y /\ Qabs (x - y) <= 2 * e / (lh * prior + lnh * (1 - prior) - e).
Proof. exact mammography_net. Qed.
Print Assumptions C190_mammography_net.
(** README.md:284-288: exactly 25/322, in double precision 0.07763975155279504. *)
Theorem C190_simple_bayes :
  (exists x, simple_bayes (8#10) (96#1000) (1#100) = Ok x /\ x == 25 # 322 /\
     chance_given (mammography (1#100) (8#10) (96#1000)) fst snd == 25 # 322) /\
  (exists q, fl_simple_bayes (rnd (8#10)) (rnd (96#1000)) (rnd (1#100)) = Ok q /\ q == rnd (7763975155279504 # 100000000000000000)).
Proof. exact (conj mammography_readme double_readme). Qed.
Print Assumptions C190_simple_bayes.
(** The alarm net: 0.18347047 where README.md:386-392 says about 0.19, and 0.28417... where
    README.md:394-401 says about 0.27.  The program makes five choices with ten results. *)
Theorem C190_alarm_net :
  fits alarm_net 5 10 /\
  chance_given alarm_net (fun d => mary d && john d) earthquake == 18347047 # 100000000 /\
  chance_given alarm_net burglary (fun d => mary d && john d) == 592242590 # 2084100239.
Proof. exact (conj alarm_net_fits alarm_net_values). Qed.
Print Assumptions C190_alarm_net.
(** Monty Hall, README.md:408-450: switching wins two times out of three. *)
Theorem C190_monty_hall :
  fits monty_hall 4 10 /\
  chance_given monty_hall fst snd == 2#3 /\ chance_given monty_hall fst (fun a => negb (snd a)) == 1#3.
Proof. exact (conj monty_fits monty_values). Qed.
Print Assumptions C190_monty_hall.
(** Coin and dice, README.md:458-476: "the correct answer of 0.12292". *)
Theorem C190_bags :
  fits bags 3 26 /\ chance bags (fun z => (z =? 6)%Z) == 59#480 /\ np_round (59#480) 5 == 12292#100000.
Proof. exact (conj bags_fits bags_values). Qed.
Print Assumptions C190_bags.
(** Kelly betting, README.md:490-499. *)
Theorem C190_kelly :
  forall power error, exists r, kelly power (70#100) (65#100) 0 1000 NoDate 0 error = Ok r /\
  k_kelly r == 143#1000 /\ k_target r == 14286#100 /\ k_expected_roi r == 77#1000.
Proof. exact kelly_readme. Qed.
Print Assumptions C190_kelly.

(** With N = 800 the README's mammography numbers are within reach of the second theorem. *)
Example C190_sat :
  simple_bayes (8#10) (96#1000) (1#100) <> Err ZeroDivisionError /\ fits (mammography (1#100) (8#10) (96#1000)) 2 4 /\
  4 / qnat 800 < (8#10) * (1#100) + (96#1000) * (1 - (1#100)) /\
  (exists x, simple_bayes (8#10) (96#1000) (1#100) = Ok x /\ np_round x 4 == 776#10000).
Proof.
  split; [discriminate|]. split; [apply mammography_fits; lra|]. split; [vm_compute; reflexivity|]. eexists. split; [reflexivity|]. vm_compute. reflexivity.
Qed.
