(** C201: shares far from the probability are exponentially rare. *)
From Coq Require Import Qabs Lia Lqa.
From Verif Require Import Base M_Weights M_Values M_Sampler M_Ops M_SampleApi M_Bayesnet SpecSampler SpecWeights SpecOps SpecBayes SpecConversation SpecShare P_Program P_Chernoff Props_Program Props_Large Props_Indep Props_PctNear.
From Verif Require Import SpecProgram SpecLarge SpecIndep SpecColumns SpecChernoff.
Open Scope Q_scope.

(** That at least [k] of [n] independent runs have a property of probability [p] has a probability
    of at most [(1 + p (t - 1))^n / t^k], whatever [t >= 1]; *)
Theorem C201_many :
  forall A (p : prog A) P L c, fits p L c -> forall t n k, 1 <= t -> chance (repeated n p) (many k P) <= npow (1 + chance p P * (t - 1)) n / npow t k.
Proof. exact chance_many. Qed.
Print Assumptions C201_many.

(** that at most [k] have it, the same with [t <= 1]. *)
Theorem C201_few :
  forall A (p : prog A) P L c, fits p L c -> forall t n k, 0 < t <= 1 -> chance (repeated n p) (few k P) <= npow (1 + chance p P * (t - 1)) n / npow t k.
Proof. exact chance_few. Qed.
Print Assumptions C201_few.

(** So for every share [u / v] above the probability, and every share below it, the
    probability of reaching it falls at least geometrically with the number of runs. *)
Theorem C201_geometric :
  forall A (p : prog A) P L c u v, fits p L c -> (1 <= v)%nat ->
  (chance p P * qnat v < qnat u -> exists r, 0 <= r /\ r < 1 /\ forall m, chance (repeated (v * m) p) (many (u * m) P) <= npow r m) /\
  (qnat u < chance p P * qnat v -> exists r, 0 <= r /\ r < 1 /\ forall m, chance (repeated (v * m) p) (few (u * m) P) <= npow r m).
Proof. exact geometric. Qed.
Print Assumptions C201_geometric.

(** The same for [n] samples of an expression, counted over all sequences of draws, *)
Theorem C201_samples :
  forall Or N ahead, (0 < N)%nat -> right_length Or -> reads_all Or N ahead ->
  forall e n k P t ss, sound e -> (1 <= n)%nat -> of_numbers P -> each_once N (n * work e) (map (coming Or ahead (n * work e)) ss) ->
  (1 <= t -> qnat (count (samples_in Or (obj_of e) n (many k P)) ss) / qnat (N ^ (n * work e)) <= npow (1 + chance (prog_of e) P * (t - 1)) n / npow t k + qnat (n * spread e) / qnat N) /\
  (0 < t <= 1 -> qnat (count (samples_in Or (obj_of e) n (few k P)) ss) / qnat (N ^ (n * work e)) <= npow (1 + chance (prog_of e) P * (t - 1)) n / npow t k + qnat (n * spread e) / qnat N).
Proof. exact @samples_bounds. Qed.
Print Assumptions C201_samples.

(** and for the answers of [bayesnet] with [n] samples. *)
Theorem C201_bayesnet :
  forall Or N ahead, (0 < N)%nat -> right_length Or -> reads Or N ahead ->
  forall A Y (p : prog A) L c n find given wire (q : bcall (state (G Or)) A Y) w k, fits p L c ->
  q_fn _ _ _ q = Some k -> wonders _ _ _ q find given -> q_cores _ _ _ q = 1%nat -> q_dump _ _ _ q = None ->
  (forall s, uncached _ _ _ q (w s)) -> (forall s, b_st _ _ (w s) = s) -> q_n _ _ _ q = n -> (1 <= n)%nat -> given = anything A ->
  forall j t ss, each_once N (n * L) (map (coming Or ahead (n * L)) ss) ->
  (1 <= t -> qnat (count (answers_above (fun _ => SpecProgram.run Or p) wire q w (qnat j / qnat n)) ss) / qnat (N ^ (n * L)) <=
     npow (1 + chance p find * (t - 1)) n / npow t j + qnat (n * c) / qnat N) /\
  (0 < t <= 1 -> qnat (count (answers_below (fun _ => SpecProgram.run Or p) wire q w (qnat j / qnat n)) ss) / qnat (N ^ (n * L)) <=
     npow (1 + chance p find * (t - 1)) n / npow t j + qnat (n * c) / qnat N).
Proof. exact @net_bounds. Qed.
Print Assumptions C201_bayesnet.

(** An event of probability 3/10, two samples: the answer 1 comes for 36 of the 400 pairs of draws;
    30 or more of 60 have a probability below 1/150. *)
Example C201_sat :
  fits three_in_ten 1 2 /\ wonders _ _ _ how_often (fun b => b) (anything bool) /\ (forall s, uncached _ _ _ how_often (world_in s)) /\
  each_once 20 2 (map (coming pair_oracle pair_ahead 2) (map pair_state (seq 0 400))) /\ chance three_in_ten (fun b => b) == 3#10 /\
  count (answers_above (fun _ => SpecProgram.run pair_oracle three_in_ten) (fun e => Ok e) how_often world_in (qnat 2 / qnat 2)) (map pair_state (seq 0 400)) = 36%nat /\
  npow (1 + (3#10) * (10 - 1)) 2 / npow 10 2 == 1369#10000 /\
  npow (1 + (3#10) * ((7#3) - 1)) 60 / npow (7#3) 30 < 1#150.
Proof.
  destruct C191_sat as (A & B & C & D & E & _). split; [exact A|]. split; [exact B|]. split; [exact C|]. split; [exact D|]. split; [exact E|].
  split; [vm_compute; reflexivity|]. split; vm_compute; reflexivity.
Qed.
(** Two throws of a die with four sides are both 4 for one of the 16 sequences. *)
Definition is_four (x : Q) : bool := Qeq_bool x 4.
Example C201_samples_sat :
  sound die4 /\ of_numbers is_four /\ chance (prog_of die4) is_four == 1#4 /\
  count (samples_in (tape_oracle 4) (obj_of die4) 2 (many 2 is_four)) (map (tape_state 4) (seqs 4 2)) = 1%nat /\
  count (samples_in (tape_oracle 4) (obj_of die4) 2 (few 0 is_four)) (map (tape_state 4) (seqs 4 2)) = 9%nat.
Proof.
  split. { split; [cbn; lia|]. split; [discriminate|]. intros w v I. vm_compute in I. repeat (destruct I as [I|I]; [inversion I; reflexivity|]). destruct I. }
  split. { intros x y E. unfold is_four. apply Bool.eq_true_iff_eq. rewrite !Qeq_bool_iff, E. reflexivity. }
  split; [vm_compute; reflexivity|]. split; vm_compute; reflexivity.
Qed.
