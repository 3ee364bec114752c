(** C191: with many samples, answers that are far off are rare. *)
From Coq Require Import Qabs Lia Lqa.
From Verif Require Import Base M_Weights M_Values M_Sampler M_Ops M_SampleApi M_Bayesnet SpecSampler SpecWeights SpecBayes SpecConversation SpecShare P_Program P_Program2 P_Large Props_Program.
From Verif Require Import SpecProgram SpecLarge.
Open Scope Q_scope.

(** The mean of [n] independent runs whose numbers lie between [lo] and [hi] is further than
    [e] from the expected value with probability at most [(hi - lo)^2 / (4 n e^2)]. *)
Theorem C191_chebyshev :
  forall A (p : prog A) f lo hi L c n e, fits p L c -> returns p (fun a => lo <= f a <= hi) -> (1 <= n)%nat -> 0 < e ->
  chance (repeated n p) (fun l => far e (total (map f l) / qnat n) (expect p f)) <= (hi - lo) * (hi - lo) / (4 * qnat n * (e * e)).
Proof. exact @chebyshev. Qed.
Print Assumptions C191_chebyshev.

(** The same for [n] runs in a row on a generator, counted over all sequences of draws. *)
Theorem C191_runs :
  forall Or N ahead, (0 < N)%nat -> right_length Or -> reads Or N ahead ->
  forall A (p : prog A) f lo hi L c n e ss, fits p L c -> returns p (fun a => lo <= f a <= hi) -> (1 <= n)%nat -> 0 < e ->
  each_once N (n * L) (map (coming Or ahead (n * L)) ss) ->
  qnat (count (fun s => far e (mean_of_runs Or p f n s) (expect p f)) ss) / qnat (N ^ (n * L)) <=
    (hi - lo) * (hi - lo) / (4 * qnat n * (e * e)) + qnat (n * c) / qnat N.
Proof. exact @share_far. Qed.
Print Assumptions C191_runs.

(** A model function sampled [n] times gives [n] numbers whose mean is rarely far off. *)
Theorem C191_model_function :
  forall Or N ahead, (0 < N)%nat -> right_length Or -> reads Or N ahead ->
  forall (p : prog Q) lo hi L c n e ss, fits p L c -> returns p (fun x => lo <= x <= hi) -> (1 <= n)%nat -> 0 < e ->
  each_once N (n * L) (map (coming Or ahead (n * L)) ss) ->
  qnat (count (sample_off Or (OCall (model_of Or p)) n e (expect p (fun x => x))) ss) / qnat (N ^ (n * L)) <=
    (hi - lo) * (hi - lo) / (4 * qnat n * (e * e)) + qnat (n * c) / qnat N.
Proof. exact @model_off. Qed.
Print Assumptions C191_model_function.

(** [bayesnet] with [n] samples, asked for the probability of [find]. *)
Theorem C191_bayesnet :
  forall Or N ahead, (0 < N)%nat -> right_length Or -> reads Or N ahead ->
  forall A Y (p : prog A) L c n find given wire (q : bcall (state (G Or)) A Y) w k, fits p L c ->
  q_fn _ _ _ q = Some k -> wonders _ _ _ q find given -> q_cores _ _ _ q = 1%nat -> q_dump _ _ _ q = None ->
  (forall s, uncached _ _ _ q (w s)) -> (forall s, b_st _ _ (w s) = s) -> q_n _ _ _ q = n -> (1 <= n)%nat ->
  forall e ss, 0 < e -> given = anything A -> each_once N (n * L) (map (coming Or ahead (n * L)) ss) ->
  qnat (count (answer_off (fun _ => SpecProgram.run Or p) wire q w e (chance p find)) ss) / qnat (N ^ (n * L)) <=
    1 / (4 * qnat n * (e * e)) + qnat (n * c) / qnat N.
Proof. exact @share_off_plain. Qed.
Print Assumptions C191_bayesnet.

(** And asked for the probability of [find] given [given]. *)
Theorem C191_conditional :
  forall Or N ahead, (0 < N)%nat -> right_length Or -> reads Or N ahead ->
  forall A Y (p : prog A) L c n find given wire (q : bcall (state (G Or)) A Y) w k, fits p L c ->
  q_fn _ _ _ q = Some k -> wonders _ _ _ q find given -> q_cores _ _ _ q = 1%nat -> q_dump _ _ _ q = None ->
  (forall s, uncached _ _ _ q (w s)) -> (forall s, b_st _ _ (w s) = s) -> q_n _ _ _ q = n -> (1 <= n)%nat ->
  forall e ss, 0 < e -> e < chance p given -> each_once N (n * L) (map (coming Or ahead (n * L)) ss) ->
  qnat (count (answer_off (fun _ => SpecProgram.run Or p) wire q w (2 * e / (chance p given - e))
                 (chance p (fun a => given a && find a) / chance p given)) ss) / qnat (N ^ (n * L)) <=
    1 / (2 * qnat n * (e * e)) + 2 * qnat (n * c) / qnat N.
Proof. exact @share_off. Qed.
Print Assumptions C191_conditional.

(** An event of probability 3/10, two samples: the answer is off by more than 1/2 for 36 of
    the 400 pairs of draws. *)
Definition three_in_ten : prog bool := Choose (CEvent (3#10)) (fun v => Return (match v with PBool b => b | _ => false end)).
Definition how_often : bcall (state (G pair_oracle)) bool unit :=
  mkBC _ _ _ (Some 0%nat) 2 (Some (fun e => Ok (PBool e))) None None false (Some false) false false false
    None None true 1 (fun _ => mkState (0%nat : G pair_oracle) (fun _ _ => None)) [].
Definition pair_state (i : nat) : state (G pair_oracle) := mkState ((2 * i)%nat : G pair_oracle) (fun _ _ => None).
Definition world_in (s : state (G pair_oracle)) : bworld (state (G pair_oracle)) bool :=
  mkB _ _ s (fun _ => None) (fun _ => None) (fun _ => None).
Example C191_sat :
  fits three_in_ten 1 2 /\ wonders _ _ _ how_often (fun b => b) (anything bool) /\ (forall s, uncached _ _ _ how_often (world_in s)) /\
  each_once 20 2 (map (coming pair_oracle pair_ahead 2) (map pair_state (seq 0 400))) /\ chance three_in_ten (fun b => b) == 3#10 /\
  1 / (4 * qnat 2 * ((1#2) * (1#2))) + qnat (2 * 2) / qnat 20 == 7#10 /\
  count (answer_off (fun _ => SpecProgram.run pair_oracle three_in_ten) (fun e => Ok e) how_often world_in (1#2) (3#10)) (map pair_state (seq 0 400)) = 36%nat.
Proof.
  split; [split; [cbn; lra|]; exists 0%nat, 0%nat; repeat split|]. split; [right; repeat split|].
  split; [intros s; split; [reflexivity|]; right; left; reflexivity|].
  split.
  { assert (E : map (coming pair_oracle pair_ahead 2) (map pair_state (seq 0 400)) = seqs 20 2) by (vm_compute; reflexivity).
    rewrite E. split; [apply seqs_nodup|]. intros l. apply seqs_in. }
  split; [vm_compute; reflexivity|]. split; [vm_compute; reflexivity|]. vm_compute. reflexivity.
Qed.
Definition three_in_ten_paid : prog Q := Choose (CEvent (3#10)) (fun v => Return (match v with PBool true => 5 | _ => 1 end)).
Example C191_model_sat :
  returns three_in_ten_paid (fun x => 1 <= x <= 5) /\ expect three_in_ten_paid (fun x => x) == 22#10 /\
  count (sample_off pair_oracle (OCall (model_of pair_oracle three_in_ten_paid)) 2 2 (22#10)) (map pair_state (seq 0 400)) = 36%nat.
Proof.
  split.
  { cbn [returns three_in_ten_paid]. intros w v _. split; destruct v as [| |[|]| |]; vm_compute; discriminate. }
  split; vm_compute; reflexivity.
Qed.
