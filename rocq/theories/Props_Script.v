(** C195: user programs that sample expressions have their exact probabilities. *)
From Coq Require Import Qabs Qminmax Lia Lqa.
From Verif Require Import Base M_Weights M_Values M_Sampler M_Ops M_SampleApi M_Bayesnet SpecSampler SpecWeights SpecOps SpecBayes SpecConversation SpecShare P_Program P_Program2 P_Large P_Script Props_Program Props_Large Props_Indep.
From Verif Require Import SpecProgram SpecLarge SpecIndep SpecColumns SpecScript.
Open Scope Q_scope.

(** Running a script that samples expressions is running a program of single choices: the same
    value, the same error, the same generator afterwards. *)
Theorem C195_run :
  forall Or N ahead, (0 < N)%nat -> right_length Or -> reads Or N ahead ->
  forall A (p : script A) L c, script_fits p L c -> forall s, run_script Or p s = SpecProgram.run Or (choices p) s.
Proof. exact @script_run. Qed.
Print Assumptions C195_run.

(** So the share of runs with a property is its exact probability, *)
Theorem C195_share :
  forall Or N ahead, (0 < N)%nat -> right_length Or -> reads Or N ahead ->
  forall A (p : script A) L c P ss, script_fits p L c -> each_once N L (map (coming Or ahead L) ss) ->
  Qabs (qnat (count (fun s => match fst (run_script Or p s) with Ok a => P a | Err _ => false end) ss) / qnat (N ^ L) - chance (choices p) P) <= qnat c / qnat N.
Proof. exact @script_share. Qed.
Print Assumptions C195_share.
(** [bayesnet] over a script answers with the conditional probability, *)
Theorem C195_bayesnet :
  forall Or N ahead, (0 < N)%nat -> right_length Or -> reads Or N ahead ->
  forall A Y (p : script A) L c find given wire (q : bcall (state (G Or)) A Y) w f,
  script_fits p L c -> q_fn _ _ _ q = Some f -> wonders _ A Y q find given -> q_cores _ _ _ q = 1%nat -> q_dump _ _ _ q = None ->
  uncached _ A Y q w -> each_once N L (map (coming Or ahead L) (starts Or (choices p) (q_n _ _ _ q) (b_st _ _ w))) ->
  qnat c / qnat N < chance (choices p) given ->
  exists x, fst (bayesnet _ A Y (fun _ => run_script Or p) wire q w) = Ok (OMean A Y (PFlt (Fin x))) /\
    Qabs (x - chance (choices p) (fun a => given a && find a) / chance (choices p) given) <= 2 * (qnat c / qnat N) / (chance (choices p) given - qnat c / qnat N).
Proof. exact @script_bayesnet. Qed.
Print Assumptions C195_bayesnet.
(** and with [n] samples its answer is rarely far from it. *)
Theorem C195_answers :
  forall Or N ahead, (0 < N)%nat -> right_length Or -> reads Or N ahead ->
  forall A Y (p : script A) L c n find given wire (q : bcall (state (G Or)) A Y) w k, script_fits p L c ->
  q_fn _ _ _ q = Some k -> wonders _ _ _ q find given -> q_cores _ _ _ q = 1%nat -> q_dump _ _ _ q = None ->
  (forall s, uncached _ _ _ q (w s)) -> (forall s, b_st _ _ (w s) = s) -> q_n _ _ _ q = n -> (1 <= n)%nat ->
  forall e ss, 0 < e -> e < chance (choices p) given -> each_once N (n * L) (map (coming Or ahead (n * L)) ss) ->
  qnat (count (answer_off (fun _ => run_script Or p) wire q w (2 * e / (chance (choices p) given - e))
                 (chance (choices p) (fun a => given a && find a) / chance (choices p) given)) ss) / qnat (N ^ (n * L)) <=
    1 / (2 * qnat n * (e * e)) + 2 * qnat (n * c) / qnat N.
Proof. exact @script_answers. Qed.
Print Assumptions C195_answers.

(** A die with four sides decides how likely an event is; given the event, was it a 4?
    The exact answer is 2/5, and [bayesnet] finds it. *)
Definition die_then_event : script (Q * bool) :=
  Sample die4 (fun x => Ask (CEvent (Qmin 1 (Qmax 0 (x / 4)))) (fun v => Done (x, match v with PBool b => b | _ => false end))).
Definition was_four (a : Q * bool) : bool := Qeq_bool (fst a) 4.
Definition four_if_event : bcall (state (G pair_oracle)) (Q * bool) unit :=
  mkBC _ _ _ (Some 0%nat) 400 (Some (fun e => Ok (PBool (was_four e)))) (Some (fun e => Ok (snd e))) None false (Some false) false false false
    None None true 1 (fun _ => mkState (0%nat : G pair_oracle) (fun _ _ => None)) [].
Definition four_world : bworld (state (G pair_oracle)) (Q * bool) :=
  mkB _ _ (mkState (0%nat : G pair_oracle) (fun _ _ => None)) (fun _ => None) (fun _ => None) (fun _ => None).
Example C195_sat :
  script_fits die_then_event 2 6 /\ wonders _ _ _ four_if_event was_four snd /\ uncached _ _ _ four_if_event four_world /\
  each_once 20 2 (map (coming pair_oracle pair_ahead 2) (starts pair_oracle (choices die_then_event) 400 (b_st _ _ four_world))) /\
  qnat 6 / qnat 20 < chance (choices die_then_event) snd /\ chance (choices die_then_event) snd == 5#8 /\
  (exists x, fst (bayesnet _ _ unit (fun _ => run_script pair_oracle die_then_event) (fun e => Ok e) four_if_event four_world) =
     Ok (OMean _ _ (PFlt (Fin x))) /\ x == 2#5).
Proof.
  split.
  { split; [pose proof C192_sat as (S & _); apply S|]. exists 1%nat, 2%nat. split; [reflexivity|]. split; [reflexivity|]. intros x.
    split; [|exists 0%nat, 0%nat; repeat split]. cbn [proper]. split; [apply Q.min_glb; [lra|apply Q.le_max_l]|apply Q.le_min_l]. }
  split; [left; repeat split|]. split; [split; [reflexivity|]; right; left; reflexivity|].
  split.
  { assert (E : map (coming pair_oracle pair_ahead 2) (starts pair_oracle (choices die_then_event) 400 (b_st _ _ four_world)) = seqs 20 2) by (vm_compute; reflexivity).
    rewrite E. split; [apply seqs_nodup|]. intros l. apply seqs_in. }
  split; [vm_compute; reflexivity|]. split; [vm_compute; reflexivity|]. eexists. split; [vm_compute; reflexivity|]. vm_compute. reflexivity.
Qed.
