(** C206: conditional answers far from the conditional probability are exponentially rare. *)
From Coq Require Import Qabs Lia Lqa.
From Verif Require Import Base M_Weights M_Values M_Sampler M_Ops M_SampleApi M_Bayesnet SpecSampler SpecWeights SpecOps SpecBayes SpecConversation SpecShare SpecReadme P_Program P_Readme P_Tilt P_Tilt2 Props_Program Props_Large.
From Verif Require Import SpecProgram SpecLarge SpecChernoff SpecTilt.
Open Scope Q_scope.

(** That in [n] independent runs the share of [find] among those with [given] is at least [x / y]
    has a probability of at most the [n]th power of the tilted sum, whatever [t >= 1]; *)
Theorem C206_above :
  forall A (p : prog A) find given L c, fits p L c -> forall x y t n, (x <= y)%nat -> 1 <= t ->
  chance (repeated n p) (at_least x y find given) <= npow (tilt p find given x y t) n.
Proof. exact above_tilt. Qed.
Print Assumptions C206_above.

(** that it is at most [x / y], the same with [t <= 1]. *)
Theorem C206_below :
  forall A (p : prog A) find given L c, fits p L c -> forall x y t n, (x <= y)%nat -> 0 < t <= 1 ->
  chance (repeated n p) (at_most x y find given) <= npow (tilt p find given x y t) n.
Proof. exact below_tilt. Qed.
Print Assumptions C206_below.

(** For every share above the conditional probability, and every share below it, the probability
    of reaching it (or of no run with [given]) falls at least geometrically with the number of runs. *)
Theorem C206_geometric :
  forall A (p : prog A) find given L c, fits p L c -> forall x y, (x <= y)%nat ->
  (chance p (both find given) * qnat y < chance p given * qnat x -> exists r, 0 <= r /\ r < 1 /\ forall n, chance (repeated n p) (at_least x y find given) <= npow r n) /\
  (chance p given * qnat x < chance p (both find given) * qnat y -> exists r, 0 <= r /\ r < 1 /\ forall n, chance (repeated n p) (at_most x y find given) <= npow r n).
Proof. exact tilt_geometric. Qed.
Print Assumptions C206_geometric.

(** The same for the conditional answers of [bayesnet] with [n] samples, counted over all
    sequences of draws. *)
Theorem C206_bayesnet :
  forall Or N ahead, (0 < N)%nat -> right_length Or -> reads Or N ahead ->
  forall A Y (p : prog A) L c n find given wire (q : bcall (state (G Or)) A Y) w k, fits p L c ->
  q_fn _ _ _ q = Some k -> wonders _ _ _ q find given -> q_cores _ _ _ q = 1%nat -> q_dump _ _ _ q = None ->
  (forall s, uncached _ _ _ q (w s)) -> (forall s, b_st _ _ (w s) = s) -> q_n _ _ _ q = n -> (1 <= n)%nat ->
  forall x y t ss, (x <= y)%nat -> (1 <= y)%nat -> each_once N (n * L) (map (coming Or ahead (n * L)) ss) ->
  (1 <= t -> qnat (count (answers_above (fun _ => SpecProgram.run Or p) wire q w (qnat x / qnat y)) ss) / qnat (N ^ (n * L)) <=
     npow (tilt p find given x y t) n + qnat (n * c) / qnat N) /\
  (0 < t <= 1 -> qnat (count (answers_below (fun _ => SpecProgram.run Or p) wire q w (qnat x / qnat y)) ss) / qnat (N ^ (n * L)) <=
     npow (tilt p find given x y t) n + qnat (n * c) / qnat N).
Proof. exact @tilt_net. Qed.
Print Assumptions C206_bayesnet.

(** The README's mammography net, with the conditional probability 25/322: in 4000 k runs the
    share is 1/10 or more, and 1/20 or less, with a probability of at most 1/2^k. *)
Theorem C206_mammography : forall k,
  chance (repeated (4000 * k) (mammography (1#100) (8#10) (96#1000))) (at_least 1 10 fst snd) <= npow (1#2) k /\
  chance (repeated (4000 * k) (mammography (1#100) (8#10) (96#1000))) (at_most 1 20 fst snd) <= npow (1#2) k.
Proof. exact mammography_rare. Qed.
Print Assumptions C206_mammography.

(** The README's mammography net, with the answer 25/322: that it is 1/10 or more has a
    probability of at most (3999/4000)^n. *)
Example C206_sat :
  fits (mammography (1#100) (8#10) (96#1000)) 2 4 /\
  chance (mammography (1#100) (8#10) (96#1000)) (both fst snd) * qnat 10 < chance (mammography (1#100) (8#10) (96#1000)) snd * qnat 1 /\
  tilt (mammography (1#100) (8#10) (96#1000)) fst snd 1 10 (103#100) <= 3999#4000 /\
  chance (mammography (1#100) (8#10) (96#1000)) snd * qnat 1 < chance (mammography (1#100) (8#10) (96#1000)) (both fst snd) * qnat 20 /\
  tilt (mammography (1#100) (8#10) (96#1000)) fst snd 1 20 (97#100) <= 3999#4000.
Proof. split; [apply mammography_fits; lra|]. repeat split; vm_compute; try discriminate; reflexivity. Qed.
(** One sample of a coin and an event: heads given the event is answered with at least 1/2 for 150
    of the 400 pairs of draws. *)
Definition once : bcall (state (G pair_oracle)) (bool * bool) unit :=
  mkBC _ _ _ (Some 0%nat) 1 (Some (fun e => Ok (PBool (fst e)))) (Some (fun e => Ok (snd e))) None false (Some false) false false false
    None None true 1 (fun _ => mkState (0%nat : G pair_oracle) (fun _ _ => None)) [].
Definition any_world (s : state (G pair_oracle)) : bworld (state (G pair_oracle)) (bool * bool) := mkB _ _ s (fun _ => None) (fun _ => None) (fun _ => None).
Example C206_bayesnet_sat :
  right_length pair_oracle /\ reads pair_oracle 20 pair_ahead /\ fits coin_then_event 2 4 /\ wonders _ _ _ once fst snd /\ (forall s, uncached _ _ _ once (any_world s)) /\
  each_once 20 2 (map (coming pair_oracle pair_ahead 2) (map pair_state (seq 0 400))) /\
  count (answers_above (fun _ => SpecProgram.run pair_oracle coin_then_event) (fun e => Ok e) once any_world (qnat 1 / qnat 2)) (map pair_state (seq 0 400)) = 150%nat.
Proof.
  destruct C189_sat as (A & B & C & _). destruct C191_sat as (_ & _ & _ & D & _). split; [exact A|]. split; [exact B|]. split; [exact C|].
  split; [left; repeat split|]. split; [intros s; split; [reflexivity|]; right; left; reflexivity|]. split; [exact D|]. vm_compute. reflexivity.
Qed.
