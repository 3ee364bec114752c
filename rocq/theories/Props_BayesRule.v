(** Rejection sampling and Bayes' rule (C154). *)
From Coq Require Import Permutation.
From Verif Require Import Base M_Values M_Sampler M_Ops M_Bayesnet SpecSampler SpecShare SpecBayes SpecBayesRule P_BayesRule.
Open Scope Q_scope.

(* ---------------------------------------------------------------- C154 *)
(** [bayesnet] asked for the hypothesis given the evidence, with one call of the event
    function for every pair of [N] equally likely draws, answers what [simple_bayes]
    computes. *)
Theorem C154_rejection_is_bayes_rule :
  forall (Or : oracle) Y wire f (call : bcall (state (G Or)) (bool * bool) Y) w us s' N lh lnh prior,
  (0 < N)%nat -> multiple N lh -> multiple N lnh -> multiple N prior ->
  q_fn _ _ _ call = Some f -> asks _ _ _ call fst snd -> q_cores _ _ _ call = 1%nat -> q_dump _ _ _ call = None ->
  uncached _ _ _ call w -> q_n _ _ _ call = (N * N)%nat ->
  uniform_draws Or (b_st _ _ w) us s' -> every_pair N us ->
  let r := bayesnet _ _ Y (fun _ => hypothesis_then_evidence Or lh lnh prior) wire call w in
  match simple_bayes lh lnh prior with
  | Ok q => exists q', fst r = Ok (OMean _ _ (PFlt (Fin q'))) /\ q' == q
  | Err _ => fst r = Err (ValueError "insufficient samples for condition")
  end.
Proof. exact rule_exact. Qed.
Print Assumptions C154_rejection_is_bayes_rule.

(** For other probabilities: Bayes' rule for the shares of draws that make the events
    happen, which exceed the probabilities by less than 1/N (C25_share_of_draws). *)
Theorem C154_any_probabilities :
  forall N lh lnh prior a b c, (0 < N)%nat -> happens N prior a -> happens N lh b -> happens N lnh c ->
  forall (Or : oracle) Y wire f (call : bcall (state (G Or)) (bool * bool) Y) w us s',
  q_fn _ _ _ call = Some f -> asks _ _ _ call fst snd -> q_cores _ _ _ call = 1%nat -> q_dump _ _ _ call = None ->
  uncached _ _ _ call w -> q_n _ _ _ call = (N * N)%nat ->
  uniform_draws Or (b_st _ _ w) us s' -> every_pair N us ->
  let r := bayesnet _ _ Y (fun _ => hypothesis_then_evidence Or lh lnh prior) wire call w in
  b_st _ _ (snd r) = s' /\
  match simple_bayes (qnat b / qnat N) (qnat c / qnat N) (qnat a / qnat N) with
  | Ok q => exists q', fst r = Ok (OMean _ _ (PFlt (Fin q'))) /\ q' == q
  | Err _ => fst r = Err (ValueError "insufficient samples for condition")
  end.
Proof. exact rule_over_all_draws. Qed.
Print Assumptions C154_any_probabilities.

(** A generator that runs through all pairs for N = 2. *)
Definition script : oracle := {|
  G := list Q;
  drawf := fun r n g => match g with u :: g' => (Ok [u], g') | [] => (Err IndexError, []) end;
  drawi := fun r n g => (Err IndexError, g);
  ppf := fun q => q; sqrt_ := fun q => q; exp_ := fun q => q; log_ := fun q => q; pow_ := fun x _ => x;
  fmt := fun _ => ""%string; induce := fun _ cols => Ok cols; die_fuel := 0 |}.
Definition all_pairs : list Q := flat_map (fun p => [grid 2 (fst p); grid 2 (snd p)]) (list_prod (seq 0 2) (seq 0 2)).
Definition question : bcall (state (G script)) (bool * bool) unit :=
  mkBC _ _ _ (Some 0%nat) 4 (Some (fun e => Ok (PBool (fst e)))) (Some (fun e => Ok (snd e))) None false (Some false) false false false
    None None true 1 (fun _ => mkState [] (fun _ _ => None)) [].
Definition fresh : bworld (state (G script)) (bool * bool) :=
  mkB _ _ (mkState all_pairs (fun _ _ => None)) (fun _ => None) (fun _ => None) (fun _ => None).
Example C154_sat :
  multiple 2 (1 # 2) /\ multiple 2 1 /\ happens 2 (1 # 2) 1 /\ asks _ _ _ question fst snd /\ uncached _ _ _ question fresh /\
  (exists s', uniform_draws script (b_st _ _ fresh) all_pairs s') /\ every_pair 2 all_pairs /\
  (exists q, fst (bayesnet _ _ unit (fun _ => hypothesis_then_evidence script (1 # 2) 1 (1 # 2)) (fun e => Ok e) question fresh) =
     Ok (OMean _ _ (PFlt (Fin q))) /\ q == 1 # 3).
Proof.
  split; [exists 1%nat; split; [lia|reflexivity]|]. split; [exists 2%nat; split; [lia|reflexivity]|].
  split; [apply multiple_happens; [lia|lia|reflexivity]|]. split; [repeat split|]. split; [split; [reflexivity|]; right; left; reflexivity|].
  split; [eexists; repeat (econstructor; [reflexivity|]); constructor|].
  split; [exists (list_prod (seq 0 2) (seq 0 2)); split; [apply Permutation_refl|reflexivity]|].
  eexists. split; [vm_compute; reflexivity|reflexivity].
Qed.
