(** Scripts that sample expressions (C195). *)
From Coq Require Import Qabs ZArith Lia Lqa.
From Verif Require Import Base M_Weights M_Values M_Sampler M_Ops SpecWeights SpecSampler SpecOps SpecShare SpecRising P_Program P_Program2 P_Large P_Indep.
From Verif Require Import M_SampleApi M_Bayesnet SpecBayes SpecConversation SpecProgram SpecLarge SpecIndep SpecColumns SpecScript.
Open Scope Q_scope.

Lemma choices_fit {A} (p : script A) : forall L c, script_fits p L c -> fits (choices p) L c.
Proof.
  induction p as [a|ch next IH|e next IH]; intros L c F; cbn [choices script_fits] in *; [exact I| |].
  - destruct F as (P & L' & c' & -> & -> & F). split; [exact P|]. exists L', c'. split; [reflexivity|]. split; [reflexivity|]. intros w v _. apply IH, F.
  - destruct F as (S & L' & c' & -> & -> & F). apply fits_after; [|now apply fits_prog]. intros x. apply IH, F.
Qed.
Section Same.
  Variables (S E Y : Type) (b1 b2 : nat -> S -> res E * S) (wire : E -> res E).
  Hypothesis Same : forall f s, b1 f s = b2 f s.
  Lemma gen_same f k : forall s, gen S E b1 f k s = gen S E b2 f k s.
  Proof. induction k as [|k IH]; intros s; cbn [gen]; [reflexivity|]. rewrite Same. destruct (b2 f s) as [[x|e] s1]; [|reflexivity]. now rewrite IH. Qed.
  Lemma bayesnet_same (q : bcall S E Y) w : q_cores _ _ _ q = 1%nat -> bayesnet S E Y b1 wire q w = bayesnet S E Y b2 wire q w.
  Proof.
    intros C. unfold bayesnet, events_of, generate. rewrite C. cbn [Nat.eqb]. destruct (b_source S E Y q w) as [[[es m]|]|]; try reflexivity.
    destruct (q_fn S E Y q); [|reflexivity]. now rewrite gen_same.
  Qed.
End Same.
Section Runs.
  Variables (Or : oracle) (N : nat) (ahead : G Or -> nat -> nat).
  Hypotheses (HN : (0 < N)%nat) (RL : right_length Or) (R : reads Or N ahead).
  Lemma plain_number v x : plain v x -> is_number v = true /\ value v == x.
  Proof. destruct v as [z|[q| | |]| | |]; cbn; intros H; try contradiction; auto. Qed.
  Lemma script_run {A} (p : script A) : forall L c, script_fits p L c -> forall s, run_script Or p s = run Or (choices p) s.
  Proof.
    induction p as [a|ch next IH|e next IH]; intros L c F s; cbn [run_script choices script_fits run] in *; [reflexivity| |].
    - destruct F as (P & L' & c' & _ & _ & F). unfold bindS. destruct (make Or ch s) as [[v|] s1]; [|reflexivity]. eapply IH, F.
    - destruct F as (S & L' & c' & _ & _ & F). destruct (expr_run Or N ahead HN RL R e S s) as (v & x & s1 & A1 & A2 & P).
      rewrite (run_after Or), A2. unfold sample_once, bindS. rewrite A1. destruct (plain_number v x P) as [-> V]. cbn [ret].
      rewrite (Qred_complete _ _ V). eapply IH, F.
  Qed.
  Lemma script_bayesnet {A Y} (p : script A) L c find given wire (q : bcall (state (G Or)) A Y) w f :
    script_fits p L c -> q_fn _ _ _ q = Some f -> wonders _ A Y q find given -> q_cores _ _ _ q = 1%nat -> q_dump _ _ _ q = None ->
    uncached _ A Y q w -> each_once N L (map (coming Or ahead L) (starts Or (choices p) (q_n _ _ _ q) (b_st _ _ w))) ->
    qnat c / qnat N < chance (choices p) given ->
    exists x, fst (bayesnet _ A Y (fun _ => run_script Or p) wire q w) = Ok (OMean A Y (PFlt (Fin x))) /\
      Qabs (x - chance (choices p) (fun a => given a && find a) / chance (choices p) given) <= 2 * (qnat c / qnat N) / (chance (choices p) given - qnat c / qnat N).
  Proof.
    intros F Q1 Q2 Q3 Q4 U E G. rewrite (bayesnet_same _ A Y (fun _ => run_script Or p) (fun _ => run Or (choices p)) wire (fun _ s => script_run p L c F s) q w Q3).
    eapply (answer_close Or N ahead HN RL R); eauto. now apply choices_fit.
  Qed.
  Lemma script_answers {A Y} (p : script A) L c n find given wire (q : bcall (state (G Or)) A Y) w k : script_fits p L c ->
    q_fn _ _ _ q = Some k -> wonders _ _ _ q find given -> q_cores _ _ _ q = 1%nat -> q_dump _ _ _ q = None ->
    (forall s, uncached _ _ _ q (w s)) -> (forall s, b_st _ _ (w s) = s) -> q_n _ _ _ q = n -> (1 <= n)%nat ->
    forall e ss, 0 < e -> e < chance (choices p) given -> each_once N (n * L) (map (coming Or ahead (n * L)) ss) ->
    qnat (count (answer_off (fun _ => run_script Or p) wire q w (2 * e / (chance (choices p) given - e))
                   (chance (choices p) (fun a => given a && find a) / chance (choices p) given)) ss) / qnat (N ^ (n * L)) <=
      1 / (2 * qnat n * (e * e)) + 2 * qnat (n * c) / qnat N.
  Proof.
    intros F Q1 Q2 Q3 Q4 U W Qn Hn e ss He G E.
    rewrite (count_same2 _ (answer_off (fun _ => run Or (choices p)) wire q w (2 * e / (chance (choices p) given - e)) (chance (choices p) (fun a => given a && find a) / chance (choices p) given))).
    - eapply (share_off Or N ahead HN RL R); eauto. now apply choices_fit.
    - intros s. unfold answer_off. now rewrite (bayesnet_same _ A Y (fun _ => run_script Or p) (fun _ => run Or (choices p)) wire (fun _ s => script_run p L c F s) q (w s) Q3).
  Qed.
  Lemma script_share {A} (p : script A) L c P ss : script_fits p L c -> each_once N L (map (coming Or ahead L) ss) ->
    Qabs (qnat (count (fun s => match fst (run_script Or p s) with Ok a => P a | Err _ => false end) ss) / qnat (N ^ L) - chance (choices p) P) <= qnat c / qnat N.
  Proof.
    intros F E. rewrite (count_same2 _ (ends_in Or (choices p) P)); [apply (share_of_runs Or N ahead HN RL R (choices p) L c P ss (choices_fit p L c F) E)|].
    intros s. unfold ends_in. now rewrite (script_run p L c F s).
  Qed.
End Runs.
