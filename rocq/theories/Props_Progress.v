(** C146: progress bars. *)
From Coq Require Import Lia Arith.
From Verif Require Import Base M_Weights M_Pick M_Values M_Sampler M_Progress P_Progress.
Open Scope nat_scope.

(** On one core every bar a call shows ends exactly full. *)
Theorem C146_single_core :
  (forall (Gt : Type) n cores (o : obj Gt) total ticks, cores <= 1 -> call_shows n cores o (total, ticks) -> ticks = total) /\
  (forall n total ticks, In (total, ticks) (net_bars n 1) -> ticks = total).
Proof.
  split.
  - intros Gt n cores o total ticks C H. exact (call_single n cores o (total, ticks) C H).
  - intros n total ticks H. exact (net_single n (total, ticks) H).
Qed.
Print Assumptions C146_single_core.

(** On several cores no bar stops short of its total or goes beyond it by more than
    (cores - 1)^2, and all are exact when the cores share the work evenly. *)
Theorem C146_several_cores_partial :
  (forall (Gt : Type) n cores (o : obj Gt) total ticks, call_shows n cores o (total, ticks) ->
     total <= ticks <= total + (cores - 1) * (cores - 1) /\ (Nat.divide cores n -> ticks = total)) /\
  (forall n cores total ticks, 1 <= cores -> In (total, ticks) (net_bars n cores) ->
     total <= ticks <= total + (cores - 1) * (cores - 1) /\ (Nat.divide cores n -> ticks = total)).
Proof.
  split.
  - intros Gt n cores o total ticks H. replace (cores - 1) with (pred cores) by lia.
    exact (call_bar n cores o (total, ticks) H).
  - intros n cores total ticks C H. replace (cores - 1) with (pred cores) by lia.
    exact (net_multi n cores (total, ticks) C H).
Qed.
Print Assumptions C146_several_cores_partial.

(** They are not exact otherwise: the bar of the samples of a mixture or function, and
    the bar of the events, counts the larger share of the calling process for every
    core. *)
Theorem C146_several_cores_refuted :
  forall (Gt : Type) n cores, 2 <= cores -> ~ Nat.divide cores n ->
  (exists ticks, n < ticks /\ In (n, ticks) (net_bars n cores)) /\
  (forall (a b : obj Gt) ws lc rc, exists ticks, n < ticks /\
     call_shows n cores (ODist (DMixture ws [a; b] lc rc)) (n, ticks)).
Proof.
  intros Gt n cores C D.
  assert (X : n < own_part n cores * cores).
  { pose proof (ticks_over n cores ltac:(lia)). pose proof (ticks_exact n cores C) as T.
    destruct (Nat.eq_dec (own_part n cores * cores) n) as [E|]; [elim D; now apply T|lia]. }
  split.
  - exists (own_part n cores * cores). split; auto. unfold net_bars.
    destruct (Nat.eqb_spec cores 1); [lia|]. now left.
  - intros a b ws lc rc. exists (own_part n cores * cores). split; auto. apply bar_own; [lia|].
    pose proof (bar_mixture (own_part n cores) n cores ws [a; b] lc rc ltac:(simpl; lia)) as B.
    unfold bar_total in B. destruct (Nat.eqb_spec cores 1); [lia|exact B].
Qed.
Print Assumptions C146_several_cores_refuted.

Example C146_sat :
  ~ Nat.divide 3 10 /\ net_bars 10 3 = [(10, 12); (3, 3)] /\ net_bars 12 3 = [(12, 12); (3, 3)] /\
  call_shows 200 1 (ODist (DMixture [1#2; 1#2]%Q [OLit (PInt 1); OLit (PInt 2)] None None : dist unit)) (2, 2) /\
  call_shows 200 1 (ODist (DMixture [1#2; 1#2]%Q [OLit (PInt 1); OLit (PInt 2)] None None : dist unit)) (200, 200).
Proof.
  split; [|split; [reflexivity|split; [reflexivity|split]]].
  - intros [q H]. lia.
  - apply bar_single; [lia|]. apply bar_presample; simpl; lia.
  - apply bar_single; [lia|]. apply (bar_mixture 200 1 1). simpl; lia.
Qed.
