(** A user's program for two events, and what all of its draws give. *)
From Coq Require Import Permutation.
From Verif Require Import Base M_Values M_Sampler M_Ops M_Bayesnet SpecShare SpecBayes.
Open Scope Q_scope.

(** [h = event(prior); e = event(lh if h else lnh)], the events returned together. *)
Definition hypothesis_then_evidence (Or : oracle) (lh lnh prior : Q) : M (state (G Or)) (bool * bool) :=
  let! h := event_occurs Or (OLit (PFlt (Fin prior))) in
  let! e := event_occurs Or (OLit (PFlt (Fin (if h then lh else lnh)))) in
  ret (h, e).

(** [us] are the next uniform draws of the generator, one after the other. *)
Inductive uniform_draws (Or : oracle) : state (G Or) -> list Q -> state (G Or) -> Prop :=
| no_draw s : uniform_draws Or s [] s
| next_draw s u s1 us s2 : rngf Or (RUniform 0 1) 1 s = (Ok [u], s1) -> uniform_draws Or s1 us s2 -> uniform_draws Or s (u :: us) s2.
(** Two draws per call, every pair of the [N] equally likely draws once, in any order. *)
Definition every_pair (N : nat) (us : list Q) : Prop :=
  exists ks, Permutation ks (list_prod (seq 0 N) (seq 0 N)) /\
             us = flat_map (fun p => [grid N (fst p); grid N (snd p)]) ks.
(** How many of the [N] draws make [event(p)] happen. *)
Definition happens (N : nat) (p : Q) (c : nat) : Prop := counted (fun k => (k < N)%nat /\ grid N k < p) c.
Definition multiple (N : nat) (p : Q) : Prop := exists a, (a <= N)%nat /\ p == qnat a / qnat N.
