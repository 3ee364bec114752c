(** C184: Bayes' rule applied again and again in double precision. *)
From Verif Require Import Base M_Bayesnet M_Double M_DoubleProb SpecDouble SpecDoubleLearn P_DoubleLearn.
Open Scope Q_scope.

(** C184.  Nothing possible ever moves certainty ... *)
Theorem C184_certain_stays :
  forall l p, p == 1 -> Forall (fun e => is_double (fst e) /\ 0 < fst e) l -> exists q, learn fl_simple_bayes p l = Ok q /\ q == 1.
Proof. exact learn_one. Qed.
Print Assumptions C184_certain_stays.
(** ... or impossibility ... *)
Theorem C184_impossible_stays :
  forall l p, p == 0 -> Forall (fun e => is_double (snd e) /\ 0 < snd e) l -> exists q, learn fl_simple_bayes p l = Ok q /\ q == 0.
Proof. exact learn_zero. Qed.
Print Assumptions C184_impossible_stays.
(** ... and what is possible stays possible ... *)
Theorem C184_possible_stays_partial :
  forall l p, 0 < p -> p <= 1 -> Forall (fun e => 0 < fst e /\ 0 <= snd e) l -> exists q, learn fl_simple_bayes p l = Ok q /\ 0 < q <= 1.
Proof. exact learn_positive. Qed.
Print Assumptions C184_possible_stays_partial.
(** ... but what is uncertain may become certain, whence the order of evidence matters: two pieces
    of evidence that cancel exactly leave 1/2 in one order and 1 in the other. *)
Theorem C184_order_refuted :
  exists p e1 e2 q r x, is_double p /\ 0 < p /\ p < 1 /\
  Forall (fun e => is_double (fst e) /\ is_double (snd e) /\ 0 < fst e /\ 0 < snd e) [e1; e2] /\
  learn fl_simple_bayes p [e1; e2] = Ok q /\ q == 1 /\ learn fl_simple_bayes p [e2; e1] = Ok r /\ r == 1 # 2 /\
  learn simple_bayes p [e1; e2] = Ok x /\ x == 1 # 2.
Proof. exact order_of_evidence. Qed.
Print Assumptions C184_order_refuted.
Example C184_sat : learn fl_simple_bayes (1 # 2) [(3 # 4, 1 # 4); (1 # 4, 3 # 4)] = Ok (1 # 2) /\
  learn fl_simple_bayes 1 [(1 # 4, 3 # 4)] = Ok 1.
Proof. split; vm_compute; reflexivity. Qed.
