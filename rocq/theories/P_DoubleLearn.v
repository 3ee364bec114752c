From Coq Require Import Qabs Lqa Setoid Permutation.
From Verif Require Import Base M_Bayesnet M_Double M_DoubleProb SpecFloat SpecDouble SpecDoubleLearn P_Double P_DoubleProb P_DoubleMean.
Open Scope Q_scope.

Lemma dsub_rnd a b : dsub a b == rnd (a - b).
Proof. apply Qred_correct. Qed.
Lemma dmul_zero a b : a * b == 0 -> dmul a b == 0.
Proof. intros E. rewrite dmul_rnd, (rnd_compat _ 0); [reflexivity|auto]. Qed.
Lemma bayes_one lh lnh p : is_double lh -> 0 < lh -> p == 1 -> exists q, fl_simple_bayes lh lnh p = Ok q /\ q == 1.
Proof.
  intros D L P. unfold fl_simple_bayes; cbv zeta.
  assert (A : dmul lh p == lh) by (rewrite dmul_rnd, (rnd_compat _ lh) by (rewrite P; ring); apply rnd_exact; auto).
  assert (S : dsub 1 p == 0) by (rewrite dsub_rnd, (rnd_compat _ 0) by (rewrite P; ring); reflexivity).
  assert (Z : dmul lnh (dsub 1 p) == 0) by (apply dmul_zero; rewrite S; ring).
  assert (E : dadd (dmul lh p) (dmul lnh (dsub 1 p)) == lh).
  { rewrite dadd_rnd, (rnd_compat _ lh) by (rewrite A, Z; ring). apply rnd_exact; auto. }
  destruct (Qeq_bool _ 0) eqn:B.
  - apply Qeq_bool_iff in B. rewrite E in B. exfalso. apply (pos_neq lh); auto.
  - eexists. split; [reflexivity|]. etransitivity; [apply ddiv_rnd|]. transitivity (rnd 1); [|apply rnd_exact, one_double]. apply rnd_compat. rewrite E, A. field. apply pos_neq; auto.
Qed.
Lemma bayes_zero lh lnh p : is_double lnh -> 0 < lnh -> p == 0 -> exists q, fl_simple_bayes lh lnh p = Ok q /\ q == 0.
Proof.
  intros D L P. unfold fl_simple_bayes; cbv zeta.
  assert (A : dmul lh p == 0) by (apply dmul_zero; rewrite P; ring).
  assert (S : dsub 1 p == 1) by (rewrite dsub_rnd, (rnd_compat _ 1) by (rewrite P; ring); apply rnd_exact, one_double).
  assert (Z : dmul lnh (dsub 1 p) == lnh) by (rewrite dmul_rnd, (rnd_compat _ lnh) by (rewrite S; ring); apply rnd_exact; auto).
  assert (E : dadd (dmul lh p) (dmul lnh (dsub 1 p)) == lnh).
  { rewrite dadd_rnd, (rnd_compat _ lnh) by (rewrite A, Z; ring). apply rnd_exact; auto. }
  destruct (Qeq_bool _ 0) eqn:B.
  - apply Qeq_bool_iff in B. rewrite E in B. exfalso. apply (pos_neq lnh); auto.
  - eexists. split; [reflexivity|]. etransitivity; [apply ddiv_rnd|]. transitivity (rnd 0); [|reflexivity]. apply rnd_compat. rewrite E, A. unfold Qdiv. ring.
Qed.
Lemma learn_one l : forall p, p == 1 -> Forall (fun e => is_double (fst e) /\ 0 < fst e) l -> exists q, learn fl_simple_bayes p l = Ok q /\ q == 1.
Proof.
  induction l as [|[a b] l IH]; intros p P H; [exists p; auto|]. inversion H; subst. cbn [fst] in *. cbn [learn].
  destruct (bayes_one a b p) as (q & -> & E); try tauto. cbn [bind]. apply IH; auto.
Qed.
Lemma learn_zero l : forall p, p == 0 -> Forall (fun e => is_double (snd e) /\ 0 < snd e) l -> exists q, learn fl_simple_bayes p l = Ok q /\ q == 0.
Proof.
  induction l as [|[a b] l IH]; intros p P H; [exists p; auto|]. inversion H; subst. cbn [snd] in *. cbn [learn].
  destruct (bayes_zero a b p) as (q & -> & E); try tauto. cbn [bind]. apply IH; auto.
Qed.
Lemma learn_positive l : forall p, 0 < p -> p <= 1 -> Forall (fun e => 0 < fst e /\ 0 <= snd e) l ->
  exists q, learn fl_simple_bayes p l = Ok q /\ 0 < q <= 1.
Proof.
  induction l as [|[a b] l IH]; intros p P P1 H; [exists p; auto|]. inversion H; subst. cbn [fst snd] in *. cbn [learn].
  assert (N1 : 0 < dmul a p) by (rewrite dmul_rnd; apply rnd_pos_lt, Qmult_lt_0_compat; tauto).
  assert (N2 : 0 <= dmul b (dsub 1 p)).
  { rewrite dmul_rnd. apply rnd_sign. apply Qmult_le_0_compat; [tauto|]. rewrite dsub_rnd. apply rnd_sign. lra. }
  assert (N3 : 0 < dadd (dmul a p) (dmul b (dsub 1 p))) by (rewrite dadd_rnd; apply rnd_pos_lt; lra).
  destruct (fl_simple_bayes a b p) as [q|e] eqn:E.
  - cbn [bind]. assert (Q : 0 < q).
    { unfold fl_simple_bayes in E; cbv zeta in E. destruct (Qeq_bool _ 0); [discriminate|]. inversion E; subst. rewrite ddiv_rnd. apply rnd_pos_lt, div_pos; auto. }
    apply IH; auto. unfold fl_simple_bayes in E; cbv zeta in E. destruct (Qeq_bool _ 0); [discriminate|]. inversion E; subst. rewrite ddiv_rnd. apply rnd_le_1, div_le_1; auto.
    rewrite dadd_rnd. rewrite <- (rnd_exact (dmul a p)) at 1; [|apply dred_double]. apply rnd_mono. lra.
  - exfalso. unfold fl_simple_bayes in E; cbv zeta in E. destruct (Qeq_bool _ 0) eqn:B; [|discriminate]. apply Qeq_bool_iff in B. apply (pos_neq _ N3); auto.
Qed.
Lemma order_of_evidence : exists p e1 e2 q r x, is_double p /\ 0 < p /\ p < 1 /\
  Forall (fun e => is_double (fst e) /\ is_double (snd e) /\ 0 < fst e /\ 0 < snd e) [e1; e2] /\
  learn fl_simple_bayes p [e1; e2] = Ok q /\ q == 1 /\ learn fl_simple_bayes p [e2; e1] = Ok r /\ r == 1 # 2 /\
  learn simple_bayes p [e1; e2] = Ok x /\ x == 1 # 2.
Proof.
  assert (D : is_double (1 # 2 ^ 60)) by (exists 1%Z, (-60)%Z; split; [vm_compute; discriminate|vm_compute; reflexivity]).
  exists (1 # 2), (1, 1 # 2 ^ 60), (1 # 2 ^ 60, 1). do 3 eexists.
  split; [exists 1%Z, (-1)%Z; split; [vm_compute; discriminate|vm_compute; reflexivity]|].
  split; [vm_compute; reflexivity|]. split; [vm_compute; reflexivity|].
  split; [apply Forall_cons; [|apply Forall_cons; [|apply Forall_nil]]; cbn [fst snd]; (split; [first [exact D|exact one_double]|]; split; [first [exact D|exact one_double]|]; split; vm_compute; reflexivity)|].
  split; [vm_compute; reflexivity|]. split; [vm_compute; reflexivity|]. split; [vm_compute; reflexivity|]. split; [vm_compute; reflexivity|].
  split; [vm_compute; reflexivity|]. vm_compute; reflexivity.
Qed.
