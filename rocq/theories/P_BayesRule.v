(** Rejection sampling over all draws is Bayes' rule (C154). *)
From Coq Require Import Permutation Lqa.
From Verif Require Import Base M_Values M_Sampler M_Ops M_Bayesnet SpecShare SpecBayes SpecBayesRule P_Corr P_Bayesnet.
Open Scope Q_scope.

Definition occurs (N : nat) (p : Q) (k : nat) : bool := Qlt_bool (grid N k) p.
Definition outcome_of (N : nat) (lh lnh prior : Q) (p : nat * nat) : bool * bool :=
  let h := occurs N prior (fst p) in (h, occurs N (if h then lh else lnh) (snd p)).

Lemma event_literal Or p s u s1 : rngf Or (RUniform 0 1) 1 s = (Ok [u], s1) ->
  event_occurs Or (OLit (PFlt (Fin p))) s = (Ok (Qlt_bool u p), s1).
Proof. intros H. unfold event_occurs, bindS, ret. cbn. unfold bindS. rewrite H. reflexivity. Qed.

Lemma program_calls Or N lh lnh prior f : forall ks s s',
  uniform_draws Or s (flat_map (fun p => [grid N (fst p); grid N (snd p)]) ks) s' ->
  calls _ _ (fun _ => hypothesis_then_evidence Or lh lnh prior) f s (map (outcome_of N lh lnh prior) ks) s'.
Proof.
  induction ks as [|[i j] ks IH]; intros s s' H; cbn [flat_map app fst snd] in H.
  - inversion H; subst. constructor.
  - inversion H as [|? ? s1 ? ? D1 H1]; subst. inversion H1 as [|? ? s2 ? ? D2 H2]; subst. cbn [map].
    econstructor; [|apply IH; exact H2].
    unfold hypothesis_then_evidence. unfold bindS at 1. rewrite (event_literal _ _ _ _ _ D1).
    unfold bindS. rewrite (event_literal _ _ _ _ _ D2). reflexivity.
Qed.

Lemma count_perm {A} (p : A -> bool) l l' : Permutation l l' -> count p l = count p l'.
Proof. induction 1; cbn; lia. Qed.
Lemma count_app {A} (p : A -> bool) a b : count p (a ++ b) = (count p a + count p b)%nat.
Proof. induction a as [|x a IH]; cbn; [reflexivity|]. rewrite IH. lia. Qed.
Lemma count_map {A B} (f : A -> B) p l : count p (map f l) = count (fun x => p (f x)) l.
Proof. induction l as [|x l IH]; cbn; [reflexivity|]. now rewrite IH. Qed.
Lemma count_ext {A} (p q : A -> bool) l : (forall x, p x = q x) -> count p l = count q l.
Proof. intros H. induction l as [|x l IH]; cbn; [reflexivity|]. now rewrite IH, H. Qed.
Lemma count_none {A} (l : list A) : count (fun _ => false) l = 0%nat.
Proof. induction l as [|x l IH]; cbn; [reflexivity|exact IH]. Qed.
Lemma count_filter {A} (p : A -> bool) l : count p l = length (filter p l).
Proof. induction l as [|x l IH]; cbn; [reflexivity|]. destruct (p x); cbn; now rewrite IH. Qed.
Lemma count_not {A} (p : A -> bool) l : (count (fun x => negb (p x)) l + count p l = length l)%nat.
Proof. induction l as [|x l IH]; cbn; [reflexivity|]. destruct (p x); cbn; lia. Qed.
Lemma count_occurs N p c : happens N p c -> count (occurs N p) (seq 0 N) = c.
Proof.
  intros (l & ND & H & <-). rewrite count_filter. apply Permutation_length, NoDup_Permutation.
  - apply NoDup_filter, seq_NoDup.
  - exact ND.
  - intros k. rewrite filter_In, H, in_seq. unfold occurs. rewrite clt_true. intuition lia.
Qed.
(** Counting pairs row by row. *)
Lemma count_prod {A B} (f : A -> bool) (g h : B -> bool) (l : list A) (r : list B) :
  count (fun p => if f (fst p) then g (snd p) else h (snd p)) (list_prod l r) =
  (count f l * count g r + count (fun x => negb (f x)) l * count h r)%nat.
Proof.
  induction l as [|x l IH]; [reflexivity|]. cbn [list_prod count]. rewrite count_app, IH, count_map. cbn [fst snd].
  destruct (f x); cbn [negb].
  - change (count (fun x0 => g x0) r) with (count g r). nia.
  - change (count (fun x0 => h x0) r) with (count h r). nia.
Qed.

Lemma qnat_pos n : (0 < n)%nat -> 0 < qnat n.
Proof. intros H. unfold qnat. change 0 with (inject_Z 0). rewrite <- Zlt_Qlt. lia. Qed.
Section Rule.
  Variables (N : nat) (lh lnh prior : Q) (a b c : nat).
  Hypothesis (Pos : (0 < N)%nat) (Ha : happens N prior a) (Hb : happens N lh b) (Hc : happens N lnh c).
  Let pairs := list_prod (seq 0 N) (seq 0 N).
  Lemma count_evidence : count snd (map (outcome_of N lh lnh prior) pairs) = (a * b + (N - a) * c)%nat.
  Proof.
    rewrite count_map. rewrite (count_ext _ (fun p => if occurs N prior (fst p) then occurs N lh (snd p) else occurs N lnh (snd p))).
    - unfold pairs. rewrite count_prod, (count_occurs _ _ _ Ha), (count_occurs _ _ _ Hb), (count_occurs _ _ _ Hc).
      pose proof (count_not (occurs N prior) (seq 0 N)) as E. rewrite (count_occurs _ _ _ Ha), seq_length in E. nia.
    - intros p. unfold outcome_of. cbn. now destruct (occurs N prior (fst p)).
  Qed.
  Lemma count_both : count (fun e => snd e && fst e) (map (outcome_of N lh lnh prior) pairs) = (a * b)%nat.
  Proof.
    rewrite count_map. rewrite (count_ext _ (fun p => if occurs N prior (fst p) then occurs N lh (snd p) else (fun _ => false) (snd p))).
    - unfold pairs. rewrite (count_prod (occurs N prior) (occurs N lh) (fun _ => false)), (count_occurs _ _ _ Ha), (count_occurs _ _ _ Hb), count_none. lia.
    - intros p. unfold outcome_of. cbn. destruct (occurs N prior (fst p)); [apply andb_true_r|apply andb_false_r].
  Qed.
  Lemma below_all : (a <= N)%nat.
  Proof.
    pose proof (count_not (occurs N prior) (seq 0 N)) as E. rewrite (count_occurs _ _ _ Ha), seq_length in E. lia.
  Qed.
  Lemma qnat_evidence : qnat (a * b + (N - a) * c) == qnat a * qnat b + (qnat N - qnat a) * qnat c.
  Proof.
    pose proof below_all as L. unfold qnat. rewrite Nat2Z.inj_add, !Nat2Z.inj_mul, Nat2Z.inj_sub by exact L.
    unfold Z.sub. rewrite !inject_Z_plus, !inject_Z_mult, inject_Z_plus, inject_Z_opp. reflexivity.
  Qed.
  Lemma qnat_mul x y : qnat (x * y) == qnat x * qnat y.
  Proof. unfold qnat. now rewrite Nat2Z.inj_mul, inject_Z_mult. Qed.
  Lemma denominator : (qnat b / qnat N) * (qnat a / qnat N) + (qnat c / qnat N) * (1 - qnat a / qnat N)
    == qnat (a * b + (N - a) * c) / (qnat N * qnat N).
  Proof. rewrite qnat_evidence. pose proof (qnat_pos N Pos). field. lra. Qed.

  Lemma rule_over_all_draws (Or : oracle) Y wire f (call : bcall (state (G Or)) (bool * bool) Y) w us s' :
    q_fn _ _ _ call = Some f -> asks _ _ _ call fst snd -> q_cores _ _ _ call = 1%nat -> q_dump _ _ _ call = None ->
    uncached _ _ _ call w -> q_n _ _ _ call = (N * N)%nat ->
    uniform_draws Or (b_st _ _ w) us s' -> every_pair N us ->
    let r := bayesnet _ _ Y (fun _ => hypothesis_then_evidence Or lh lnh prior) wire call w in
    b_st _ _ (snd r) = s' /\
    match simple_bayes (qnat b / qnat N) (qnat c / qnat N) (qnat a / qnat N) with
    | Ok q => exists q', fst r = Ok (OMean _ _ (PFlt (Fin q'))) /\ q' == q
    | Err _ => fst r = Err (ValueError "insufficient samples for condition")
    end.
  Proof.
    intros F A C D U Hn Dr (ks & P & ->). cbn zeta.
    set (es := map (outcome_of N lh lnh prior) ks).
    assert (CA : calls _ _ (fun _ => hypothesis_then_evidence Or lh lnh prior) f (b_st _ _ w) es s') by (now apply program_calls).
    assert (Le : length es = q_n _ _ _ call).
    { unfold es. rewrite map_length, (Permutation_length P), prod_length, !seq_length. now rewrite Hn. }
    destruct (rejection _ _ Y _ wire call w f fst snd es s' F A C D U CA Le) as (S1 & S2 & S3).
    assert (Pe : Permutation es (map (outcome_of N lh lnh prior) pairs)) by (now apply Permutation_map).
    assert (C1 : count snd es = (a * b + (N - a) * c)%nat) by (rewrite (count_perm _ _ _ Pe); apply count_evidence).
    assert (C2 : count (fun x => snd x && fst x) es = (a * b)%nat) by (rewrite (count_perm _ _ _ Pe); apply count_both).
    split; [exact S1|]. unfold simple_bayes. pose proof denominator as Den. pose proof (qnat_pos N Pos) as NP.
    assert (NN : ~ qnat N * qnat N == 0) by (pose proof (Qmult_lt_0_compat _ _ NP NP); lra).
    destruct (Qeq_bool _ 0) eqn:Z.
    - apply Qeq_bool_iff in Z. rewrite Den in Z. apply S2. rewrite C1.
      assert (Z' : qnat (a * b + (N - a) * c) == 0).
      { setoid_replace (qnat (a * b + (N - a) * c)) with (qnat (a * b + (N - a) * c) / (qnat N * qnat N) * (qnat N * qnat N)).
        - rewrite Z. ring.
        - field. lra. }
      destruct (a * b + (N - a) * c)%nat; [reflexivity|]. exfalso. pose proof (qnat_pos (S n) ltac:(lia)). lra.
    - apply Qeq_bool_neq in Z. rewrite Den in Z.
      assert (Pn : (0 < a * b + (N - a) * c)%nat).
      { destruct (a * b + (N - a) * c)%nat; [|lia]. exfalso. apply Z. change (qnat 0) with (0 # 1). unfold Qdiv. now rewrite Qmult_0_l. }
      destruct (S3 ltac:(rewrite C1; exact Pn)) as (q & Q & E & _ & _). exists q. split; [exact Q|]. rewrite E. unfold fraction. rewrite C1, C2.
      fold (qnat (a * b)) (qnat (a * b + (N - a) * c)). rewrite Den, qnat_mul. pose proof (qnat_pos _ Pn). field. split; lra.
  Qed.
End Rule.

Lemma multiple_happens N p a : (0 < N)%nat -> (a <= N)%nat -> p == qnat a / qnat N -> happens N p a.
Proof.
  intros P L E. exists (seq 0 a). split; [apply seq_NoDup|]. split; [|apply seq_length].
  pose proof (qnat_pos N P) as NP. intros k. rewrite in_seq.
  assert (X : grid N k < p <-> (k < a)%nat).
  { pose proof (Qinv_lt_0_compat _ NP) as IP. rewrite E. unfold grid. fold (qnat k) (qnat N). unfold Qdiv.
    rewrite (Qmult_lt_r (qnat k) (qnat a) _ IP). unfold qnat. rewrite <- Zlt_Qlt. lia. }
  rewrite X. lia.
Qed.
Lemma simple_bayes_same a a' b b' p p' : a == a' -> b == b' -> p == p' ->
  match simple_bayes a b p, simple_bayes a' b' p' with Ok x, Ok y => x == y | Err e, Err e' => e = e' | _, _ => False end.
Proof.
  intros A B P. unfold simple_bayes.
  assert (D : a * p + b * (1 - p) == a' * p' + b' * (1 - p')) by (now rewrite A, B, P).
  replace (Qeq_bool (a' * p' + b' * (1 - p')) 0) with (Qeq_bool (a * p + b * (1 - p)) 0).
  - destruct (Qeq_bool _ 0); [reflexivity|]. now rewrite A, B, P.
  - destruct (Qeq_bool (a * p + b * (1 - p)) 0) eqn:E; symmetry.
    + apply Qeq_bool_iff in E. apply Qeq_bool_iff. now rewrite <- D.
    + apply not_true_is_false. intros H. apply Qeq_bool_iff in H. rewrite <- D in H. apply Qeq_bool_iff in H. congruence.
Qed.
Lemma rule_exact (Or : oracle) Y wire f (call : bcall (state (G Or)) (bool * bool) Y) w us s' N lh lnh prior :
  (0 < N)%nat -> multiple N lh -> multiple N lnh -> multiple N prior ->
  q_fn _ _ _ call = Some f -> asks _ _ _ call fst snd -> q_cores _ _ _ call = 1%nat -> q_dump _ _ _ call = None ->
  uncached _ _ _ call w -> q_n _ _ _ call = (N * N)%nat ->
  uniform_draws Or (b_st _ _ w) us s' -> every_pair N us ->
  let r := bayesnet _ _ Y (fun _ => hypothesis_then_evidence Or lh lnh prior) wire call w in
  match simple_bayes lh lnh prior with
  | Ok q => exists q', fst r = Ok (OMean _ _ (PFlt (Fin q'))) /\ q' == q
  | Err _ => fst r = Err (ValueError "insufficient samples for condition")
  end.
Proof.
  intros P (b & Lb & Eb) (c & Lc & Ec) (a & La & Ea) F A C D U Hn Dr E. cbn zeta.
  destruct (rule_over_all_draws N lh lnh prior a b c P (multiple_happens N prior a P La Ea) (multiple_happens N lh b P Lb Eb)
    (multiple_happens N lnh c P Lc Ec) Or Y wire f call w us s' F A C D U Hn Dr E) as (_ & H).
  pose proof (simple_bayes_same _ _ _ _ _ _ Eb Ec Ea) as X.
  destruct (simple_bayes lh lnh prior), (simple_bayes (qnat b / qnat N) _ _); try contradiction; [|exact H].
  destruct H as (q' & H & Q). exists q'. split; [exact H|]. now rewrite Q, X.
Qed.
