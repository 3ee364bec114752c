(** Lemmas about the formula helpers. *)
From Coq Require Import Reals Lra Permutation Qreals.
From Verif Require Import Base M_Weights SpecWeights P_Weights P_Weights2 M_Formulas SpecFormulas.
Open Scope R_scope.

(* ---------------------------------------------------------------- odds *)
Ltac rcases :=
  repeat match goal with
  | |- context [if Rlt_dec ?a ?b then _ else _] => destruct (Rlt_dec a b)
  | |- context [if Rle_dec ?a ?b then _ else _] => destruct (Rle_dec a b)
  | |- context [if Req_EM_T ?a ?b then _ else _] => destruct (Req_EM_T a b)
  | H : context [if Rlt_dec ?a ?b then _ else _] |- _ => destruct (Rlt_dec a b)
  | H : context [if Rle_dec ?a ?b then _ else _] |- _ => destruct (Rle_dec a b)
  | H : context [if Req_EM_T ?a ?b then _ else _] |- _ => destruct (Req_EM_T a b)
  end.

Lemma odds_value p : 0 < p < 1 -> odds_of (RFin p) = Ok (RFin (p / (1 - p))) /\ 0 < p / (1 - p).
Proof.
  intros H. unfold odds_of. simpl. rcases; try lra. split; auto. apply Rdiv_lt_0_compat; lra.
Qed.
Lemma prob_value o : 0 < o -> prob_of (RFin o) = Ok (RFin (o / (1 + o))) /\ 0 < o / (1 + o) < 1.
Proof.
  intros H. unfold prob_of. simpl. rcases; try lra. split; auto. split.
  - apply Rdiv_lt_0_compat; lra.
  - apply Rmult_lt_reg_r with (1 + o); [lra|]. unfold Rdiv. rewrite Rmult_assoc, Rinv_l by lra. lra.
Qed.


(** One conversion after the other. *)
Lemma odds_then_prob v : prob_or_na v -> exists o, odds_of v = Ok o /\ odds_or_na o /\ prob_of o = Ok v.
Proof.
  destruct v as [p| | | |]; simpl; intros H; try contradiction.
  - destruct (odds_value p H) as [E P]. eexists. split; [exact E|]. split; [exact P|].
    destruct (prob_value _ P) as [E' _]. rewrite E'. do 2 f_equal. field. split; lra.
  - eexists; split; [reflexivity|]; split; reflexivity.
  - eexists; split; [reflexivity|]; split; reflexivity.
Qed.
Lemma prob_then_odds v : odds_or_na v -> exists p, prob_of v = Ok p /\ prob_or_na p /\ odds_of p = Ok v.
Proof.
  destruct v as [o| | | |]; simpl; intros H; try contradiction.
  - destruct (prob_value o H) as [E P]. eexists. split; [exact E|]. split; [exact P|].
    destruct (odds_value _ P) as [E' _]. rewrite E'. do 2 f_equal. field.
    split; [lra|]. intros Z. replace (1 + o - o) with 1 in Z by ring. lra.
  - eexists; split; [reflexivity|]; split; reflexivity.
  - eexists; split; [reflexivity|]; split; reflexivity.
Qed.

Lemma mapM_inverse (f g : rnum -> res rnum) (P : rnum -> Prop) l :
  (forall v, P v -> exists o, f v = Ok o /\ g o = Ok v) -> Forall P l ->
  exists m, mapM f l = Ok m /\ mapM g m = Ok l /\ length m = length l.
Proof.
  intros H. induction 1 as [|v l Pv F IH]; simpl.
  - exists []. auto.
  - destruct (H v Pv) as (o & A & B). destruct IH as (m & C & D & E).
    exists (o :: m). rewrite A; simpl. rewrite C; simpl. rewrite B; simpl. rewrite D. simpl. auto.
Qed.
Lemma renlist_rsimplify l : renlist (rsimplify l) = l.
Proof. destruct l as [|? [|? ?]]; reflexivity. Qed.

Lemma odds_round_trip a : Forall prob_or_na (renlist a) ->
  exists o, p_to_odds a = Ok o /\ odds_to_p o = Ok (rsimplify (renlist a)) /\ length (renlist o) = length (renlist a).
Proof.
  intros F. destruct (mapM_inverse odds_of prob_of prob_or_na (renlist a)) as (m & A & B & L); auto.
  { intros v Hv. destruct (odds_then_prob v Hv) as (o & ? & _ & ?). eauto. }
  exists (rsimplify m). unfold p_to_odds, odds_to_p. rewrite A. simpl. rewrite renlist_rsimplify, B. auto.
Qed.
Lemma prob_round_trip a : Forall odds_or_na (renlist a) ->
  exists p, odds_to_p a = Ok p /\ p_to_odds p = Ok (rsimplify (renlist a)) /\ length (renlist p) = length (renlist a).
Proof.
  intros F. destruct (mapM_inverse prob_of odds_of odds_or_na (renlist a)) as (m & A & B & L); auto.
  { intros v Hv. destruct (prob_then_odds v Hv) as (o & ? & _ & ?). eauto. }
  exists (rsimplify m). unfold p_to_odds, odds_to_p. rewrite A. simpl. rewrite renlist_rsimplify, B. auto.
Qed.

Lemma mapM_err_iff {A B} (f : A -> res B) l e0 : (forall v e, f v = Err e -> e = e0) ->
  (mapM f l = Err e0 <-> exists v, In v l /\ f v = Err e0) /\ (forall e, mapM f l = Err e -> e = e0).
Proof.
  intros H. induction l as [|v l [IH1 IH2]]; simpl.
  - split; [split; [discriminate|intros (v & [] & _)]|discriminate].
  - destruct (f v) as [y|e] eqn:E; simpl.
    + destruct (mapM f l) as [m|e]; simpl.
      * split; [split; [discriminate|]|discriminate]. intros (w & [<-|Hw] & C); [congruence|].
        assert (X : Ok m = Err e0 :> res (list B)) by (apply IH1; eauto). discriminate.
      * split; [split|auto]; intros C; auto.
        -- destruct (proj1 IH1 C) as (w & ? & ?). eauto.
        -- f_equal. auto.
    + pose proof (H _ _ E). subst e. split; [split|]; intros; auto; try congruence. eauto.
Qed.

Lemma p_to_odds_rejects a :
  (p_to_odds a = Err (ValueError "p must be between 0 and 1") <-> exists v, In v (renlist a) /\ ~ prob_or_na v) /\
  (forall e, p_to_odds a = Err e -> e = ValueError "p must be between 0 and 1").
Proof.
  assert (H : forall v e, odds_of v = Err e -> e = ValueError "p must be between 0 and 1").
  { intros [p| | | |] e; unfold odds_of; simpl; intros E; rcases; congruence. }
  destruct (mapM_err_iff odds_of (renlist a) _ H) as [A B]. unfold p_to_odds.
  assert (K : forall v, odds_of v = Err (ValueError "p must be between 0 and 1") <-> ~ prob_or_na v).
  { intros [p| | | |]; unfold odds_of; simpl; split; intros E; rcases; auto; try discriminate; try lra; try tauto. }
  split.
  - destruct (mapM odds_of (renlist a)) as [m|e] eqn:E; simpl; split; intros C.
    + discriminate.
    + destruct C as (v & V & N). apply K in N. assert (X := proj2 A (ex_intro _ v (conj V N))). discriminate.
    + inversion C; subst. destruct (proj1 A eq_refl) as (v & V & N). exists v. split; auto. now apply K.
    + f_equal. now apply B.
  - intros e. destruct (mapM odds_of (renlist a)) as [m|e'] eqn:E; simpl; intros C; [discriminate|].
    inversion C; subst. now apply B.
Qed.
Lemma odds_to_p_rejects a :
  (odds_to_p a = Err (ValueError "odds must be greater than 0") <->
   exists v, In v (renlist a) /\ ~ odds_or_na v /\ v <> RInf) /\
  (forall e, odds_to_p a = Err e -> e = ValueError "odds must be greater than 0").
Proof.
  assert (H : forall v e, prob_of v = Err e -> e = ValueError "odds must be greater than 0").
  { intros [p| | | |] e; unfold prob_of; simpl; intros E; rcases; congruence. }
  destruct (mapM_err_iff prob_of (renlist a) _ H) as [A B]. unfold odds_to_p.
  assert (K : forall v, prob_of v = Err (ValueError "odds must be greater than 0") <-> ~ odds_or_na v /\ v <> RInf).
  { intros [p| | | |]; unfold prob_of; simpl; split; intros E; rcases; auto; try discriminate; try lra;
      try (destruct E; exfalso; tauto || lra). - split; [lra|discriminate]. - split; [tauto|discriminate]. }
  split.
  - destruct (mapM prob_of (renlist a)) as [m|e] eqn:E; simpl; split; intros C.
    + discriminate.
    + destruct C as (v & V & N). apply K in N. assert (X := proj2 A (ex_intro _ v (conj V N))). discriminate.
    + inversion C; subst. destruct (proj1 A eq_refl) as (v & V & N). exists v. split; auto. now apply K.
    + f_equal. now apply B.
  - intros e. destruct (mapM prob_of (renlist a)) as [m|e'] eqn:E; simpl; intros C; [discriminate|].
    inversion C; subst. now apply B.
Qed.

Lemma odds_increasing p q : 0 < p -> p < q -> q < 1 -> p / (1 - p) < q / (1 - q).
Proof.
  intros. apply Rmult_lt_reg_r with ((1 - p) * (1 - q)); [apply Rmult_lt_0_compat; lra|].
  replace (p / (1 - p) * ((1 - p) * (1 - q))) with (p * (1 - q)) by (field; lra).
  replace (q / (1 - q) * ((1 - p) * (1 - q))) with (q * (1 - p)) by (field; lra). nra.
Qed.
Lemma prob_increasing o u : 0 < o -> o < u -> o / (1 + o) < u / (1 + u).
Proof.
  intros. apply Rmult_lt_reg_r with ((1 + o) * (1 + u)); [apply Rmult_lt_0_compat; lra|].
  replace (o / (1 + o) * ((1 + o) * (1 + u))) with (o * (1 + u)) by (field; lra).
  replace (u / (1 + u) * ((1 + o) * (1 + u))) with (u * (1 + o)) by (field; lra). nra.
Qed.
