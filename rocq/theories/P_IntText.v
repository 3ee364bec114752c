(** [int(text)] reads exactly the numerals. *)
From Coq Require Import Ascii String.
From Verif Require Import Base M_IntText SpecIntText.
Open Scope nat_scope.

Lemma space_blank c : is_space c = true <-> blank c.
Proof.
  unfold is_space, blank. split.
  - intros H. apply orb_prop in H as [H|H].
    + apply andb_prop in H as [A B]. apply Nat.leb_le in A, B. cbn. lia.
    + apply Nat.eqb_eq in H. cbn. lia.
  - cbn. intros [<-|[<-|[<-|[<-|[<-|[<-|[]]]]]]]; reflexivity.
Qed.
Lemma digit_range c : is_digit c = true <-> 48 <= c <= 57.
Proof. unfold is_digit. rewrite Bool.andb_true_iff, !Nat.leb_le. tauto. Qed.
Lemma drop_split l : exists a, Forall blank a /\ l = a ++ drop_spaces l.
Proof.
  induction l as [|c l (a & F & E)]; [now exists []|]. cbn. destruct (is_space c) eqn:S.
  - exists (c :: a). split; [constructor; [now apply space_blank|exact F]|]. cbn. now rewrite <- E.
  - now exists [].
Qed.
Lemma strip_split l : exists a b, Forall blank a /\ Forall blank b /\ l = a ++ strip l ++ b.
Proof.
  destruct (drop_split l) as (a & A & E). destruct (drop_split (rev (drop_spaces l))) as (b & B & F).
  exists a, (rev b). split; [exact A|]. split; [now apply Forall_rev|].
  rewrite E at 1. f_equal. unfold strip. rewrite <- rev_app_distr, <- F. now rewrite rev_involutive.
Qed.
Lemma drop_blank a l : Forall blank a -> drop_spaces (a ++ l) = drop_spaces l.
Proof. induction 1 as [|c a C A IH]; [reflexivity|]. cbn. now rewrite (proj2 (space_blank c) C). Qed.
Definition inked (l : list nat) : Prop := match l with [] => True | c :: _ => ~ blank c end.
Lemma drop_inked l : inked l -> drop_spaces l = l.
Proof. destruct l as [|c l]; [reflexivity|]. cbn. intros N. destruct (is_space c) eqn:S; [|reflexivity]. now apply space_blank in S. Qed.
Lemma strip_core a core b : Forall blank a -> Forall blank b -> core <> [] -> inked core -> inked (rev core) -> strip (a ++ core ++ b) = core.
Proof.
  intros A B N I J. unfold strip. rewrite (drop_blank a _ A).
  rewrite (drop_inked (core ++ b)) by (destruct core; [contradiction|exact I]).
  rewrite rev_app_distr, drop_blank by (now apply Forall_rev). rewrite drop_inked by exact J. apply rev_involutive.
Qed.
(** Reading digits. *)
Lemma digits_ok l ds : numeral l ds -> forall acc n b,
  digits_of l acc n b = Some ((acc * 10 ^ Z.of_nat (length ds) + digits_value ds)%Z, n + length ds).
Proof.
  assert (D : forall d, d <= 9 -> is_digit (48 + d) = true) by (intros d H; apply digit_range; lia).
  induction 1 as [d H|d l ds H N IH|d l ds H N IH]; intros acc n b; cbn [digits_of]; rewrite (D d H).
  - cbn [length digits_value Z.of_nat]. do 2 f_equal; [|lia]. replace (48 + d - 48) with d by lia. change (10 ^ Z.of_nat 1)%Z with 10%Z. change (10 ^ 0)%Z with 1%Z. lia.
  - rewrite IH. cbn [length digits_value]. do 2 f_equal; [|lia]. replace (48 + d - 48) with d by lia.
    rewrite (Nat2Z.inj_succ (length ds)), Z.pow_succ_r by lia. lia.
  - cbn [is_digit Nat.leb Nat.eqb andb]. rewrite IH. cbn [length digits_value]. do 2 f_equal; [|lia]. replace (48 + d - 48) with d by lia.
    rewrite (Nat2Z.inj_succ (length ds)), Z.pow_succ_r by lia. lia.
Qed.
Lemma digits_numeral l : forall acc n b z m, digits_of l acc n b = Some (z, m) ->
  (l = [] /\ b = true) \/ (exists ds, numeral l ds) \/ (b = true /\ exists l' ds, l = 95 :: l' /\ numeral l' ds).
Proof.
  induction l as [|c l IH]; intros acc n b z m H; cbn in H; [destruct b; [now left|discriminate]|].
  destruct (is_digit c) eqn:D.
  - apply digit_range in D. replace c with (48 + (c - 48)) in * by lia. set (d := c - 48) in *. assert (d <= 9) by lia.
    right. left. apply IH in H as [(-> & _)|[(ds & N)|(_ & l' & ds & -> & N)]].
    + exists [d]. now constructor.
    + exists (d :: ds). now constructor.
    + exists (d :: ds). now constructor.
  - destruct (Nat.eqb_spec c 95) as [->|]; [|discriminate]. destruct b; [|discriminate]. cbn in H.
    right. right. split; [reflexivity|]. apply IH in H as [(_ & E)|[(ds & N)|(E & _)]]; try discriminate. exists l, ds. auto.
Qed.
Lemma numeral_first l ds : numeral l ds -> exists c l', l = c :: l' /\ 48 <= c <= 57.
Proof. intros [d H|d l' ds' H N|d l' ds' H N]; eexists; eexists; (split; [reflexivity|lia]). Qed.
Lemma numeral_last l ds : numeral l ds -> exists c l', l = l' ++ [c] /\ 48 <= c <= 57.
Proof.
  induction 1 as [d H|d l ds H N (c & l' & -> & R)|d l ds H N (c & l' & -> & R)].
  - exists (48 + d), []. split; [reflexivity|lia].
  - exists c, (48 + d :: l'). auto.
  - exists c, (48 + d :: 95 :: l'). auto.
Qed.
Lemma unsigned_iff l k : unsigned l = Some k <-> exists ds, numeral l ds /\ length ds <= 4300 /\ k = digits_value ds.
Proof.
  unfold unsigned. split.
  - destruct (digits_of l 0%Z 0 false) as [[z n]|] eqn:E; [|discriminate]. destruct (Nat.leb_spec n 4300) as [L|]; [|discriminate]. intros H. injection H as <-.
    destruct (digits_numeral _ _ _ _ _ _ E) as [(_ & F)|[(ds & N)|(F & _)]]; try discriminate.
    exists ds. split; [exact N|]. rewrite (digits_ok l ds N) in E. injection E as <- <-. split; [exact L|lia].
  - intros (ds & N & L & ->). rewrite (digits_ok l ds N). cbn [Nat.add]. apply Nat.leb_le in L. rewrite L. f_equal; lia.
Qed.
Definition sign_value (sign : list nat) (k : Z) (ds : list nat) : Prop :=
  (sign = [] \/ sign = [43]) /\ k = digits_value ds \/ sign = [45] /\ k = (- digits_value ds)%Z.
Lemma signed_iff l k : signed l = Some k <->
  exists sign body ds, l = sign ++ body /\ numeral body ds /\ length ds <= 4300 /\ sign_value sign k ds.
Proof.
  split.
  - destruct l as [|c l]; [discriminate|]. cbn [signed]. destruct (Nat.eqb_spec c 43) as [->|N1].
    + intros H. apply unsigned_iff in H as (ds & N & L & ->). exists [43], l, ds. repeat split; auto. left. auto.
    + destruct (Nat.eqb_spec c 45) as [->|N2].
      * destruct (unsigned l) as [z|] eqn:U; [|discriminate]. intros H. injection H as <-.
        apply unsigned_iff in U as (ds & N & L & ->). exists [45], l, ds. repeat split; auto. right. auto.
      * intros H. apply unsigned_iff in H as (ds & N & L & ->). exists [], (c :: l), ds. repeat split; auto. left. auto.
  - intros (sign & body & ds & -> & N & L & [([->| ->] & ->)|(-> & ->)]).
    + destruct (numeral_first _ _ N) as (c & l' & -> & R). cbn [app signed].
      destruct (Nat.eqb_spec c 43); [lia|]. destruct (Nat.eqb_spec c 45); [lia|]. apply unsigned_iff. eauto.
    + cbn. apply unsigned_iff. eauto.
    + cbn [app signed Nat.eqb]. replace (unsigned body) with (Some (digits_value ds)); [reflexivity|]. symmetry. apply unsigned_iff. eauto.
Qed.
Lemma not_blank c : 43 <= c -> ~ blank c.
Proof. unfold blank. cbn. lia. Qed.
Lemma int_text_iff s k : ascii_text s -> (int_text s = Ok k <-> denotes s k).
Proof.
  intros A. unfold int_text. change (codes s) with (characters s).
  replace (forallb (fun c => Nat.ltb c 128) (characters s)) with true.
  2:{ symmetry. apply forallb_forall. intros c I. apply Nat.ltb_lt. unfold ascii_text in A. rewrite Forall_forall in A. now apply A. }
  cbn [negb]. split.
  - destruct (signed (strip (characters s))) as [z|] eqn:E; [|discriminate]. intros H. injection H as <-.
    apply signed_iff in E as (sign & body & ds & E & N & L & V). destruct (strip_split (characters s)) as (a & b & Fa & Fb & Es).
    exists a, sign, body, b, ds. rewrite E, <- app_assoc in Es. auto 10.
  - intros (a & sign & body & b & ds & E & Fa & Fb & N & L & V).
    assert (S : strip (characters s) = sign ++ body).
    { rewrite E, (app_assoc sign). destruct (numeral_first _ _ N) as (c & l1 & E1 & R1). destruct (numeral_last _ _ N) as (d & l2 & E2 & R2).
      apply strip_core; auto.
      - intros Z. apply app_eq_nil in Z as (_ & ->). discriminate.
      - destruct V as [([->| ->] & _)|(-> & _)]; cbn; try (apply not_blank; lia). rewrite E1. apply not_blank. lia.
      - rewrite E2, app_assoc, rev_app_distr. cbn. apply not_blank. lia. }
    replace (signed (strip (characters s))) with (Some k); [reflexivity|]. symmetry. apply signed_iff. rewrite S. exists sign, body, ds. auto.
Qed.
Lemma int_text_fails s : ascii_text s -> (forall k, ~ denotes s k) ->
  int_text s = Err (ValueError "number of samples must be an integer").
Proof.
  intros A N. destruct (int_text s) as [k|e] eqn:E; [destruct (N k); now apply int_text_iff|].
  unfold int_text in E. change (codes s) with (characters s) in E.
  replace (forallb (fun c => Nat.ltb c 128) (characters s)) with true in E.
  2:{ symmetry. apply forallb_forall. intros c I. apply Nat.ltb_lt. unfold ascii_text in A. rewrite Forall_forall in A. now apply A. }
  cbn [negb] in E. destruct (signed _); [discriminate|]. now injection E as <-.
Qed.
