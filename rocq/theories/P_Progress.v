(** Lemmas about progress bars. *)
From Coq Require Import Lia Arith.
From Verif Require Import Base M_Weights M_Pick M_Values M_Sampler M_Progress.
Open Scope nat_scope.

Lemma own_ticks n cores : 1 <= cores -> own_part n cores * cores = n + pred cores * (n mod cores).
Proof.
  intros C. unfold own_part. pose proof (Nat.div_mod n cores ltac:(lia)) as D.
  destruct cores as [|c]; [lia|]. simpl pred. set (q := n / S c) in *. set (r := n mod S c) in *.
  replace (n - c * q) with (q + r) by nia. nia.
Qed.
Lemma ticks_over n cores : 1 <= cores -> n <= own_part n cores * cores <= n + pred cores * pred cores.
Proof.
  intros C. rewrite own_ticks by auto. pose proof (Nat.mod_upper_bound n cores ltac:(lia)). nia.
Qed.
Lemma ticks_exact n cores : 2 <= cores -> own_part n cores * cores = n <-> Nat.divide cores n.
Proof.
  intros C. rewrite own_ticks by lia. rewrite <- Nat.mod_divide by lia. nia.
Qed.

Lemma full_bar t c (P : Prop) : t <= t <= t + c * c /\ (P -> t = t).
Proof. split; auto. split; auto. apply Nat.le_add_r. Qed.

Section Bars.
  Context {Gt : Type}.
  Lemma single_full n mn mc (o : obj Gt) b : shows n mn mc o b -> mc = 1 -> snd b = fst b.
  Proof.
    induction 1; intros M; simpl; subst; auto. all: unfold bar_total; simpl; lia.
  Qed.
  Lemma single_own n mn mc (o : obj Gt) b : shows n mn mc o b -> mc <> 1 ->
    snd b = fst b \/ (fst b = mn /\ snd b = n * mc).
  Proof.
    intros H M. destruct H; simpl; auto.
    - right. unfold bar_total. apply Nat.eqb_neq in M. now rewrite M.
    - right. unfold bar_total. apply Nat.eqb_neq in M. now rewrite M.
    - left. eapply single_full; eauto.
    - left. eapply single_full; eauto.
    - left. eapply single_full; eauto.
  Qed.
  Lemma call_single n cores (o : obj Gt) b : cores <= 1 -> call_shows n cores o b -> snd b = fst b.
  Proof. intros C H. destruct H as [b _ H| |]; try lia. eapply single_full; eauto. Qed.
  Lemma call_bar n cores (o : obj Gt) b : call_shows n cores o b ->
    fst b <= snd b <= fst b + pred cores * pred cores /\ (Nat.divide cores n -> snd b = fst b).
  Proof.
    intros H. destruct H as [b C H|b C H|C].
    - apply single_full in H; auto. rewrite H. apply full_bar.
    - apply single_own in H; [|lia]. destruct H as [->|[-> ->]]; [apply full_bar|].
      split; [apply ticks_over; lia|]. apply ticks_exact; lia.
    - apply full_bar.
  Qed.
End Bars.
Lemma net_single n b : In b (net_bars n 1) -> snd b = fst b.
Proof. intros [<-|[]]. reflexivity. Qed.
Lemma net_multi n cores b : 1 <= cores -> In b (net_bars n cores) ->
  fst b <= snd b <= fst b + pred cores * pred cores /\ (Nat.divide cores n -> snd b = fst b).
Proof.
  intros C. unfold net_bars. destruct (Nat.eqb_spec cores 1) as [->|N].
  - intros [<-|[]]. apply full_bar.
  - intros [<-|[<-|[]]]; simpl; [|apply full_bar]. split; [apply ticks_over; lia|]. apply ticks_exact; lia.
Qed.
