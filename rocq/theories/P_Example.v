(** The counter generator meets the contracts assumed of numpy. *)
From Verif Require Import Base M_Weights SpecWeights P_Weights M_Pick M_Values M_Sampler SpecSampler P_Sampler P_Ops P_Support.
From Coq Require Import Lqa.
Open Scope Q_scope.

Lemma ex_fracs_length n : forall k, length (ex_fracs n k) = n.
Proof. induction n; simpl; auto. Qed.
Lemma ex_frac_range k : 0 <= ex_frac k /\ ex_frac k <= 9#10.
Proof.
  unfold ex_frac. set (z := ((7 * Z.of_nat k + 3) mod 10)%Z).
  assert (0 <= z < 10)%Z as [A B] by (apply Z.mod_pos_bound; lia).
  unfold Qdiv, Qle, Qmult, inject_Z, Qinv; simpl. split; lia.
Qed.
Lemma ex_fracs_range n : forall k, Forall (fun u => 0 <= u /\ u <= 9#10) (ex_fracs n k).
Proof. induction n; simpl; constructor; auto. apply ex_frac_range. Qed.

Lemma ex_right_length : right_length ex_oracle.
Proof.
  split; intros r n g l g' H; simpl in H.
  - destruct (ex_fbad r); inversion H. rewrite map_length. apply ex_fracs_length.
  - destruct (ex_ibad r); inversion H. rewrite map_length. apply ex_fracs_length.
Qed.
Lemma ex_in_support : in_support ex_oracle.
Proof.
  split; intros r n g l g' H; simpl in H.
  - destruct (ex_fbad r) eqn:B; inversion H; subst. apply Forall_forall. intros x Hx.
    apply in_map_iff in Hx as (u & <- & Hu). pose proof (ex_fracs_range n g) as R. rewrite Forall_forall in R.
    specialize (R u Hu). destruct r; simpl in *; auto; try (intros); try (split; nra); try lra.
    apply qlt_false in B. split; nra.
  - destruct (ex_ibad r) eqn:B; inversion H; subst. apply Forall_forall. intros x Hx.
    apply in_map_iff in Hx as (u & <- & Hu). pose proof (ex_fracs_range n g) as R. rewrite Forall_forall in R.
    specialize (R u Hu). destruct r; simpl in *; try lia.
    apply Z.leb_gt in B.
    assert (0 <= Qfloor (u * inject_Z (hi - lo)) < hi - lo)%Z.
    { assert (0 < inject_Z (hi - lo)) by (change 0 with (inject_Z 0); rewrite <- Zlt_Qlt; lia).
      split.
      - assert (E : Qfloor (inject_Z 0) = 0%Z) by apply Qfloor_Z. rewrite <- E. apply Qfloor_resp_le.
        change (inject_Z 0) with 0. nra.
      - rewrite Zlt_Qlt. eapply Qle_lt_trans; [apply Qfloor_le|]. nra. }
    lia.
Qed.
