(** The README's mammography net: how rare answers below 1/20 and above 1/10 are (C206). *)
From Coq Require Import ZArith Lia Lqa.
From Verif Require Import Base SpecShare SpecBayes SpecReadme P_Chernoff P_Readme P_Tilt.
From Verif Require Import SpecProgram SpecLarge SpecChernoff SpecTilt.
Open Scope Q_scope.

Lemma halves k : npow (3999#4000) (4000 * k) <= npow (1#2) k.
Proof.
  rewrite npow_mul. apply npow_le; [apply npow_nonneg; lra|].
  assert (E : npow (3999#4000) 4000 == / npow (1 + (1#3999)) 4000) by (rewrite <- npow_inv by lra; apply npow_same; reflexivity).
  rewrite E. pose proof (bernoulli_up (1#3999) 4000 ltac:(lra)) as B.
  assert (Two : 2 <= npow (1 + (1#3999)) 4000) by (eapply Qle_trans; [|exact B]; vm_compute; discriminate).
  revert Two. generalize (npow (1 + (1#3999)) 4000). intros z Z. setoid_replace (1#2) with (1 / 2) by reflexivity.
  setoid_replace (/ z) with (1 / z) by (unfold Qdiv; ring). apply Qle_shift_div_r; [lra|]. unfold Qdiv. change (/ 2) with (1#2). lra.
Qed.
Notation net := (mammography (1#100) (8#10) (96#1000)).
Lemma net_fits : fits net 2 4.
Proof. apply mammography_fits; lra. Qed.
Lemma mammography_rare k :
  chance (repeated (4000 * k) net) (at_least 1 10 fst snd) <= npow (1#2) k /\
  chance (repeated (4000 * k) net) (at_most 1 20 fst snd) <= npow (1#2) k.
Proof.
  split; (eapply Qle_trans; [|apply halves]).
  - eapply Qle_trans; [apply (above_tilt _ net fst snd 2 4 net_fits 1 10 (103#100)); [lia|lra]|]. apply npow_le; vm_compute; discriminate.
  - eapply Qle_trans; [apply (below_tilt _ net fst snd 2 4 net_fits 1 20 (97#100)); [lia|lra]|]. apply npow_le; vm_compute; discriminate.
Qed.
