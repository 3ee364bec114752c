(** Properties C09-C11 and C34: picking a component, splitting work. *)
From Verif Require Import Base M_Weights SpecWeights P_Weights M_Pick P_Pick.
Open Scope Q_scope.

(** C09.  Component [i] is picked exactly for draws in the [i]-th consecutive
    interval (the first one closed at 0, the last one also taking the rest of
    [0,1) when the weights fall short of 1). *)
Theorem C09_pick_interval :
  forall ws r i, nonneg ws ->
  (small_pick ws r = Ok i <->
   (i < length ws)%nat /\
   (i = 0%nat \/ total (firstn i ws) < r) /\
   (S i = length ws \/ r <= total (firstn (S i) ws))).
Proof. exact small_pick_ok. Qed.
Print Assumptions C09_pick_interval.

Theorem C09_interval_length :
  forall ws i, (i < length ws)%nat ->
  total (firstn (S i) ws) - total (firstn i ws) == nth i ws 0.
Proof. exact interval_length. Qed.
Print Assumptions C09_interval_length.

(** The intervals cover every draw, each draw belongs to one. *)
Theorem C09_every_draw_picks :
  forall ws r, ws <> [] -> exists i, small_pick ws r = Ok i /\ (i < length ws)%nat.
Proof. exact small_pick_total. Qed.
Print Assumptions C09_every_draw_picks.

Example C09_sat :
  nonneg [1#10; 9#10] /\ small_pick [1#10; 9#10] (1#10) = Ok 0%nat /\
  small_pick [1#10; 9#10] (2#10) = Ok 1%nat.
Proof. repeat split; repeat constructor; discriminate. Qed.

(** C10. *)
Theorem C10_small_large_agree :
  forall ws r, nonneg ws -> ws <> [] -> r <= total ws -> large_pick ws r = small_pick ws r.
Proof. exact picks_agree. Qed.
Print Assumptions C10_small_large_agree.

Example C10_sat : large_pick [1#10; 5#10; 4#10] (3#10) = Ok 1%nat /\ small_pick [1#10; 5#10; 4#10] (3#10) = Ok 1%nat.
Proof. split; vm_compute; reflexivity. Qed.

(** C11.  The large-n path raises exactly for draws above the total weight. *)
Theorem C11_large_pick_fails_iff :
  forall ws r, nonneg ws -> ws <> [] ->
  (large_pick ws r = Err IndexError <-> total ws < r).
Proof. exact large_pick_err. Qed.
Print Assumptions C11_large_pick_fails_iff.

(** Hence it never raises when the weights sum to at least 1. *)
Theorem C11_safe_when_total_ge_1 :
  forall ws r, nonneg ws -> ws <> [] -> 1 <= total ws -> r < 1 ->
  exists i, large_pick ws r = Ok i /\ (i < length ws)%nat.
Proof. exact large_pick_safe. Qed.
Print Assumptions C11_safe_when_total_ge_1.

Theorem C11_never_fails_refuted :
  exists (w : warg) (l : list exv) ws vs r,
    fst (pwv ex_pair ex_na w WNone (VList l) false) = Ok (ws, vs) /\
    0 <= r /\ r < 1 /\ large_pick ws r = Err IndexError.
Proof.
  exists (WList [Num (1#2); Num (992#2000)]), [EV 1; EV 2], [1#2; 992#2000], [EV 1; EV 2], (999#1000).
  repeat split; vm_compute; congruence.
Qed.
Print Assumptions C11_never_fails_refuted.

(** C34. *)
Theorem C34_core_cuts :
  forall n k cuts, (0 <= n)%Z -> (0 < k)%nat -> core_cuts n k = Ok cuts ->
  length cuts = k /\ fold_right Z.add 0%Z cuts = n /\
  Forall (fun c => (0 <= c)%Z) cuts /\
  (forall i, (S i < k)%nat -> nth_error cuts i = Some (n / Z.of_nat k)%Z) /\
  (exists c, nth_error cuts (pred k) = Some c /\ (n / Z.of_nat k <= c < n / Z.of_nat k + Z.of_nat k)%Z).
Proof. exact core_cuts_props. Qed.
Print Assumptions C34_core_cuts.

Theorem C34_core_cuts_total :
  forall n k, (0 < k)%nat -> exists cuts, core_cuts n k = Ok cuts.
Proof. exact core_cuts_ok. Qed.
Print Assumptions C34_core_cuts_total.

Example C34_sat : core_cuts 10 4 = Ok [2; 2; 2; 4]%Z /\ core_cuts 3 5 = Ok [0; 0; 0; 0; 3]%Z.
Proof. split; vm_compute; reflexivity. Qed.
