(** The project's own tests of the formulas of squigglepy/utils.py that use
    logarithms and powers (tests/test_utils.py), run on the model.  A test that rounds
    to [d] digits becomes: the value lies strictly within half a unit of the last
    digit of the expected one. *)
From Coq Require Import String Reals Lra Lia ZArith Qreals.
From Verif Require Import Base M_Weights M_Formulas.
From Verif Require P_PowCmp P_Formulas2.
Open Scope R_scope.

Definition rounds2 (r : res R) (x : R) : Prop := exists v, r = Ok v /\ x - 5/1000 < v < x + 5/1000.
Definition rounds3 (r : res R) (x : R) : Prop := exists v, r = Ok v /\ x - 5/10000 < v < x + 5/10000.
Definition num_of (r : res rnum) : res R := match r with Ok (RFin x) => Ok x | Ok _ => Err Unmodelled | Err e => Err e end.
Definition arg_of (r : res rarg) : res R := match r with Ok (RScalar (RFin x)) => Ok x | Ok _ => Err Unmodelled | Err e => Err e end.

Ltac decide_all := repeat match goal with
  | |- context [Rle_dec ?a ?b] => destruct (Rle_dec a b); try lra
  | |- context [Rlt_dec ?a ?b] => destruct (Rlt_dec a b); try lra
  | |- context [Req_EM_T ?a ?b] => destruct (Req_EM_T a b); try lra
  end.

(** p_to_odds, odds_to_p *)
Example test_p_to_odds : rounds2 (arg_of (p_to_odds (RScalar (RFin (1/10))))) (11/100).
Proof. unfold p_to_odds, odds_of. cbn. decide_all. cbn. eexists; split; [reflexivity|lra]. Qed.
Example test_odds_to_p : rounds2 (arg_of (odds_to_p (RScalar (RFin (1/9))))) (10/100).
Proof. unfold odds_to_p, prob_of. cbn. decide_all. cbn. eexists; split; [reflexivity|lra]. Qed.
Example test_p_to_odds_handles_none : p_to_odds (RScalar RNone) = Ok (RScalar RNone) /\ odds_to_p (RScalar RNone) = Ok (RScalar RNone).
Proof. split; reflexivity. Qed.
Definition rounds2_all (r : res rarg) (l : list R) : Prop :=
  exists vs, r = Ok (RSeq (map RFin vs)) /\ Forall2 (fun v x => x - 5/1000 < v < x + 5/1000) vs l.
Example test_p_to_odds_handles_multiple : rounds2_all (p_to_odds (RSeq (map RFin [1/10; 2/10; 3/10]))) [11/100; 25/100; 43/100].
Proof.
  unfold p_to_odds, odds_of. cbn. decide_all. cbn. exists [1/10/(1-1/10); 2/10/(1-2/10); 3/10/(1-3/10)]. split; [reflexivity|].
  repeat constructor; lra.
Qed.
Example test_odds_to_p_handles_multiple : rounds2_all (odds_to_p (RSeq (map RFin [1/10; 2/10; 3/10]))) [9/100; 17/100; 23/100].
Proof.
  unfold odds_to_p, prob_of. cbn. decide_all. cbn. exists [1/10/(1+1/10); 2/10/(1+2/10); 3/10/(1+3/10)]. split; [reflexivity|].
  repeat constructor; lra.
Qed.

(** laplace *)
Example test_laplace :
  laplace 0 (Some 1%Z) None None false = Ok (1/3) /\ laplace 1 (Some 1%Z) None None false = Ok (2/3) /\
  laplace 3 (Some 2%Z) None None false = Err (ValueError "`s` cannot be greater than `n`").
Proof. repeat split. Qed.
Example test_time_invariant_laplace :
  (exists v, laplace 0 None (Some 2) (Some 2) false = Ok v /\ v = 1/2) /\ (exists v, laplace 1 None (Some 2) (Some 2) true = Ok v /\ v = 3/4) /\
  (exists v, laplace 1 None (Some 2) (Some 2) false = Ok v /\ v = 1/2) /\ (exists v, laplace 2 None (Some 2) (Some 2) false = Ok v /\ v = 3/4) /\
  rounds2 (laplace 1 None (Some 2) None false) (33/100).
Proof.
  unfold rounds2, laplace, laplace_time, power_neg. cbn. decide_all. cbn.
  replace (2 / 2) with 1 by lra. replace (1 + 1) with 2 by lra. replace (1 + 1 / 2) with (3 / 2) by lra.
  split; [|split; [|split; [|split]]]; (eexists; split; [reflexivity|]).
  all: change (Pos.to_nat 1) with 1%nat; change (Pos.to_nat 2) with 2%nat; cbn [pow]; try lra.
Qed.
Example test_laplace_errors :
  laplace 3 None None None false = Err (ValueError "Must define `time_passed` or `n`") /\
  laplace 3 (Some 10%Z) None (Some 1) false = Err (ValueError "Must define `time_passed`") /\
  (exists m, laplace 3 None None (Some 1) false = Err (ValueError m) /\ String.prefix "Must define `time_passed`" m = true).
Proof. split; [reflexivity|split; [reflexivity|]]. eexists. split; reflexivity. Qed.

(** Comparing products of powers of integers: enough to bound sums of logarithms. *)
Fixpoint lsum (l : list (Z * Z)) : R := match l with [] => 0 | (k, p) :: l' => IZR k * ln (IZR p) + lsum l' end.
Fixpoint lprod (l : list (Z * Z)) : Z := match l with [] => 1%Z | (k, p) :: l' => (p ^ k * lprod l')%Z end.
Definition lok (l : list (Z * Z)) : bool := forallb (fun x => (0 <=? fst x)%Z && (0 <? snd x)%Z) l.
Lemma ln_pow' (p : Z) (n : nat) : (0 < p)%Z -> INR n * ln (IZR p) = ln (IZR (p ^ Z.of_nat n)).
Proof.
  intros P. rewrite <- pow_IZR. apply IZR_lt in P. induction n as [|n IH]; [simpl; rewrite ln_1; ring|].
  rewrite S_INR. cbn [pow]. rewrite ln_mult; auto using pow_lt. rewrite <- IH. ring.
Qed.
Lemma lsum_prod l : lok l = true -> (0 < lprod l)%Z /\ lsum l = ln (IZR (lprod l)).
Proof.
  induction l as [|[k p] l IH]; cbn [lok forallb lsum lprod]; intros H; [split; [lia|symmetry; apply ln_1]|].
  apply andb_prop in H as [H HL]. destruct (IH HL) as [P E]. cbn [fst snd] in H. apply andb_prop in H as [K Q].
  apply Z.leb_le in K. apply Z.ltb_lt in Q. assert (0 < p ^ k)%Z by (apply Z.pow_pos_nonneg; lia). split; [nia|].
  rewrite mult_IZR, ln_mult by (apply IZR_lt; lia). rewrite E. f_equal.
  rewrite <- (Z2Nat.id k) at 1 2 by lia. now rewrite <- ln_pow', INR_IZR_INZ.
Qed.
Lemma lsum_lt l m : lok l && lok m && (lprod l <? lprod m)%Z = true -> lsum l < lsum m.
Proof.
  intros H. apply andb_prop in H as [H L]. apply andb_prop in H as [A B]. apply Z.ltb_lt in L.
  destruct (lsum_prod l A) as [P ->], (lsum_prod m B) as [_ ->]. apply ln_increasing; now apply IZR_lt.
Qed.
Lemma ln_num p q : 0 < p -> 0 < q -> ln (p / q) = ln p - ln q.
Proof. intros P Q. unfold Rdiv. rewrite ln_mult; auto using Rinv_0_lt_compat. rewrite ln_Rinv; auto. Qed.
(** [logs l m]: adds the comparison of two sums of logarithms to the context. *)
Ltac logs l m := let H := fresh in assert (H : lsum l < lsum m) by (apply lsum_lt; vm_compute; reflexivity); cbn [lsum] in H.

(** exp of a number between the logarithms of the bounds *)
Lemma between lo hi x : 0 < lo -> 0 < hi -> ln lo < x < ln hi -> lo < exp x < hi.
Proof.
  intros A B [C D]. rewrite <- (exp_ln lo A), <- (exp_ln hi B). split; now apply exp_increasing.
Qed.

(** geomean *)
Definition vals (l : list R) : varg gitem := VList (map (fun v => GVal (RFin v)) l).
Lemma gm w rw a drop ws l :
  fst (pwv g_pair g_na w rw a drop) = Ok (ws, map (fun v => GVal (RFin v)) l) -> Forall (fun v => 0 < v) l ->
  forall t, weight_total ws = t -> t <> 0 -> exists x, weighted_sum ws (map (fun v => RFin (ln v)) l) = RFin x /\ num_of (geomean w rw a drop) = Ok (exp (/ t * x)).
Proof.
  intros E P t T T0. unfold geomean. rewrite E. cbn [bind snd fst].
  assert (M : mapM g_num (map (fun v => GVal (RFin v)) l) = Ok (map RFin l)).
  { clear. induction l as [|v l IH]; cbn; [reflexivity|]. cbn in IH. now rewrite IH. }
  assert (N : mapM np_log (map RFin l) = Ok (map (fun v => RFin (ln v)) l)).
  { clear - P. induction P as [|v l H _ IH]; cbn; [reflexivity|]. destruct (Rlt_dec 0 v); [|lra]. now rewrite IH. }
  assert (W : exists x, weighted_sum ws (map (fun v => RFin (ln v)) l) = RFin x).
  { clear. revert l. induction ws as [|w ws IH]; intros [|v l]; cbn; eauto. destruct (IH l) as [x ->]. cbn. eauto. }
  destruct W as [x W]. exists x. split; auto. rewrite M. cbn [bind]. rewrite N. cbn [bind]. unfold average. rewrite T, W.
  destruct (Req_EM_T t 0); [contradiction|]. reflexivity.
Qed.
Ltac gm_value l ws := match goal with |- rounds2 (num_of (geomean ?w ?rw ?a ?d)) _ =>
  destruct (gm w rw a d ws l) with (t := 1) as (x & X & ->);
  [vm_compute; reflexivity | repeat constructor; lra | cbn; unfold Q2R; cbn; lra | lra | ];
  unfold Q2R in X; cbn in X; injection X as <-; eexists; split; [reflexivity|] end.
Definition five : list R := [1/10; 2/10; 3/10; 4/10; 5/10].
Definition fifths : list Q := [1#5; 1#5; 1#5; 1#5; 1#5]%Q.
Definition fives : list Q := [1#2; 1#10; 1#10; 1#10; 1#5]%Q.
Ltac split_logs := rewrite !ln_num in * by lra; rewrite ?ln_1 in *.
Definition mean_log (l : list R) : R := match l with [a; b; c; d; e] => 1/5 * ln a + 1/5 * ln b + 1/5 * ln c + 1/5 * ln d + 1/5 * ln e | _ => 0 end.
Definition weighted_log (l : list R) : R := match l with [a; b; c; d; e] => 1/2 * ln a + 1/10 * ln b + 1/10 * ln c + 1/10 * ln d + 1/5 * ln e | _ => 0 end.
Lemma plain_mean : 26/100 - 5/1000 < exp (mean_log five) < 26/100 + 5/1000.
Proof.
  unfold mean_log, five. apply between; try lra. replace (26/100 - 5/1000) with (255/1000) by lra. replace (26/100 + 5/1000) with (265/1000) by lra. split_logs.
  logs [(5, 255); (5, 10)]%Z [(1, 1); (1, 2); (1, 3); (1, 4); (1, 5); (5, 1000)]%Z.
  logs [(1, 1); (1, 2); (1, 3); (1, 4); (1, 5); (5, 1000)]%Z [(5, 265); (5, 10)]%Z.
  rewrite ln_1 in *. lra.
Qed.
Lemma weighted_mean : 19/100 - 5/1000 < exp (weighted_log five) < 19/100 + 5/1000.
Proof.
  unfold weighted_log, five. apply between; try lra. replace (19/100 - 5/1000) with (185/1000) by lra. replace (19/100 + 5/1000) with (195/1000) by lra. split_logs.
  logs [(10, 185); (10, 10)]%Z [(5, 1); (1, 2); (1, 3); (1, 4); (2, 5); (10, 1000)]%Z.
  logs [(5, 1); (1, 2); (1, 3); (1, 4); (2, 5); (10, 1000)]%Z [(10, 195); (10, 10)]%Z.
  rewrite ln_1 in *. lra.
Qed.
Ltac same_exp t := match goal with |- _ < exp ?e < _ => replace e with t by (unfold mean_log, weighted_log, five; lra) end.
Ltac plain := gm_value five fifths; same_exp (mean_log five); apply plain_mean.
Ltac weighted ws := gm_value five ws; same_exp (weighted_log five); apply weighted_mean.
Example test_geomean : rounds2 (num_of (geomean WNone WNone (vals five) true)) (26/100).
Proof. plain. Qed.
Example test_geomean_numpy : rounds2 (num_of (geomean WNone WNone (VArray (map (fun v => GVal (RFin v)) five)) true)) (26/100).
Proof. plain. Qed.
Example test_geomean_with_none_value :
  rounds2 (num_of (geomean WNone WNone (VList (map GVal [RFin (1/10); RFin (2/10); RNone; RFin (3/10); RFin (4/10); RNone; RFin (5/10)])) true)) (26/100).
Proof. plain. Qed.
Definition half_first : warg := WList (map Num fives).
Example test_weighted_geomean : rounds2 (num_of (geomean half_first WNone (vals five) true)) (19/100).
Proof. weighted fives. Qed.
Example test_relative_weighted_geomean : rounds2 (num_of (geomean WNone (WList (map Num [5; 1; 1; 1; 2]%Q)) (vals five) true)) (19/100).
Proof.
  weighted [5#10; 1#10; 1#10; 1#10; 2#10]%Q.
Qed.
Definition pairs (l : list R) : varg gitem := VList (map (fun p => GPair (Num (fst p)) (RFin (snd p))) (combine fives l)).
Definition dict (l : list R) : varg gitem := VDict (map (fun p => (GVal (RFin (snd p)), Num (fst p))) (combine fives l)).
Example test_weighted_geomean_alt_format : rounds2 (num_of (geomean WNone WNone (pairs five) true)) (19/100).
Proof. weighted fives. Qed.
Example test_weighted_geomean_alt2_format : rounds2 (num_of (geomean WNone WNone (dict five) true)) (19/100).
Proof. weighted fives. Qed.
Example test_weighted_geomean_errors_with_none_value :
  geomean WNone WNone (VDict [(GVal (RFin (1/10)), Num (1#2)); (GVal (RFin (2/10)), Num (1#10)); (GVal (RFin (3/10)), NA); (GVal (RFin (4/10)), Num (1#10)); (GVal (RFin (5/10)), Num (1#5))]) true
    = Err (ValueError "cannot handle NA-like values in weights") /\
  geomean WNone WNone (VList [GPair (Num (1#2)) (RFin (1/10)); GPair (Num (1#10)) RNone; GPair (Num (1#10)) (RFin (3/10)); GPair (Num (1#10)) (RFin (4/10)); GPair (Num (1#5)) (RFin (5/10))]) true
    = Err (ValueError "cannot drop NA and process weights").
Proof. split; reflexivity. Qed.

(** geomean_odds *)
Definition five_odds : list R := map (fun p => p / (1 - p)) five.
Lemma odds_five : p_to_odds (RSeq (map RFin five)) = Ok (RSeq (map RFin five_odds)).
Proof. unfold p_to_odds, odds_of. cbn. decide_all. reflexivity. Qed.
Lemma gmo w rw a drop ws g x :
  fst (pwv g_pair g_na w rw a drop) = Ok (ws, map (fun v => GVal (RFin v)) five) ->
  num_of (geomean (WList (map Num ws)) WNone (VArray (map GVal (map RFin five_odds))) true) = Ok g ->
  0 < g -> x - 5/1000 < g / (1 + g) < x + 5/1000 -> rounds2 (arg_of (geomean_odds w rw a drop)) x.
Proof.
  intros E G P B. unfold geomean_odds. rewrite E. cbn [bind snd fst].
  change (mapM g_num (map (fun v => GVal (RFin v)) five)) with (Ok (map RFin five)). cbn [bind]. rewrite odds_five. cbn [bind].
  destruct (geomean (WList (map Num ws)) WNone _ true) as [[r| | | |]|]; cbn in G; try discriminate. injection G as ->.
  cbn [bind]. unfold odds_to_p, prob_of. cbn. decide_all. cbn. eexists. split; [reflexivity|exact B].
Qed.
Lemma odds_range g lo hi : 0 < lo -> lo < 1 -> hi < 1 -> lo / (1 - lo) < g < hi / (1 - hi) -> lo < g / (1 + g) < hi.
Proof.
  intros A B C [D E]. assert (0 < g) by (apply Rlt_trans with (lo / (1 - lo)); auto; apply Rdiv_lt_0_compat; lra).
  apply Rmult_lt_compat_r with (r := 1 - lo) in D; [|lra]. apply Rmult_lt_compat_r with (r := 1 - hi) in E; [|lra].
  replace (lo / (1 - lo) * (1 - lo)) with lo in D by (field; lra). replace (hi / (1 - hi) * (1 - hi)) with hi in E by (field; lra).
  split; (apply Rmult_lt_reg_r with (1 + g); [lra|]); replace (g / (1 + g) * (1 + g)) with g by (field; lra); nra.
Qed.
Lemma odds_mean : num_of (geomean (WList (map Num fifths)) WNone (VArray (map GVal (map RFin five_odds))) true) = Ok (exp (mean_log five_odds)).
Proof.
  destruct (gm (WList (map Num fifths)) WNone (VArray (map GVal (map RFin five_odds))) true fifths five_odds) with (t := 1) as (x & X & ->);
  [vm_compute; reflexivity | repeat constructor; lra | cbn; unfold Q2R; cbn; lra | lra | ].
  unfold Q2R in X. cbn in X. injection X as <-. do 2 f_equal. unfold Q2R. cbn [Qnum Qden]. cbn. lra.
Qed.
Lemma odds_weighted ws : ws = fives \/ ws = [5#10; 1#10; 1#10; 1#10; 2#10]%Q ->
  num_of (geomean (WList (map Num ws)) WNone (VArray (map GVal (map RFin five_odds))) true) = Ok (exp (weighted_log five_odds)).
Proof.
  intros W. destruct (gm (WList (map Num ws)) WNone (VArray (map GVal (map RFin five_odds))) true ws five_odds) with (t := 1) as (x & X & ->);
  [destruct W as [-> | ->]; vm_compute; reflexivity | repeat constructor; lra | destruct W as [-> | ->]; cbn; unfold Q2R; cbn; lra | lra | ].
  destruct W as [-> | ->]; unfold Q2R in X; cbn in X; injection X as <-; do 2 f_equal; unfold Q2R; cbn [Qnum Qden]; cbn; lra.
Qed.
Lemma five_odds_are : five_odds = [1/9; 1/4; 3/7; 2/3; 1/1].
Proof. unfold five_odds, five. cbn [map]. repeat (apply f_equal2; [lra|]). reflexivity. Qed.
Lemma odds_mean_range : 28/100 - 5/1000 < exp (mean_log five_odds) / (1 + exp (mean_log five_odds)) < 28/100 + 5/1000.
Proof.
  apply odds_range; try lra. rewrite five_odds_are. unfold mean_log.
  replace ((28/100 - 5/1000) / (1 - (28/100 - 5/1000))) with (11/29) by lra. replace ((28/100 + 5/1000) / (1 - (28/100 + 5/1000))) with (57/143) by lra.
  apply between; try lra. split_logs.
  logs [(5, 11); (1, 9); (1, 4); (1, 7); (1, 3)]%Z [(5, 29); (1, 3); (1, 2)]%Z.
  logs [(5, 143); (1, 3); (1, 2)]%Z [(5, 57); (1, 9); (1, 4); (1, 7); (1, 3)]%Z.
  lra.
Qed.
Lemma odds_weighted_range : 20/100 - 5/1000 < exp (weighted_log five_odds) / (1 + exp (weighted_log five_odds)) < 20/100 + 5/1000.
Proof.
  apply odds_range; try lra. rewrite five_odds_are. unfold weighted_log.
  replace ((20/100 - 5/1000) / (1 - (20/100 - 5/1000))) with (39/161) by lra. replace ((20/100 + 5/1000) / (1 - (20/100 + 5/1000))) with (41/159) by lra.
  apply between; try lra. split_logs.
  logs [(10, 39); (5, 9); (1, 4); (1, 7); (1, 3)]%Z [(10, 161); (1, 3); (1, 2)]%Z.
  logs [(10, 159); (1, 3); (1, 2)]%Z [(10, 41); (5, 9); (1, 4); (1, 7); (1, 3)]%Z.
  lra.
Qed.
Example test_geomean_odds : rounds2 (arg_of (geomean_odds WNone WNone (vals five) true)) (28/100).
Proof. eapply (gmo _ _ _ _ fifths); [vm_compute; reflexivity|apply odds_mean|apply exp_pos|apply odds_mean_range]. Qed.
Example test_geomean_odds_numpy : rounds2 (arg_of (geomean_odds WNone WNone (VArray (map (fun v => GVal (RFin v)) five)) true)) (28/100).
Proof. eapply (gmo _ _ _ _ fifths); [vm_compute; reflexivity|apply odds_mean|apply exp_pos|apply odds_mean_range]. Qed.
Example test_weighted_geomean_odds : rounds2 (arg_of (geomean_odds half_first WNone (vals five) true)) (20/100).
Proof. eapply (gmo _ _ _ _ fives); [vm_compute; reflexivity|apply odds_weighted; auto|apply exp_pos|apply odds_weighted_range]. Qed.
Example test_weighted_geomean_odds_alt_format : rounds2 (arg_of (geomean_odds WNone WNone (pairs five) true)) (20/100).
Proof. eapply (gmo _ _ _ _ fives); [vm_compute; reflexivity|apply odds_weighted; auto|apply exp_pos|apply odds_weighted_range]. Qed.
Example test_weighted_geomean_odds_alt2_format : rounds2 (arg_of (geomean_odds WNone WNone (dict five) true)) (20/100).
Proof. eapply (gmo _ _ _ _ fives); [vm_compute; reflexivity|apply odds_weighted; auto|apply exp_pos|apply odds_weighted_range]. Qed.

(** growth rates and doubling times *)
Lemma ratio_between a b lo hi : 0 < b -> lo * b < a < hi * b -> lo < a / b < hi.
Proof.
  intros B [C D]. split; (apply Rmult_lt_reg_r with b; [auto|]); replace (a / b * b) with a by (field; lra); lra.
Qed.
Lemma growth_value g lo hi : 0 < g -> lo * ln (1 + g) < ln 2 < hi * ln (1 + g) ->
  exists v, growth_rate_to_doubling_time g = Ok v /\ growth_rates_to_doubling_times [g] = [RFin v] /\ lo < v < hi.
Proof.
  intros G B. assert (0 < ln (1 + g)) by (rewrite <- ln_1; apply ln_increasing; lra).
  unfold growth_rate_to_doubling_time, growth_rates_to_doubling_times, ln2_over, array_log. cbn [map]. decide_all.
  eexists. split; [reflexivity|split; [reflexivity|]]. now apply ratio_between.
Qed.
Lemma ln_below a n b m c : (0 < a)%Z -> (0 < b)%Z -> (0 < c)%Z -> P_PowCmp.below a n b m c = true -> INR n * ln (IZR a) < INR m * ln (IZR b) + INR n * ln (IZR c).
Proof.
  intros A B C H. apply P_PowCmp.below_sound in H; try lia. rewrite !ln_pow' by auto.
  rewrite <- ln_mult by (apply IZR_lt; apply Z.pow_pos_nonneg; lia). rewrite <- mult_IZR. apply ln_increasing; [|now apply IZR_lt].
  apply IZR_lt. apply Z.pow_pos_nonneg; lia.
Qed.
Lemma ln_above a n b m c : (0 < a)%Z -> (0 < b)%Z -> (0 < c)%Z -> P_PowCmp.above a n b m c = true -> INR m * ln (IZR b) + INR n * ln (IZR c) < INR n * ln (IZR a).
Proof.
  intros A B C H. apply P_PowCmp.above_sound in H; try lia. rewrite !ln_pow' by auto.
  rewrite <- ln_mult by (apply IZR_lt; apply Z.pow_pos_nonneg; lia). rewrite <- mult_IZR. apply ln_increasing; [|now apply IZR_lt].
  apply IZR_lt. apply Z.mul_pos_pos; apply Z.pow_pos_nonneg; lia.
Qed.
(** Both the number form and the array form (test_growth_rate_to_doubling_time_float and _nparray). *)
Definition doubles g x := exists v, growth_rate_to_doubling_time g = Ok v /\ growth_rates_to_doubling_times [g] = [RFin v] /\ x - 5/1000 < v < x + 5/1000.
Example test_growth_rate_to_doubling_time : doubles (1/100) (6966/100) /\ doubles (1/2) (171/100) /\ doubles 1 1.
Proof.
  split; [|split]; apply growth_value; try lra.
  - replace (1 + 1/100) with (101/100) by lra. split_logs.
    pose proof (ln_below 101 (Z.to_nat 69655) 2 (Z.to_nat 1000) 100 eq_refl eq_refl eq_refl ltac:(vm_compute; reflexivity)) as A.
    pose proof (ln_above 101 (Z.to_nat 69665) 2 (Z.to_nat 1000) 100 eq_refl eq_refl eq_refl ltac:(vm_compute; reflexivity)) as B.
    rewrite !INR_IZR_INZ, !Z2Nat.id in A, B by lia. lra.
  - replace (1 + 1/2) with (3/2) by lra. split_logs.
    logs [(1705, 3)]%Z [(2705, 2)]%Z. logs [(2715, 2)]%Z [(1715, 3)]%Z. lra.
  - replace (1 + 1) with 2 by lra. assert (0 < ln 2) by (rewrite <- ln_1; apply ln_increasing; lra). lra.
Qed.
Definition grows t x := exists v, doubling_time_to_growth_rate t = Ok v /\ doubling_times_to_growth_rates [t] = [RFin v] /\ x - 5/1000 < v < x + 5/1000.
Lemma doubling_value t lo hi : 0 < t -> -1 < lo -> -1 < hi -> t * ln (1 + lo) < ln 2 < t * ln (1 + hi) ->
  exists v, doubling_time_to_growth_rate t = Ok v /\ doubling_times_to_growth_rates [t] = [RFin v] /\ lo < v < hi.
Proof.
  intros T L H [A B]. unfold doubling_time_to_growth_rate, doubling_times_to_growth_rates, ln2_over, array_exp_minus_1. cbn [map]. decide_all.
  eexists. split; [reflexivity|split; [reflexivity|]]. cut (1 + lo < exp (ln 2 / t) < 1 + hi); [lra|]. apply between; try lra.
  apply ratio_between; auto. lra.
Qed.
Example test_doubling_time_to_growth_rate : grows 12 (6/100) /\ grows (11/2) (13/100) /\ grows 1 1.
Proof.
  split; [|split]; apply doubling_value; try lra.
  - replace (1 + (6/100 - 5/1000)) with (1055/1000) by lra. replace (1 + (6/100 + 5/1000)) with (1065/1000) by lra. split_logs.
    logs [(12, 1055)]%Z [(12, 1000); (1, 2)]%Z. logs [(12, 1000); (1, 2)]%Z [(12, 1065)]%Z. lra.
  - replace (1 + (13/100 - 5/1000)) with (1125/1000) by lra. replace (1 + (13/100 + 5/1000)) with (1135/1000) by lra. split_logs.
    logs [(11, 1125)]%Z [(11, 1000); (2, 2)]%Z. logs [(11, 1000); (2, 2)]%Z [(11, 1135)]%Z. lra.
  - replace (1 + (1 - 5/1000)) with (1995/1000) by lra. replace (1 + (1 + 5/1000)) with (2005/1000) by lra. split_logs.
    logs [(1, 1995)]%Z [(1, 1000); (1, 2)]%Z. logs [(1, 1000); (1, 2)]%Z [(1, 2005)]%Z. lra.
Qed.

(** extremize *)
Lemma power_between p e lo hi : 0 < lo -> 0 < hi -> ln lo < e * ln p < ln hi -> lo < Rpower p e < hi.
Proof. intros. unfold Rpower. now apply between. Qed.
Example test_extremize :
  rounds3 (extremize (7/10) 1) (700/1000) /\ rounds3 (extremize (7/10) (173/100)) (875/1000) /\ rounds3 (extremize (2/10) (173/100)) (62/1000).
Proof.
  unfold rounds3, extremize. decide_all. split; [|split]; (eexists; split; [reflexivity|]).
  - rewrite Rpower_1; lra.
  - replace (1 - 7/10) with (3/10) by lra. cut (1245/10000 < Rpower (3/10) (173/100) < 1255/10000); [lra|]. apply power_between; try lra. split_logs.
    logs [(100, 1245); (173, 10)]%Z [(173, 3); (100, 10000)]%Z. logs [(173, 3); (100, 10000)]%Z [(100, 1255); (173, 10)]%Z. lra.
  - cut (615/10000 < Rpower (2/10) (173/100) < 625/10000); [lra|]. apply power_between; try lra. split_logs.
    logs [(100, 615); (173, 10)]%Z [(173, 2); (100, 10000)]%Z. logs [(173, 2); (100, 10000)]%Z [(100, 625); (173, 10)]%Z. lra.
Qed.
Example test_extremize_out_of_bounds : forall p, In p [-1; 0; 1; 2] -> extremize p (173/100) = Err (ValueError "`p` must be greater than 0 and less than 1").
Proof. intros p H. cbn in H. unfold extremize. destruct H as [<-|[<-|[<-|[<-|[]]]]]; decide_all; reflexivity. Qed.

(** sharpe_ratio *)
Example test_sharpe_ratio : exists v, sharpe_ratio [4/100; -3/100; 5/100; 2/100; 3/100] 0 = RFin v /\ 78975/100000 < v < 78985/100000.
Proof.
  unfold sharpe_ratio, np_std. set (m := np_mean [4/100; -3/100; 5/100; 2/100; 3/100]).
  assert (M : m = 22/1000) by (unfold m, np_mean; cbn; lra). rewrite M. cbn [map].
  set (d := np_mean _). assert (D : d = 776/1000000) by (unfold d, np_mean, Rsqr; cbn; lra). rewrite D.
  assert (S : 0 < sqrt (776/1000000)) by (apply sqrt_lt_R0; lra). destruct (Req_EM_T _ 0); [lra|].
  eexists. split; [reflexivity|]. assert (Q : sqrt (776/1000000) * sqrt (776/1000000) = 776/1000000) by (apply sqrt_sqrt; lra).
  apply ratio_between; auto. split; nra.
Qed.
