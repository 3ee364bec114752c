(** The project's own tests of squigglepy/utils.py (tests/test_utils.py), run on the
    model: what they expect of deterministic functions is what the model computes.
    These are checks of the model, not proofs about it. *)
From Coq Require Import Ascii String Lia.
From Verif Require Import Base M_Weights M_Pick M_Values M_Ops M_Percentiles M_LogPercentiles M_Buckets M_OneIn M_Kelly M_Date.
From Verif Require P_PowCmp.
Open Scope Q_scope.

(** Values in the weight tests: numbers, None, two-element lists. *)
Inductive tval : Type := TNum (q : Q) | TNone | TPair (c : cell) (v : tval).
Definition t_pair (v : tval) : option (cell * tval) := match v with TPair c x => Some (c, x) | _ => None end.
Definition t_na (v : tval) : bool := match v with TNone => true | _ => false end.
Definition t_eqb (a b : tval) : bool :=
  match a, b with TNum p, TNum q => Qeq_bool p q | TNone, TNone => true | _, _ => false end.
Fixpoint all2 {A B} (f : A -> B -> bool) (l : list A) (m : list B) : bool :=
  match l, m with [], [] => true | x :: l', y :: m' => f x y && all2 f l' m' | _, _ => false end.
Definition weighs (r : res (list Q * list tval)) (ws : list Q) (vs : list tval) : bool :=
  match r with Ok (a, b) => all2 Qeq_bool a ws && all2 t_eqb b vs | Err _ => false end.
Definition raises {A} (r : res A) (msg : string) : bool := match r with Err (ValueError s) => String.eqb s msg | _ => false end.
Definition weights (w rw : warg) (v : varg tval) (drop : bool) := fst (pwv t_pair t_na w rw v drop).
Definition nums := map TNum.

Example test_process_weights_values :
  forallb (fun b => b)
  [weighs (weights (WList [Num (1#10); Num (9#10)]) WNone (VList (nums [2; 3])) false) [1#10; 9#10] (nums [2; 3]);
   weighs (weights (WArray [Num (1#10); Num (9#10)]) WNone (VArray (nums [2; 3])) false) [1#10; 9#10] (nums [2; 3]);
   weighs (weights (WList [Num 1]) WNone (VList (nums [2])) false) [1] (nums [2]);
   weighs (weights WNone WNone (VList [TPair (Num (1#10)) (TNum 2); TPair (Num (2#10)) (TNum 3); TPair (Num (3#10)) (TNum 4); TPair (Num (4#10)) (TNum 5)]) false)
     [1#10; 2#10; 3#10; 4#10] (nums [2; 3; 4; 5]);
   weighs (weights WNone WNone (VDict [(TNum 2, Num (1#10)); (TNum 3, Num (2#10)); (TNum 4, Num (3#10)); (TNum 5, Num (4#10))]) false)
     [1#10; 2#10; 3#10; 4#10] (nums [2; 3; 4; 5]);
   raises (weights (WList [Num (1#10); Num (2#10); Num (3#10); Num (4#10)]) WNone
     (VDict [(TNum 2, Num (1#10)); (TNum 3, Num (2#10)); (TNum 4, Num (3#10)); (TNum 5, Num (4#10))]) false) "cannot pass dict and weights separately";
   weighs (weights (WList [Num (9#10)]) WNone (VList (nums [2; 3])) false) [9#10; 1#10] (nums [2; 3]);
   weighs (weights (WScalar (Num (9#10))) WNone (VList (nums [2; 3])) false) [9#10; 1#10] (nums [2; 3]);
   weighs (weights WNone WNone (VList (nums [2; 3])) false) [1#2; 1#2] (nums [2; 3]);
   weighs (weights WNone (WList [Num 1; Num 3]) (VList (nums [2; 3])) false) [1#4; 3#4] (nums [2; 3]);
   weighs (weights WNone WNone (VList (nums [2; 3; 4; 5])) false) [1#4; 1#4; 1#4; 1#4] (nums [2; 3; 4; 5]);
   raises (weights WNonIter WNone (VList (nums [2; 3])) false) "passed weights must be an iterable";
   raises (weights (WList [Num (1#10); Num (9#10)]) WNone VNonIter false) "passed values must be an iterable";
   raises (weights (WList [Num (2#10); Num (9#10)]) WNone (VList (nums [2; 3])) false) "weights don't sum to 1";
   raises (weights (WList [Num (1#10); Num (9#10)]) WNone (VList (nums [2; 3; 4])) false) "weights and values not same length";
   raises (weights (WList [Num (-1#10); Num (2#10); Num (9#10)]) WNone (VList (nums [2; 3; 4])) false) "weight cannot be negative";
   weighs (weights (WList [Num 0; Num (3#10); Num 0; Num (7#10); Num 0]) WNone (VList (nums [1; 2; 3; 4; 5])) false) [3#10; 7#10] (nums [2; 4]);
   weighs (weights WNone WNone (VList [TNum 1; TNone; TNum 3; TNum 4; TNum 5]) false) [1#5; 1#5; 1#5; 1#5; 1#5] [TNum 1; TNone; TNum 3; TNum 4; TNum 5];
   weighs (weights WNone WNone (VList [TNum 1; TNone; TNum 3; TNum 4; TNum 5]) true) [1#4; 1#4; 1#4; 1#4] (nums [1; 3; 4; 5]);
   raises (weights (WList (repeat (Num (1#5)) 5)) WNone (VList [TNum 1; TNone; TNum 3; TNum 4; TNum 5]) true) "cannot drop NA and process weights";
   raises (weights WNone (WList (repeat (Num 1) 5)) (VList [TNum 1; TNone; TNum 3; TNum 4; TNum 5]) true) "cannot drop NA and process weights"] = true.
Proof. vm_compute. reflexivity. Qed.

Definition is_pair (v : tval) : bool := match v with TPair _ _ => true | _ => false end.
Example test_process_discrete_weights_values :
  weighs (pdwv t_pair t_na t_eqb (forallb (fun v => negb (is_pair v))) is_pair [TPair (Num (1#10)) (TNum 2); TPair (Num (9#10)) (TNum 3)]) [1#10; 9#10] (nums [2; 3]) = true /\
  weighs (pdwv t_pair t_na t_eqb (forallb (fun v => negb (is_pair v))) is_pair (map (fun x => TNum (inject_Z (Z.of_nat (Nat.modulo x 10)) / 10)) (seq 0 1000)))
    (repeat (1#10) 10) (map (fun k => TNum (k # 10)) [0; 1; 2; 3; 4; 5; 6; 7; 8; 9]%Z) = true.
Proof. split; vm_compute; reflexivity. Qed.

Example test_normalize : match normalize [1#10; 4#10] with Ok l => all2 Qeq_bool l [2#10; 8#10] | Err _ => false end = true.
Proof. vm_compute. reflexivity. Qed.

Example test_one_in :
  one_in_text (1#10) (Some 0%Z) = Ok "1 in 10"%string /\ one_in_text (2#100) (Some 0%Z) = Ok "1 in 50"%string /\
  one_in_text (2#100000) (Some 0%Z) = Ok "1 in 50,000"%string /\ one_in_text (1415#10000) (Some 0%Z) = Ok "1 in 7"%string /\
  one_in_text (1415#10000) (Some 1%Z) = Ok "1 in 7.1"%string /\ one_in_text (1415#10000) (Some 2%Z) = Ok "1 in 7.07"%string /\
  one_in_text (1415#10000) (Some 3%Z) = Ok "1 in 7.067"%string /\
  match one_in_num (1415#10000) (Some 3%Z) with Ok (OFlt q) => Qeq_bool q (7067#1000) | _ => false end = true.
Proof. repeat split; vm_compute; reflexivity. Qed.

(** ** Percentiles *)
Definition upto (k : nat) : list Q := map (fun i => inject_Z (Z.of_nat i)) (seq 1 k).
Definition below (k : nat) : list Q := map (fun i => inject_Z (Z.of_nat i)) (seq 0 k).
(** The data of the tests are in order already. *)
Definition in_place (l : list Q) : list nat := seq 0 (length l).
Definition percentiles_are (r : res pout) (d : list (Q * Q)) : bool :=
  match r with Ok (Dict e) => all2 (fun a b => Qeq_bool (fst a) (fst b) && Qeq_bool (snd a) (snd b)) e d | _ => false end.
Definition percentile_is (r : res pout) (v : Q) : bool := match r with Ok (One w) => Qeq_bool w v | _ => false end.
Definition usual : list Q := [1; 5; 10; 20; 30; 40; 50; 60; 70; 80; 90; 95; 99].

Example test_get_percentiles :
  forallb (fun b => b)
  [percentiles_are (get_percentiles in_place (upto 900) (PList usual) None false None)
     (combine usual [999#100; 4595#100; 909#10; 1808#10; 2707#10; 3606#10; 4505#10; 5404#10; 6303#10; 7202#10; 8101#10; 85505#100; 89101#100]);
   percentiles_are (get_percentiles in_place (upto 900) (PList [20; 80]) None false None) [(20, 1808#10); (80, 7202#10)];
   percentiles_are (get_percentiles in_place (upto 900) (PList [25; 75]) None false None) [(25, 22575#100); (75, 67525#100)];
   percentiles_are (get_percentiles in_place (upto 900) (PList [20; 80]) None true None) [(80, 1808#10); (20, 7202#10)];
   percentiles_are (get_percentiles in_place (upto 900) (PList [25; 75]) None false (Some 1%Z)) [(25, 2258#10); (75, 6752#10)];
   percentile_is (get_percentiles in_place (upto 900) (PList [25]) None false (Some 1%Z)) (2258#10);
   percentile_is (get_percentiles in_place (upto 900) (POne 25) None false (Some 1%Z)) (2258#10);
   percentiles_are (get_percentiles in_place (upto 900) (PList [25; 75]) None false (Some 0%Z)) [(25, 226); (75, 675)];
   percentiles_are (get_percentiles in_place (upto 900) (PList [25; 75]) None false (Some (-1)%Z)) [(25, 230); (75, 680)]] = true.
Proof. vm_compute. reflexivity. Qed.
Example test_weighted_percentile :
  forallb (fun b => b)
  [match weighted_percentile in_place (upto 900) (repeat 1 900) [25; 75] with Ok l => all2 Qeq_bool l [2255#10; 6755#10] | _ => false end;
   match weighted_percentile in_place (upto 900) (below 900) [25; 75] with
   | Ok l => all2 Qeq_bool (map (fun x => np_round x 1) l) [4507#10; 780] | _ => false end;
   raises (weighted_percentile in_place [1; 2; 3] [1; 2] [1; 2; 3]) "Data and weights must be of the same length";
   percentiles_are (get_percentiles in_place (upto 900) (PList usual) (Some (below 900)) false (Some (-1)%Z))
     (combine usual [90; 200; 290; 400; 490; 570; 640; 700; 750; 810; 850; 880; 900]);
   raises (get_percentiles in_place (upto 900) (PList usual) (Some (below 800)) false (Some (-1)%Z)) "Data and weights must be of the same length"] = true.
Proof. vm_compute. reflexivity. Qed.

(** [written v m e]: the text of [v] with one digit after the point is m/10 e+[e]. *)
Definition written (t : Q * Z) (m : Z) (e : Z) : bool := Z.eqb (round_half_even (fst t / pow10 (e - 1))) m && Z.eqb (snd t) 1.
Definition texts_are (r : res lout) (l : list (Q * (Z * Z))) : bool :=
  match r with Ok (LTexts d) => all2 (fun a b => Qeq_bool (fst a) (fst b) && written (snd a) (fst (snd b)) (snd (snd b))) d l | _ => false end.
Definition tens : list Q := map (fun k => pow10 (Z.of_nat k)) (seq 1 9).
Example test_get_log_percentiles :
  texts_are (get_log_percentiles in_place (fun _ x => x) tens (PList usual) None false true (Some 1%Z))
    (combine usual [(17, 1); (46, 1); (82, 1); (64, 2); (46, 3); (28, 4); (10, 5); (82, 5); (64, 6); (46, 7); (28, 8); (64, 8); (93, 8)]%Z) = true /\
  texts_are (get_log_percentiles in_place (fun _ x => x) tens (PList [20; 80]) None true true (Some 1%Z)) [(80, (64%Z, 2%Z)); (20, (46%Z, 7%Z))] = true /\
  texts_are (get_log_percentiles in_place (fun _ x => x) tens (PList usual) (Some (below 9)) false true (Some 1%Z))
    (combine usual [(75, 1); (88, 2); (68, 3); (79, 4); (66, 5); (41, 6); (10, 7); (60, 7); (18, 8); (62, 8); (10, 9); (10, 9); (10, 9)]%Z) = true.
Proof. repeat split; vm_compute; reflexivity. Qed.

Definition mean_is (r : res mean_ci) (m l h : Q) : bool :=
  match r with Ok x => Qeq_bool (mc_mean x) m && Qeq_bool (mc_low x) l && Qeq_bool (mc_high x) h | _ => false end.
Definition median_is (r : res median_ci) (m l h : Q) : bool :=
  match r with Ok x => Qeq_bool (md_median x) m && Qeq_bool (md_low x) l && Qeq_bool (md_high x) h | _ => false end.
Example test_get_mean_and_ci :
  forallb (fun b => b)
  [mean_is (get_mean_and_ci in_place (upto 900) 90 None (Some 1%Z)) (4505#10) 46 855;
   mean_is (get_mean_and_ci in_place [1; 2; 6] 90 None (Some 1%Z)) 3 (11#10) (56#10);
   mean_is (get_mean_and_ci in_place (upto 900) 80 None (Some 1%Z)) (4505#10) (909#10) (8101#10);
   mean_is (get_mean_and_ci in_place (upto 900) 90 (Some (below 900)) (Some 1%Z)) (4505#10) (2021#10) (8777#10);
   median_is (get_median_and_ci in_place (upto 900) 90 None (Some 1%Z)) (4505#10) 46 855;
   median_is (get_median_and_ci in_place [1; 2; 6] 90 None (Some 1%Z)) 2 (11#10) (56#10);
   median_is (get_median_and_ci in_place (upto 900) 80 None (Some 1%Z)) (4505#10) (909#10) (8101#10);
   median_is (get_median_and_ci in_place (upto 900) 90 (Some (below 900)) (Some 1%Z)) 637 (2021#10) (8777#10)] = true.
Proof. vm_compute. reflexivity. Qed.

(** ** Kelly *)
Definition no_power (x : Q) (d : Z) : Q := 0.
Definition kelly_is (r : res kelly_result) (l : list Q) : bool :=
  match r with
  | Ok k => all2 Qeq_bool [k_my_price k; k_market_price k; k_deference k; k_adj_price k; k_delta_price k; k_adj_delta_price k; k_kelly k;
                           k_target k; k_current k; k_delta k; k_max_gain k; k_modeled_gain k; k_expected_roi k] l
  | Err _ => false
  end.
Example test_kelly :
  forallb (fun b => b)
  [forallb (fun v => raises (kelly no_power (99#100) v 0 1 NoDate 0 true) "market_price must be >0 and <1") [0; 1; 2; -1];
   forallb (fun v => raises (kelly no_power v (99#100) 0 1 NoDate 0 true) "my_price must be >0 and <1") [0; 1; 2; -1];
   forallb (fun v => raises (kelly no_power (1#100) (99#100) v 1 NoDate 0 true) "deference must be >=0 and <=1") [-1; 2];
   raises (kelly no_power (1#10) (2#10) 0 1 NoDate 0 true) "Your odds are below the market price.";
   is_ok (kelly no_power (1#10) (2#10) 0 1 NoDate 0 false);
   kelly_is (kelly no_power (99#100) (1#100) 0 1 NoDate 0 true)
     [99#100; 1#100; 0; 99#100; 98#100; 98#100; 99#100; 99#100; 0; 99#100; 98; 9701#100; 98];
   kelly_is (full_kelly no_power (99#100) (1#100) 1 NoDate 0 true)
     [99#100; 1#100; 0; 99#100; 98#100; 98#100; 99#100; 99#100; 0; 99#100; 98; 9701#100; 98];
   kelly_is (half_kelly no_power (99#100) (1#100) 1 NoDate 0 true)
     [99#100; 1#100; 1#2; 1#2; 98#100; 49#100; 495#1000; 49#100; 0; 49#100; 49; 2425#100; 49];
   kelly_is (third_kelly no_power (99#100) (1#100) 1 NoDate 0 true)
     [99#100; 1#100; 667#1000; 34#100; 98#100; 33#100; 33#100; 33#100; 0; 33#100; 3267#100; 1078#100; 32673#1000];
   (* adj_price and adj_delta_price are the ties 0.255 and 0.245 *)
   kelly_is (quarter_kelly no_power (99#100) (1#100) 1 NoDate 0 true)
     [99#100; 1#100; 3#4; 26#100; 98#100; 24#100; 247#1000; 25#100; 0; 25#100; 245#10; 606#100; 245#10];
   kelly_is (kelly no_power (99#100) (1#100) 0 1000 NoDate 0 true)
     [99#100; 1#100; 0; 99#100; 98#100; 98#100; 99#100; 9899#10; 0; 9899#10; 98000; 970101#10; 98];
   kelly_is (kelly no_power (99#100) (1#100) 0 1000 NoDate 100 true)
     [99#100; 1#100; 0; 99#100; 98#100; 98#100; 99#100; 9899#10; 100; 8899#10; 98000; 970101#10; 98];
   kelly_is (kelly no_power (6#10) (17#100) (66#100) 46288 (InDays 181) 7300 true)
     [6#10; 17#100; 66#100; 32#100; 43#100; 15#100; 176#1000; 815338#100; 7300; 85338#100; 3980768#100; 701191#100; 86#100]] = true.
Proof. vm_compute. reflexivity. Qed.
(** The tests of resolve dates count one day less than the date is ahead. *)
Example test_kelly_resolve_date :
  resolve (At (Day 2025 3 5) 40000000000) (Some "2026-03-05"%string) = InDays 364 /\
  resolve (At (Day 2025 3 5) 40000000000) (Some "2027-03-05"%string) = InDays 729 /\
  resolve (At (Day 2025 3 5) 40000000000) (Some "2025-09-03"%string) = InDays 181.
Proof. split; [|split]; vm_compute; reflexivity. Qed.
(** With that many days (and not with one more) the annual returns are the numbers in
    the tests, 99.258, 8.981 and 10575.628: 99 ^ (365 / days) - 1 to three digits. *)
Definition arr_is (thousandths : Z) (days : nat) : Prop :=
  let mid := (10 * (thousandths + 1000))%Z in
  ((mid - 5) ^ Z.of_nat days < 99 ^ Z.of_nat 365 * 10000 ^ Z.of_nat days)%Z /\
  (99 ^ Z.of_nat 365 * 10000 ^ Z.of_nat days < (mid + 5) ^ Z.of_nat days)%Z.
Lemma is_arr t d : (0 <= t)%Z -> P_PowCmp.below (10 * (t + 1000) - 5) d 99 365 10000 && P_PowCmp.above (10 * (t + 1000) + 5) d 99 365 10000 = true -> arr_is t d.
Proof. intros T H. apply andb_true_iff in H as [A B]. split; [apply P_PowCmp.below_sound in A|apply P_PowCmp.above_sound in B]; auto; lia. Qed.
Lemma not_arr t d : (0 <= t)%Z -> P_PowCmp.above (10 * (t + 1000) - 5) d 99 365 10000 || P_PowCmp.below (10 * (t + 1000) + 5) d 99 365 10000 = true -> ~ arr_is t d.
Proof. intros T H [A B]. apply orb_true_iff in H as [H|H]; [apply P_PowCmp.above_sound in H|apply P_PowCmp.below_sound in H]; lia. Qed.
Example test_kelly_expected_arr :
  (arr_is 99258 364 /\ ~ arr_is 99258 365) /\ (arr_is 8981 729 /\ ~ arr_is 8981 730) /\
  (arr_is 10575628 181 /\ ~ arr_is 10575628 182).
Proof.
  split; [|split]; (split; [apply is_arr; [discriminate|vm_compute; reflexivity]|apply not_arr; [discriminate|vm_compute; reflexivity]]).
Qed.

Example test_core_cuts : core_cuts 10 2 = Ok [5; 5]%Z /\ core_cuts 10 3 = Ok [3; 3; 4]%Z.
Proof. split; reflexivity. Qed.

(** ** Buckets *)
Definition odd : list Q := [1; 3; 5; 7; 9; 11].
Definition buckets_are (r : res (list (label * Q))) (l : list (label * Q)) : bool :=
  match r with Ok d => all2 (fun a b => label_eqb (fst a) (fst b) && Qeq_bool (np_round (snd a) 2) (snd b)) d l | _ => false end.
Example test_bucket_percentages :
  forallb (fun b => b)
  [match bucket_percentages odd (BinEdges [ENeg; EFin 2; EFin 4; EFin 6; EFin 8; EFin 10; EPos]) None true true None with
   | Ok d => Nat.eqb (length d) 6 && forallb (fun kv => Qeq_bool (np_round (snd kv) 2) (1667#100)) d | _ => false end;
   buckets_are (bucket_percentages odd (BinEdges [EFin 0; EFin 5; EFin 10; EFin 15]) None true true None)
     [(Auto false (EFin 0) (EFin 5), 3333#100); (Auto false (EFin 5) (EFin 10), 50); (Auto false (EFin 10) (EFin 15), 1667#100)];
   buckets_are (bucket_percentages odd NoBins (Some [(ENeg, EFin 5); (EFin 5, EFin 10); (EFin 10, EPos)]) true true (Some ["Low"; "Medium"; "High"]%string))
     [(Given "Low", 3333#100); (Given "Medium", 50); (Given "High", 1667#100)];
   buckets_are (bucket_percentages odd (BinEdges [EFin 0; EFin 5; EFin 10; EFin 15]) None false false None)
     [(Auto false (EFin 0) (EFin 5), 2); (Auto false (EFin 5) (EFin 10), 3); (Auto false (EFin 10) (EFin 15), 1)];
   raises (bucket_percentages odd NoBins (Some [(ENeg, EFin 5); (EFin 5, EFin 10); (EFin 10, EPos)]) true true (Some ["Low"; "Medium"]%string))
     "Number of labels must match number of bins"] = true.
Proof. vm_compute. reflexivity. Qed.
