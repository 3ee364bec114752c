(** C194: percentiles and credible intervals of many samples are near those of the law. *)
From Coq Require Import Qabs Lia Lqa.
From Verif Require Import Base M_Weights M_Values M_Sampler M_Ops M_Percentiles M_SampleApi M_Bayesnet SpecSampler SpecWeights SpecOps SpecBayes SpecShare SpecPercentiles P_Program P_Program2 P_Percentiles4 P_PctNear Props_Percentiles.
From Verif Require Import SpecProgram SpecLarge SpecIndep SpecColumns SpecPctNear.
Open Scope Q_scope.

(** Sampling an expression [n] times and asking for a percentile gives a number between two
    that enclose the percentile of the exact law, for all but few sequences of draws. *)
Theorem C194_percentile :
  forall Or N ahead, (0 < N)%nat -> right_length Or -> reads_all Or N ahead ->
  forall argsort e n p d a b ss, sorts_numbers argsort -> sound e -> (1 <= n)%nat -> 0 < d -> percent p -> encloses e p n d a b ->
  each_once N (n * work e) (map (coming Or ahead (n * work e)) ss) ->
  1 - 1 / (2 * qnat n * (d * d)) - qnat (n * spread e) / qnat N <=
  qnat (count (samples_in Or (obj_of e) n (percentile_within argsort p a b)) ss) / qnat (N ^ (n * work e)).
Proof. exact @percentile_near. Qed.
Print Assumptions C194_percentile.

(** The same for the median and both ends of a credible interval together. *)
Theorem C194_interval :
  forall Or N ahead, (0 < N)%nat -> right_length Or -> reads_all Or N ahead ->
  forall argsort e n c d low mid high ss, sorts_numbers argsort -> sound e -> (1 <= n)%nat -> 0 < d -> percent c ->
  encloses e ((100 - c) / 2) n d (fst low) (snd low) -> encloses e 50 n d (fst mid) (snd mid) -> encloses e (100 - (100 - c) / 2) n d (fst high) (snd high) ->
  each_once N (n * work e) (map (coming Or ahead (n * work e)) ss) ->
  1 - 3 / (2 * qnat n * (d * d)) - qnat (n * spread e) / qnat N <=
  qnat (count (samples_in Or (obj_of e) n (interval_within argsort c low mid high)) ss) / qnat (N ^ (n * work e)).
Proof. exact @interval_near. Qed.
Print Assumptions C194_interval.

(** The mean and both ends that [get_mean_and_ci] reports. *)
Theorem C194_mean_and_interval :
  forall Or N ahead, (0 < N)%nat -> right_length Or -> reads_all Or N ahead ->
  forall argsort e n c d t lo hi low high ss, sorts_numbers argsort -> sound e -> (1 <= n)%nat -> 0 < d -> 0 < t -> percent c ->
  returns (prog_of e) (fun x => lo <= x <= hi) ->
  encloses e ((100 - c) / 2) n d (fst low) (snd low) -> encloses e (100 - (100 - c) / 2) n d (fst high) (snd high) ->
  each_once N (n * work e) (map (coming Or ahead (n * work e)) ss) ->
  1 - ((hi - lo) * (hi - lo) / (4 * qnat n * (t * t)) + 1 / (qnat n * (d * d))) - qnat (n * spread e) / qnat N <=
  qnat (count (samples_in Or (obj_of e) n (mean_interval_within argsort c t (expected e) low high)) ss) / qnat (N ^ (n * work e)).
Proof. exact @mean_interval_near. Qed.
Print Assumptions C194_mean_and_interval.

(** A generator that reads numbers below [N] from a tape. *)
Definition tape_ahead (N : nat) (g : list nat) (i : nat) : nat := (nth i g 0 mod N)%nat.
Definition tape_oracle (N : nat) : oracle := {|
  G := list nat;
  drawf := fun r n g => (Ok (map (fun i => grid N (tape_ahead N g i)) (seq 0 n)), skipn n g);
  drawi := fun r n g => match r with
    | RInt lo hi => (Ok (map (fun i => lo + Z.of_nat (tape_ahead N g i) * (hi - lo) / Z.of_nat N)%Z (seq 0 n)), skipn n g)
    | _ => (Err Unmodelled, g) end;
  ppf := fun q => q; sqrt_ := fun q => q; exp_ := fun q => q; log_ := fun q => q; pow_ := fun a _ => a;
  fmt := fun _ => ""%string; induce := fun _ cols => Ok cols; die_fuel := 0 |}.
Definition tape_state (N : nat) (g : list nat) : state (G (tape_oracle N)) := mkState (g : G (tape_oracle N)) (fun _ _ => None).
Definition low_mid_high : dexp := XChoice (CDiscrete [(1#4, PInt 0); (1#2, PInt 5); (1#4, PInt 10)]).
(** The median of five samples is 5 for 512 of the 1024 sequences. *)
Example C194_sat :
  right_length (tape_oracle 4) /\ reads_all (tape_oracle 4) 4 (tape_ahead 4) /\ sorts_numbers argsort0 /\ sound low_mid_high /\ percent 50 /\
  encloses low_mid_high 50 5 (1#26) 5 5 /\ (5 * work low_mid_high = 5)%nat /\
  each_once 4 5 (map (coming (tape_oracle 4) (tape_ahead 4) 5) (map (tape_state 4) (seqs 4 5))) /\
  count (samples_in (tape_oracle 4) (obj_of low_mid_high) 5 (percentile_within argsort0 50 5 5)) (map (tape_state 4) (seqs 4 5)) = 512%nat.
Proof.
  split; [split; intros r n g l g' H; cbn in H; [|destruct r; try discriminate]; inversion H; now rewrite map_length, seq_length|].
  assert (SH : forall n g i, tape_ahead 4 (skipn n g) i = tape_ahead 4 g (n + i)%nat).
  { intros n g i. unfold tape_ahead. f_equal. revert g. induction n as [|n IH]; intros g; [reflexivity|]. destruct g; [destruct i; cbn; [reflexivity|]; now destruct (n + S i)%nat|apply IH]. }
  split.
  { split; [split; [intros g i; apply Nat.mod_upper_bound; lia|]; split|].
    - intros g. exists (grid 4 (tape_ahead 4 g 0)), (skipn 1 g). split; [reflexivity|]. split; [reflexivity|]. intros i. apply SH.
    - intros lo hi g _. exists (skipn 1 g). split; [reflexivity|]. intros i. apply SH.
    - intros n g. exists (map (fun i => grid 4 (tape_ahead 4 g i)) (seq 0 n)), (skipn n g). split; [reflexivity|]. split; [|intros i; apply SH].
      generalize (seq 0 n). intros l. induction l; cbn [map]; constructor; [reflexivity|assumption]. }
  split; [exact argsort0_sorts|].
  split; [split; [split; [discriminate|split; [repeat constructor|reflexivity]]|]; split; [discriminate|]; intros w v [H|[H|[H|[]]]]; inversion H; reflexivity|].
  split; [split; discriminate|]. split; [split; [vm_compute; discriminate|vm_compute; reflexivity]|]. split; [reflexivity|].
  split.
  { assert (E : map (coming (tape_oracle 4) (tape_ahead 4) 5) (map (tape_state 4) (seqs 4 5)) = seqs 4 5) by (vm_compute; reflexivity).
    rewrite E. split; [apply seqs_nodup|]. intros l. apply seqs_in. }
  vm_compute; reflexivity.
Qed.
(** With 10,000 samples of [sq.die(6) + sq.die(6)] the reported median is 7 in more than 99 of
    100 cases if the generator is fine enough. *)
Definition two_dice : dexp := XOp BSum (XChoice (CDie 6)) (XChoice (CDie 6)).
Example C194_dice_sat :
  encloses two_dice 50 (100 * 100) (2#25) 7 7 /\ 1 - 1 / (2 * qnat (100 * 100) * ((2#25) * (2#25))) > 99#100.
Proof. split; [split; [vm_compute; discriminate|vm_compute; reflexivity]|vm_compute; reflexivity]. Qed.
(** With 10,000 samples of it, [get_mean_and_ci(..., credibility=60)] reports a mean between 6.7
    and 7.3 and an interval from 5 to 9 in more than 4 of 5 cases. *)
Example C194_mean_sat :
  returns (prog_of two_dice) (fun x => 2 <= x <= 12) /\ expected two_dice == 7 /\
  encloses two_dice ((100 - 60) / 2) (100 * 100) (3#100) 5 5 /\ encloses two_dice (100 - (100 - 60) / 2) (100 * 100) (3#100) 9 9 /\
  1 - ((12 - 2) * (12 - 2) / (4 * qnat (100 * 100) * ((3#10) * (3#10))) + 1 / (qnat (100 * 100) * ((3#100) * (3#100)))) > 4#5.
Proof.
  split.
  { cbn [two_dice prog_of after returns]. intros w v I w' v' I'. vm_compute in I, I'.
    repeat (destruct I as [E|I]; [inversion E; subst v; clear E; repeat (destruct I' as [E|I']; [inversion E; subst v'; split; vm_compute; discriminate|]); destruct I'|]). destruct I. }
  split; [vm_compute; reflexivity|]. split; [split; vm_compute; [discriminate|reflexivity]|]. split; [split; vm_compute; [discriminate|reflexivity]|]. vm_compute; reflexivity.
Qed.
