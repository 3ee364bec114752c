(** C189: programs of random choices have their exact probabilities. *)
From Coq Require Import Qabs Lia Lqa.
From Verif Require Import Base M_Weights M_Values M_Sampler M_Ops M_SampleApi M_Bayesnet SpecSampler SpecWeights SpecBayes SpecConversation SpecShare SpecProgram P_Program P_Program2.
Open Scope Q_scope.

(** Started so that every sequence of [L] draws comes once, a program that makes at most [L]
    choices with at most [c] results in all ends in [P] as often as its probability says,
    to within [c / N]. *)
Theorem C189_share :
  forall Or N ahead, (0 < N)%nat -> right_length Or -> reads Or N ahead ->
  forall A (p : prog A) L c P ss, fits p L c -> each_once N L (map (coming Or ahead L) ss) ->
  Qabs (qnat (count (ends_in Or p P) ss) / qnat (N ^ L) - chance p P) <= qnat c / qnat N.
Proof. exact @share_of_runs. Qed.
Print Assumptions C189_share.
(** So [bayesnet] over such runs answers with the conditional probability, to within a bound
    that vanishes as the draws get finer. *)
Theorem C189_bayesnet :
  forall Or N ahead, (0 < N)%nat -> right_length Or -> reads Or N ahead ->
  forall A Y (p : prog A) L c find given wire (q : bcall (state (G Or)) A Y) w f,
  fits p L c -> q_fn _ _ _ q = Some f -> wonders _ A Y q find given -> q_cores _ _ _ q = 1%nat -> q_dump _ _ _ q = None ->
  uncached _ A Y q w ->
  each_once N L (map (coming Or ahead L) (starts Or p (q_n _ _ _ q) (b_st _ _ w))) ->
  qnat c / qnat N < chance p given ->
  exists x, fst (bayesnet _ A Y (fun _ => SpecProgram.run Or p) wire q w) = Ok (OMean A Y (PFlt (Fin x))) /\
    Qabs (x - chance p (fun a => given a && find a) / chance p given) <= 2 * (qnat c / qnat N) / (chance p given - qnat c / qnat N).
Proof. exact @answer_close. Qed.
Print Assumptions C189_bayesnet.
(** The same for averages of any bounded number computed from the result ... *)
Theorem C189_average :
  forall Or N ahead, (0 < N)%nat -> right_length Or -> reads Or N ahead ->
  forall A (p : prog A) L c f B ss, fits p L c -> 0 <= B -> (forall a, Qabs (f a) <= B) ->
  each_once N L (map (coming Or ahead L) ss) ->
  Qabs (total (map (result Or p f) ss) / qnat (N ^ L) - expect p f) <= qnat c * B / qnat N.
Proof. exact @average_of_runs. Qed.
Print Assumptions C189_average.
(** ... and for the mean that [bayesnet] reports of it under a condition. *)
Theorem C189_mean_answer :
  forall Or N ahead, (0 < N)%nat -> right_length Or -> reads Or N ahead ->
  forall A Y (p : prog A) L c f B given wire (q : bcall (state (G Or)) A Y) w k,
  fits p L c -> 0 <= B -> (forall a, Qabs (f a) <= B) ->
  q_fn _ _ _ q = Some k -> averages q f given -> q_cores _ _ _ q = 1%nat -> q_dump _ _ _ q = None -> uncached _ A Y q w ->
  each_once N L (map (coming Or ahead L) (starts Or p (q_n _ _ _ q) (b_st _ _ w))) ->
  qnat c / qnat N < chance p given ->
  exists x, fst (bayesnet _ A Y (fun _ => SpecProgram.run Or p) wire q w) = Ok (OMean A Y (PFlt (Fin x))) /\
    Qabs (x - expect p (only given f) / chance p given) <= 2 * B * (qnat c / qnat N) / (chance p given - qnat c / qnat N).
Proof. exact @mean_close. Qed.
Print Assumptions C189_mean_answer.
(** Sampling such a program as a model function gives numbers with those shares and averages. *)
Theorem C189_model_function :
  forall Or N ahead, (0 < N)%nat -> right_length Or -> reads Or N ahead ->
  forall (p : prog Q) L c n s, fits p L c -> (1 <= n)%nat -> each_once N L (map (coming Or ahead L) (starts Or p n s)) ->
  exists xs s', smp Or (OCall (model_of Or p)) n None None s = (Ok (simplify (map (fun x => PFlt (Fin x)) xs)), s') /\
    length xs = n /\ n = (N ^ L)%nat /\
    (forall P, Qabs (qnat (count P xs) / qnat n - chance p P) <= qnat c / qnat N) /\
    (forall f B, 0 <= B -> (forall x, Qabs (f x) <= B) -> Qabs (total (map f xs) / qnat n - expect p f) <= qnat c * B / qnat N).
Proof. exact model_sampled. Qed.
Print Assumptions C189_model_function.
(** A run never fails, whatever the draws, and returns a value the program can reach. *)
Theorem C189_total :
  forall Or N ahead, (0 < N)%nat -> right_length Or -> reads Or N ahead ->
  forall A (p : prog A) L c s, fits p L c -> exists a s', SpecProgram.run Or p s = (Ok a, s') /\ possible p a.
Proof. exact @run_total. Qed.
Print Assumptions C189_total.

(** The probabilities are probabilities. *)
Theorem C189_laws :
  forall A (p : prog A) L c P Q, fits p L c -> 0 <= chance p P <= 1 /\ chance p (fun _ => true) == 1 /\
    chance p (fun a => P a || Q a) + chance p (fun a => P a && Q a) == chance p P + chance p Q.
Proof. exact @laws. Qed.
Print Assumptions C189_laws.

(** Expected values are linear, and probabilities are expected values. *)
Theorem C189_expectation :
  forall A (p : prog A), (forall P, chance p P == expect p (fun a => if P a then 1 else 0)) /\
  forall f g x y, expect p (fun a => x * f a + y * g a) == x * expect p f + y * expect p g.
Proof. exact (fun A p => conj (expect_chance p) (expect_linear p)). Qed.
Print Assumptions C189_expectation.

(** A generator that runs through all pairs of numbers below 20, and a coin followed by an
    event whose probability depends on it. *)
Definition pair_at (j : nat) : nat := if Nat.even j then (j / 2 / 20) mod 20 else (j / 2) mod 20.
Definition pair_oracle : oracle := {|
  G := nat;
  drawf := fun r n g => (Ok (map (fun i => grid 20 (pair_at (g + i))) (seq 0 n)), (g + n)%nat);
  drawi := fun r n g => match r with
    | RInt lo hi => (Ok (map (fun i => lo + Z.of_nat (pair_at (g + i)) * (hi - lo) / 20)%Z (seq 0 n)), (g + n)%nat)
    | _ => (Err Unmodelled, g) end;
  ppf := fun q => q; sqrt_ := fun q => q; exp_ := fun q => q; log_ := fun q => q; pow_ := fun a _ => a;
  fmt := fun _ => ""%string; induce := fun _ cols => Ok cols; die_fuel := 0 |}.
Definition coin_then_event : prog (bool * bool) :=
  Choose CCoin (fun c => let heads := match c with PStr t => String.eqb t "heads" | _ => false end in
  Choose (CEvent (if heads then 3#4 else 1#3)) (fun v => Return (heads, match v with PBool b => b | _ => false end))).
Definition heads_if_event : bcall (state (G pair_oracle)) (bool * bool) unit :=
  mkBC _ _ _ (Some 0%nat) 400 (Some (fun e => Ok (PBool (fst e)))) (Some (fun e => Ok (snd e))) None false (Some false) false false false
    None None true 1 (fun _ => mkState (0%nat : G pair_oracle) (fun _ _ => None)) [].
Definition pair_world : bworld (state (G pair_oracle)) (bool * bool) :=
  mkB _ _ (mkState (0%nat : G pair_oracle) (fun _ _ => None)) (fun _ => None) (fun _ => None) (fun _ => None).
Definition pair_ahead (g : G pair_oracle) (i : nat) : nat := pair_at (g + i).
Example C189_sat :
  right_length pair_oracle /\ reads pair_oracle 20 pair_ahead /\ fits coin_then_event 2 4 /\ wonders _ _ _ heads_if_event fst snd /\
  uncached _ _ _ heads_if_event pair_world /\
  each_once 20 2 (map (coming pair_oracle pair_ahead 2) (starts pair_oracle coin_then_event 400 (b_st _ _ pair_world))) /\
  qnat 4 / qnat 20 < chance coin_then_event snd /\ chance coin_then_event snd == 13#24 /\
  (exists x, fst (bayesnet _ _ unit (fun _ => SpecProgram.run pair_oracle coin_then_event) (fun e => Ok e) heads_if_event pair_world) =
     Ok (OMean _ _ (PFlt (Fin x))) /\ x == 15#22).
Proof.
  split; [split; intros r n g l g' H; cbn in H; [|destruct r; try discriminate]; inversion H; now rewrite map_length, seq_length|].
  split.
  { split; [intros g i; unfold pair_ahead, pair_at; destruct (Nat.even _); apply Nat.mod_upper_bound; lia|]. split.
    - intros g. exists (grid 20 (pair_ahead g 0)), (g + 1)%nat. split; [reflexivity|]. split; [reflexivity|]. intros i. unfold pair_ahead. f_equal. cbn. lia.
    - intros lo hi g _. exists (g + 1)%nat. split; [reflexivity|]. intros i. unfold pair_ahead. f_equal. cbn. lia. }
  split.
  { split; [exact I|]. exists 1%nat, 2%nat. split; [reflexivity|]. split; [reflexivity|]. intros w v _.
    split; [cbn [proper]; match goal with |- context [if ?b then _ else _] => destruct b end; lra|]. exists 0%nat, 0%nat. repeat split. }
  split; [left; repeat split|]. split; [split; [reflexivity|]; right; left; reflexivity|].
  split.
  { assert (E : map (coming pair_oracle pair_ahead 2) (starts pair_oracle coin_then_event 400 (b_st _ _ pair_world)) = seqs 20 2) by (vm_compute; reflexivity).
    rewrite E. split; [apply seqs_nodup|]. intros l. apply seqs_in. }
  split; [vm_compute; reflexivity|]. split; [vm_compute; reflexivity|]. eexists. split; [vm_compute; reflexivity|]. vm_compute. reflexivity.
Qed.
Definition heads_gain (e : bool * bool) : Q := if fst e then 10 else -(3).
Definition gain_if_event : bcall (state (G pair_oracle)) (bool * bool) unit :=
  mkBC _ _ _ (Some 0%nat) 400 (Some (fun e => Ok (PFlt (Fin (heads_gain e))))) (Some (fun e => Ok (snd e))) None false (Some false) false false false
    None None true 1 (fun _ => mkState (0%nat : G pair_oracle) (fun _ _ => None)) [].
Example C189_mean_sat :
  (forall a, Qabs (heads_gain a) <= 10) /\ averages gain_if_event heads_gain snd /\
  expect coin_then_event (only snd heads_gain) / chance coin_then_event snd == 6 /\
  (exists x, fst (bayesnet _ _ unit (fun _ => SpecProgram.run pair_oracle coin_then_event) (fun e => Ok e) gain_if_event pair_world) =
     Ok (OMean _ _ (PFlt (Fin x))) /\ x == 129#22).
Proof.
  split; [intros [[|] b]; vm_compute; discriminate|]. split; [repeat split|]. split; [vm_compute; reflexivity|].
  eexists. split; [vm_compute; reflexivity|]. vm_compute. reflexivity.
Qed.
Definition coin_gain : prog Q :=
  Choose CCoin (fun c => let heads := match c with PStr t => String.eqb t "heads" | _ => false end in
  Choose (CDie 4) (fun v => Return (if heads then match v with PInt z => inject_Z z | _ => 0 end else -(1)))).
Example C189_model_sat :
  fits coin_gain 2 6 /\ map (coming pair_oracle pair_ahead 2) (starts pair_oracle coin_gain 400 (b_st _ _ pair_world)) = seqs 20 2 /\
  expect coin_gain (fun x => x) == 3#4 /\
  (exists s', smp pair_oracle (OCall (model_of pair_oracle coin_gain)) 4 None None (b_st _ _ pair_world) =
     (Ok (Arr (map (fun x => PFlt (Fin x)) [-(1); -(1); -(1); -(1)])), s')).
Proof.
  split.
  { split; [exact I|]. exists 1%nat, 4%nat. split; [reflexivity|]. split; [reflexivity|]. intros w v _.
    split; [cbn; lia|]. exists 0%nat, 0%nat. repeat split. }
  split; [vm_compute; reflexivity|]. split; [vm_compute; reflexivity|]. eexists. vm_compute. reflexivity.
Qed.
