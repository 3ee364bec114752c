(** C09, C12, C25, C150, C151: shares of equally likely draws. *)
From Coq Require Import Qabs ZArith Lia.
From Verif Require Import Base M_Values M_Sampler M_Weights M_Ops M_SampleApi SpecWeights SpecSampler SpecMixture SpecCtor SpecShare P_Share SpecDiceShare P_DiceShare P_Mean P_ShareRun P_ShareRun2 P_DieRun P_Example.
Open Scope Q_scope.

(** Of [N] equally likely draws, component [i] gets its weight's share, to within one draw. *)
Theorem C09_share_of_draws :
  forall ws N i, nonneg ws -> total ws == 1 -> (0 < N)%nat -> (i < length ws)%nat ->
  exists c, counted (selects ws N i) c /\ Qabs (qnat c - nth i ws 0 * qnat N) <= 1.
Proof. intros ws N i A B C D. exact (share ws N A B C i D). Qed.
Print Assumptions C09_share_of_draws.
(** So a mixture of different constants shows each with its weight's share. *)
Theorem C09_constants_share :
  forall Or, right_length Or -> forall ws vs N s i v, ready ws vs -> total ws == 1 -> (2 <= length vs)%nat -> NoDup vs ->
  (0 < N)%nat -> each_draw Or N s -> nth_error vs i = Some v ->
  exists c, counted (fun k => (k < N)%nat /\
                       fst (smp Or (ODist (DMixture ws (map OLit vs) None None)) 1 None None (s k)) = Ok (Scalar v)) c /\
    Qabs (qnat c - nth i ws 0 * qnat N) <= 1.
Proof. exact constants_counted. Qed.
Print Assumptions C09_constants_share.

(** C99: and so does a discrete distribution. *)
Theorem C99_share_of_draws :
  forall Or, right_length Or -> forall l k N s i p v,
  k = LCatList (map (fun e => IPair (Num (fst e)) (snd e)) l) \/ k = LCatDict (map (fun e => (snd e, Num (fst e))) l) ->
  (2 <= length l)%nat -> positive (map fst l) -> total (map fst l) == 1 -> NoDup (map snd l) ->
  (0 < N)%nat -> each_draw Or N s -> nth_error l i = Some (p, v) ->
  exists c, counted (fun k' => (k' < N)%nat /\ fst (smp Or (ODist (DLeaf k None None)) 1 None None (s k')) = Ok (Scalar v)) c /\
    Qabs (qnat c - p * qnat N) <= 1.
Proof. exact discrete_counted. Qed.
Print Assumptions C99_share_of_draws.
(** Sequences of draws, one per sample: the shares multiply. *)
Theorem C09_share_of_sequences :
  forall ws N is cs, Forall2 (fun i c => counted (selects ws N i) c) is cs ->
  counted (fun ks => Forall2 (selects ws N) is ks) (fold_right Nat.mul 1%nat cs).
Proof. exact sequences. Qed.
Print Assumptions C09_share_of_sequences.

Example C09_share_sat :
  counted (selects [1#4; 3#4] 8 0) 3 /\ counted (selects [1#4; 3#4] 8 1) 5.
Proof.
  split.
  - exists [0; 1; 2]%nat. split; [repeat constructor; simpl; intuition discriminate|]. split; [|reflexivity].
    intros k. unfold selects, falls, grid. split.
    + intros H. simpl in H. destruct H as [<-|[<-|[<-|[]]]]; (split; [repeat constructor|]); (split; [repeat constructor|]); (split; [now left|right; vm_compute; discriminate]).
    + intros (L & _ & _ & [C|C]); [discriminate|]. destruct k as [|[|[|k]]]; simpl; auto. exfalso.
      do 5 (destruct k as [|k]; [vm_compute in C; now apply C|]). lia.
  - exists [3; 4; 5; 6; 7]%nat. split; [repeat constructor; simpl; intuition discriminate|]. split; [|reflexivity].
    intros k. unfold selects, falls, grid. split.
    + intros H. simpl in H. destruct H as [<-|[<-|[<-|[<-|[<-|[]]]]]]; (split; [repeat constructor|]); (split; [repeat constructor|]); (split; [right; reflexivity|now left]).
    + intros (L & _ & [C|C] & _); [discriminate|].
      destruct k as [|[|[|k]]]; [vm_compute in C; discriminate C..|].
      do 5 (destruct k as [|k]; [simpl; auto 10|]). exfalso. lia.
Qed.

(** C150.  A mixture inside a mixture: one draw selects the inner mixture, a second draw its
    component. *)
Theorem C150_two_draws :
  forall Or, right_length Or -> forall ws ds vs es s u g u' g' i j o x s',
  ready ws ds -> (2 <= length ds)%nat -> ready vs es -> (2 <= length es)%nat ->
  drawf Or (RUniform 0 1) 1 (rng s) = (Ok [u], g) -> drawf Or (RUniform 0 1) 1 g = (Ok [u'], g') ->
  falls ws u i -> nth_error ds i = Some (ODist (DMixture vs es None None)) -> falls vs u' j -> nth_error es j = Some o ->
  (smp Or (ODist (DMixture ws ds None None)) 1 None None s = (Ok (Scalar x), s') <->
   smp Or o 1 None None (mkState g' (corr s)) = (Ok (Scalar x), s')).
Proof. intros Or RL. exact (nested_sample Or RL). Qed.
Print Assumptions C150_two_draws.

(** Constant [j] of the inner mixture [i] is shown for the share w_i * v_j of all pairs of draws. *)
Theorem C150_weights_multiply :
  forall Or, right_length Or -> forall ws ds vs cs N s i j v, ready ws ds -> total ws == 1 -> (2 <= length ds)%nat ->
  ready vs cs -> total vs == 1 -> (2 <= length cs)%nat -> NoDup cs -> (0 < N)%nat -> each_pair Or N s ->
  nth_error ds i = Some (ODist (DMixture vs (map OLit cs) None None)) -> nth_error cs j = Some v ->
  (forall i' o, nth_error ds i' = Some o -> i' <> i -> forall t, fst (smp Or o 1 None None t) <> Ok (Scalar v)) ->
  exists c, counted (fun p => (fst p < N)%nat /\ (snd p < N)%nat /\
                       fst (smp Or (ODist (DMixture ws ds None None)) 1 None None (s (fst p) (snd p))) = Ok (Scalar v)) c /\
    Qabs (qnat c - nth i ws 0 * nth j vs 0 * (qnat N * qnat N)) <= 2 * qnat N.
Proof. exact nested_counted. Qed.
Print Assumptions C150_weights_multiply.

Example C150_sat :
  let inner := ODist (DMixture [1#2; 1#2] [OLit (PInt 1); OLit (PInt 2)] None None) in
  let outer := ODist (DMixture [1#4; 3#4] [OLit (PInt 0); inner] None None) in
  smp ex_oracle outer 1 None None (ex_state 0) = (Ok (Scalar (PInt 1)), ex_state 2) /\
  fst (drawf ex_oracle (RUniform 0 1) 1 0%nat) = Ok [ex_float (RUniform 0 1) (hd 0 (ex_fracs 1 0))] /\
  ready [1#4; 3#4] [OLit (PInt 0); inner] /\ ready [1#2; 1#2] [OLit (Gt := nat) (PInt 1); OLit (PInt 2)].
Proof.
  cbv zeta. split; [vm_compute; reflexivity|]. split; [vm_compute; reflexivity|].
  split; (split; [reflexivity|]); (split; [repeat constructor|split; vm_compute; reflexivity]).
Qed.

(** C25: of [N] equally likely draws, the event happens for q * N, rounded up. *)
Theorem C25_share_of_draws :
  forall Or, right_length Or -> in_support Or -> forall p q N s, as_x p = Some (Fin q) -> 0 <= q -> q <= 1 ->
  (0 < N)%nat -> each_draw Or N s ->
  exists c, counted (fun k => (k < N)%nat /\ fst (event_occurs Or (OLit p) (s k)) = Ok true) c /\
    q * qnat N <= qnat c /\ qnat c < q * qnat N + 1.
Proof. exact event_counted. Qed.
Print Assumptions C25_share_of_draws.
(** C12: zero is returned for p * N of them, rounded down, plus one: the draw 0. *)
Theorem C12_share_of_draws :
  forall Or, right_length Or -> forall p d D N s, 0 < p -> p < 1 -> (0 < N)%nat -> each_draw Or N s ->
  zero_inflated (PZNum p) d = Ok D ->
  (forall t, fst (smp Or d 1 None None t) <> Ok (Scalar (PInt 0))) ->
  exists c, counted (fun k => (k < N)%nat /\ fst (smp Or (ODist D) 1 None None (s k)) = Ok (Scalar (PInt 0))) c /\
    p * qnat N < qnat c /\ qnat c <= p * qnat N + 1.
Proof. exact zero_counted. Qed.
Print Assumptions C12_share_of_draws.
Example C12_C25_share_sat :
  let s := fun k => ex_state ((3 * k + 1) mod 10) in
  right_length ex_oracle /\ in_support ex_oracle /\ each_draw ex_oracle 10 s /\
  filter (fun k => match fst (event_occurs ex_oracle (OLit (PFlt (Fin (1#4)))) (s k)) with Ok b => b | Err _ => false end) (seq 0 10)
    = [0; 1; 2]%nat /\
  (exists D, zero_inflated (T := nat) (PZNum (1#4)) (OLit (PInt 5)) = Ok D /\
    map (fun k => fst (smp ex_oracle (ODist D) 1 None None (s k))) (seq 0 4) =
    [Ok (Scalar (PInt 0)); Ok (Scalar (PInt 0)); Ok (Scalar (PInt 0)); Ok (Scalar (PInt 5))]) /\
  ready [1#4; 3#4] [PInt 0; PInt 5] /\ total [1#4; 3#4] == 1.
Proof.
  cbv zeta. split; [exact ex_right_length|]. split; [exact ex_in_support|]. split; [|split; [vm_compute; reflexivity|split]].
  - intros k L. do 10 (destruct k as [|k]; [eexists; eexists; split; [vm_compute; reflexivity|reflexivity]|]). lia.
  - eexists. split; [vm_compute; reflexivity|]. vm_compute. reflexivity.
  - split; [|reflexivity]. split; [reflexivity|]. split; [repeat constructor|]. split; reflexivity.
Qed.

(** C151.  Of all sequences of rolls of an exploding die, e ^ m * f are throws with exactly
    [m] explosions and e ^ m have exploded [m] times and go on, where [e] faces explode and
    [f] do not. *)
Theorem C151_throws_counted :
  forall n ex e f m, (1 <= n)%Z ->
  counted (fun z => face n z /\ In z ex) e -> counted (fun z => face n z /\ ~ In z ex) f ->
  (Z.of_nat e + Z.of_nat f = n)%Z /\ counted (throw_of n ex m) (e ^ m * f)%nat /\
  counted (still_going n ex m) (e ^ m)%nat /\ counted (rolls n m) (Z.to_nat n ^ m)%nat.
Proof. intros n ex e f m N. exact (rolls_count n ex N e f m). Qed.
Print Assumptions C151_throws_counted.

(** The expected total of one throw is n * (n + 1) / (2 f): throws with fewer than [M]
    explosions contribute all of it but K / M. *)
Theorem C151_expected_total :
  forall n ex f, (1 <= n)%Z -> counted (fun z => face n z /\ ~ In z ex) f -> (0 < f)%nat ->
  exists K, forall M ls, (forall m, lists (ls m) (throw_of n ex m)) ->
    0 <= inject_Z (n * (n + 1)) / (2 * qnat f) - expected n ls M /\
    (inject_Z (n * (n + 1)) / (2 * qnat f) - expected n ls M) * qnat M <= K.
Proof. intros n ex f N. exact (die_mean n ex N f). Qed.
Print Assumptions C151_expected_total.

(** These sequences are what the sampler sums up. *)
Theorem C151_sampled_throws :
  forall Or, in_support Or -> forall n ex s a s',
  smp Or (ODist (DLeaf (LDie n (Some ex)) None None)) 1 None None s = (Ok a, s') <->
  exists m rs, (m <= die_fuel Or)%nat /\ rolled Or n s rs s' /\ throw_of n ex m rs /\ a = Scalar (PInt (sum rs)).
Proof. exact one_sample_rolls. Qed.
Print Assumptions C151_sampled_throws.

Example C151_sat :
  throw_of 6 [6%Z] 2 [6; 6; 3]%Z /\ sum [6; 6; 3]%Z = 15%Z /\
  counted (fun z => face 6 z /\ ~ In z [6%Z]) 5 /\
  (exists s', throw strict_oracle 3 (Some [1%Z]) 20 (strict_state 0) 5 s').
Proof.
  split; [|split; [reflexivity|split]].
  - exists [6; 6]%Z, 3%Z. split; [reflexivity|]. split; [reflexivity|]. split; [|split; [unfold face; lia|simpl; lia]].
    intros z [<-|[<-|[]]]; (split; [unfold face; lia|now left]).
  - exists [1; 2; 3; 4; 5]%Z. split; [repeat constructor; simpl; lia|]. split; [|reflexivity]. intros z. unfold face. simpl. lia.
  - eexists. exists [1; 1]%Z, 3%Z. split; [repeat (eapply rolled_S; [vm_compute; reflexivity|]); constructor|]. split; [simpl; lia|].
    split; [|reflexivity]. split; [intros z [<-|[<-|[]]]; now left|simpl; lia].
Qed.

(** C152.  The samples of a mixture of numbers, one for each of [N] equally likely draws,
    add up to N times the weighted mean, up to the sum of the sizes of the numbers. *)
Theorem C152_mean_of_samples :
  forall Or, right_length Or -> forall ws vs N (s : nat -> state (G Or)),
  ready ws vs -> total ws == 1 -> (2 <= length vs)%nat -> (0 < N)%nat ->
  (forall k, (k < N)%nat -> exists g, drawf Or (RUniform 0 1) 1 (rng (s k)) = (Ok [grid N k], g)) ->
  exists xs : nat -> Q,
    (forall k, (k < N)%nat ->
      fst (smp Or (ODist (DMixture ws (map (fun v => OLit (PFlt (Fin v))) vs) None None)) 1 None None (s k)) = Ok (Scalar (PFlt (Fin (xs k))))) /\
    Qabs (sum_to xs N - weighted ws vs * qnat N) <= sum_to (fun i => Qabs (nth i vs 0)) (length vs).
Proof. exact sampled_mean. Qed.
Print Assumptions C152_mean_of_samples.

(** A generator that draws k / 4 in state k. *)
Definition quarters : oracle := {|
  G := nat; drawf := fun r n g => (Ok (repeat (grid 4 g) n), g); drawi := fun r n g => (Ok (repeat 0%Z n), g);
  ppf := fun q => 1; sqrt_ := fun q => 1; exp_ := fun q => 1; log_ := fun q => q; pow_ := fun x _ => x;
  fmt := fun _ => "num"%string; induce := fun _ cols => Ok cols; die_fuel := 20 |}.
Example C152_sat :
  right_length quarters /\
  (forall k, (k < 4)%nat -> exists g, drawf quarters (RUniform 0 1) 1 k = (Ok [grid 4 k], g)) /\
  ready [1#4; 3#4] [10; 20] /\
  fst (smp quarters (ODist (DMixture [1#4; 3#4] [OLit (PFlt (Fin 10)); OLit (PFlt (Fin 20))] None None)) 1 None None (mkState (2%nat : G quarters) (fun _ _ => None)))
    = Ok (Scalar (PFlt (Fin 20))) /\
  weighted [1#4; 3#4] [10; 20] * 4 == 70 /\ 10 + 10 + 20 + 20 == 60.
Proof.
  split; [split; intros r n g l g' H; inversion H; apply repeat_length|]. split; [intros k _; exists k; reflexivity|].
  split; [split; [reflexivity|]; split; [repeat constructor|split; vm_compute; reflexivity]|].
  split; [vm_compute; reflexivity|]. split; reflexivity.
Qed.

(** A generator whose next two draws are k / 2 and l / 2 in state (k, l). *)
Definition halves : oracle := {|
  G := nat * nat; drawf := fun r n g => (Ok (repeat (grid 2 (fst g)) n), (snd g, fst g)); drawi := fun r n g => (Ok (repeat 0%Z n), g);
  ppf := fun q => 1; sqrt_ := fun q => 1; exp_ := fun q => 1; log_ := fun q => q; pow_ := fun x _ => x;
  fmt := fun _ => "num"%string; induce := fun _ cols => Ok cols; die_fuel := 20 |}.
Example C150_pairs_sat :
  let s := fun k l => mkState ((k, l) : G halves) (fun _ _ => None) in
  let outer := ODist (DMixture [1#4; 3#4] [OLit (PInt 0); ODist (DMixture [1#4; 3#4] (map OLit [PInt 1; PInt 2]) None None)] None None) in
  right_length halves /\ each_pair halves 2 s /\
  (forall t, fst (smp halves (OLit (PInt 0)) 1 None None t) <> Ok (Scalar (PInt 2))) /\
  map (fun p => fst (smp halves outer 1 None None (s (fst p) (snd p)))) [(0, 0); (0, 1); (1, 0); (1, 1)]%nat =
    map (fun z => Ok (Scalar (PInt z))) [0; 0; 1; 2]%Z.
Proof.
  cbv zeta. split; [split; intros r n g l g' H; inversion H; apply repeat_length|]. split; [|split].
  - intros k l _ _. exists (grid 2 k), (l, k), (grid 2 l), (k, l). split; [reflexivity|]. split; [reflexivity|]. split; reflexivity.
  - intros t H. vm_compute in H. discriminate.
  - vm_compute. reflexivity.
Qed.
