(** Properties C12-C16 and C22-C25: what [sample] returns. *)
From Verif Require Import Base M_Weights SpecWeights M_Values M_Sampler M_Ops SpecSampler SpecSampler2 SpecOps SpecMixture
  P_Weights P_Count P_Clip P_Ops P_Sampler2 P_Support P_Pure P_Mixture P_Example P_Api P_ClipOut.
Open Scope Q_scope.

Notation leaf_dist k := (ODist (DLeaf k None None)).

(** C09 for whole samples: up to 100 samples are made one by one, each from the
    component its own uniform draw selects. *)
Theorem C09_mixture_sampling_small :
  forall Or, right_length Or -> forall ws ds n s v s',
  (1 <= n <= 100)%nat -> ready ws ds -> (2 <= length ds)%nat ->
  (smp Or (ODist (DMixture ws ds None None)) n None None s = (Ok v, s') <->
   exists xs, one_by_one Or ws ds n s xs s' /\ v = simplify (np_array (fmt Or) xs)).
Proof. exact mixture_small. Qed.
Print Assumptions C09_mixture_sampling_small.

(** More than 100: every component sampled, then each position selected by its
    own draw. *)
Theorem C09_mixture_sampling_large :
  forall Or ws ds n s v s',
  (100 < n)%nat -> ready ws ds -> (2 <= length ds)%nat ->
  (smp Or (ODist (DMixture ws ds None None)) n None None s = (Ok v, s') <->
   exists cols s1 us g xs, all_columns Or n ds s cols s1 /\
     drawf Or (RUniform 0 1) n (rng s1) = (Ok us, g) /\ s' = mkState g (corr s1) /\
     selected ws us cols xs /\ v = simplify (np_array (fmt Or) xs)).
Proof. exact mixture_large. Qed.
Print Assumptions C09_mixture_sampling_large.

(** What [mixture] builds has such weights. *)
Theorem C09_built_mixture_ready :
  forall T items w rw lc rc (D : dist T), mixture items w rw lc rc = Ok D ->
  ~ (exists l, weight_vector rw l /\ Forall (fun q => q == 0) l) ->
  exists ws ds, D = DMixture ws ds lc rc /\ ready ws ds.
Proof. exact mixture_usable. Qed.
Print Assumptions C09_built_mixture_ready.

Example C09_sampling_sat :
  right_length ex_oracle /\
  ready [1#2; 1#2] [OLit (PInt 1) : obj nat; leaf_dist (LUniform 2 3)] /\
  exists v, smp ex_oracle (ODist (DMixture [1#2; 1#2] [OLit (PInt 1); leaf_dist (LUniform 2 3)] None None)) 4 None None (ex_state 0) = (Ok v, ex_state 5).
Proof.
  split; [exact ex_right_length|]. split.
  - split; [reflexivity|]. split; [repeat constructor|]. split; reflexivity.
  - eexists. vm_compute. reflexivity.
Qed.

(** C12. *)
Theorem C12_zero_inflated_small :
  forall Or, right_length Or -> forall p d D n s v s',
  0 < p -> p < 1 -> (1 <= n <= 100)%nat -> zero_inflated (PZNum p) d = Ok D ->
  (smp Or (ODist D) n None None s = (Ok v, s') <->
   exists xs, zero_or_sample Or p d n s xs s' /\ v = simplify (np_array (fmt Or) xs)).
Proof. exact zi_small. Qed.
Print Assumptions C12_zero_inflated_small.

Theorem C12_zero_inflated_large :
  forall Or, right_length Or -> forall p d D n s v s',
  0 < p -> p < 1 -> (100 < n)%nat -> zero_inflated (PZNum p) d = Ok D -> in_support Or ->
  (smp Or (ODist D) n None None s = (Ok v, s') <->
   exists a s1 us g xs, smp Or d n None None s = (Ok a, s1) /\
     drawf Or (RUniform 0 1) n (rng s1) = (Ok us, g) /\ s' = mkState g (corr s1) /\
     length xs = n /\
     (forall j u, nth_error us j = Some u -> exists x, nth_error xs j = Some x /\
        (u <= p /\ x = PInt 0 \/ p < u /\ nth_error (elems a) j = Some x)) /\
     v = simplify (np_array (fmt Or) xs)).
Proof. exact zi_large. Qed.
Print Assumptions C12_zero_inflated_large.

Theorem C12_rejects_outside :
  forall Or p d, (p < 0 \/ 1 < p) -> exists m, zero_inflated (T := G Or) (PZNum p) d = Err (ValueError m).
Proof. exact zi_rejects. Qed.
Print Assumptions C12_rejects_outside.

Theorem C12_one_is_zero :
  forall Or p d n s, p == 1 -> (1 <= n)%nat ->
  exists D, zero_inflated (PZNum p) d = Ok D /\ smp Or (ODist D) n None None s = (Ok (copies (PInt 0) n), s).
Proof. exact zi_one. Qed.
Print Assumptions C12_one_is_zero.

Theorem C12_zero_is_dist :
  forall Or p d n s v s1, p == 0 -> uncorrelated_top d -> smp Or d n None None s = (Ok v, s1) ->
  exists D, zero_inflated (PZNum p) d = Ok D /\ smp Or (ODist D) n None None s = (Ok v, s1).
Proof.
  intros Or p d n s v s1 Hp U H.
  destruct (zi_zero Or p d n s Hp (sample_needs_n _ _ _ _ _ _ _ _ H)) as (D & E & S).
  exists D. split; auto. rewrite S, H. now rewrite (sample_settled Or d n None None s v s1 U H).
Qed.
Print Assumptions C12_zero_is_dist.

Example C12_sat :
  exists D v, zero_inflated (T := G ex_oracle) (PZNum (1#2)) (leaf_dist (LUniform 2 3)) = Ok D /\
    smp ex_oracle (ODist D) 3 None None (ex_state 0) = (Ok v, ex_state 4) /\
    Forall2 same_number (elems v) [PInt 0; PInt 0; PFlt (Fin (24#10))].
Proof.
  eexists. eexists. split; [reflexivity|]. split; [vm_compute; reflexivity|]. repeat constructor.
Qed.

(** C13. *)
Theorem C13_sample_count :
  forall Or, right_length Or -> forall o, covered o ->
  forall n lc rc s v s', smp Or o n lc rc s = (Ok v, s') -> n_samples n v.
Proof. intros Or RL o. exact (sample_count Or RL o). Qed.
Print Assumptions C13_sample_count.

Theorem C13_zero_samples_raise :
  forall Or o lc rc s, smp Or o 0 lc rc s = (Err (ValueError "n must be >= 1"), s).
Proof.
  intros Or o lc rc s. destruct o as [x|f|d|]; try reflexivity. destruct d; reflexivity.
Qed.
Print Assumptions C13_zero_samples_raise.

Example C13_sat :
  let o := ODist (DComplex (leaf_dist (LUniform 0 1)) (OLit (PInt 2)) (FOp Mul)) in
  covered o /\ exists v, smp ex_oracle o 3 None None (ex_state 0) = (Ok v, ex_state 3) /\ n_samples 3 v.
Proof.
  split; [repeat split|]. eexists. split; [vm_compute; reflexivity|]. eexists. split; reflexivity.
Qed.

(** C14 is false: t-distributions with equal bounds, and [log_tdist()]. *)
Theorem C14_every_leaf_n_refuted :
  exists k n v, (1 < n)%nat /\ smp ex_oracle (leaf_dist k) n None None (ex_state 0) = (Ok v, ex_state 0) /\ ~ n_samples n v.
Proof.
  exists (LT (Some (NI 1)) (Some (NI 1)) 20 90), 5%nat, (Scalar (PInt 1)).
  split; [lia|]. split; [vm_compute; reflexivity|]. intros (l & H & _). discriminate.
Qed.
Print Assumptions C14_every_leaf_n_refuted.
Theorem C14_log_t_unbounded_refuted :
  exists v, smp ex_oracle (leaf_dist (LLogT None None 20 90)) 5 None None (ex_state 0) = (Ok v, ex_state 1) /\ ~ n_samples 5 v.
Proof.
  eexists. split; [vm_compute; reflexivity|]. intros (l & H & _). discriminate.
Qed.
Print Assumptions C14_log_t_unbounded_refuted.
(** What does hold: every other leaf, and [tdist()] without bounds for n > 1. *)
Theorem C14_leaves_n_partial :
  forall Or, right_length Or -> forall k lc rc n lc' rc' s v s',
  covered_leaf k \/ ((exists t c, k = LT None None t c) /\ (2 <= n)%nat) ->
  smp Or (ODist (DLeaf k lc rc)) n lc' rc' s = (Ok v, s') -> n_samples n v.
Proof. exact leaf_count. Qed.
Print Assumptions C14_leaves_n_partial.

Example C14_sat :
  exists v, smp ex_oracle (leaf_dist (LT None None 20 90)) 3 None None (ex_state 0) = (Ok v, ex_state 3) /\
    n_samples 3 v.
Proof. eexists. split; [vm_compute; reflexivity|]. eexists. split; reflexivity. Qed.

(** C15.  nan samples are never out of bounds and are left alone. *)
Theorem C15_clip_bounds :
  forall Or o n lc rc s v s' lo hi,
  uncorrelated_top o -> smp Or o n lc rc s = (Ok v, s') ->
  lo = tight_lower (q_of lc) (q_of (own_lower o)) -> hi = tight_upper (q_of rc) (q_of (own_upper o)) ->
  match lo, hi with Some l, Some h => l <= h | _, _ => True end ->
  exists u, smp Or (unclipped o) n None None s = (Ok u, s') /\
    Forall2 (fun raw out =>
      (forall y, as_x out = Some y -> within lo hi y) /\
      (forall x, as_x raw = Some x -> within lo hi x -> same_number raw out))
      (elems u) (elems v).
Proof. exact clip_bounds. Qed.
Print Assumptions C15_clip_bounds.

(** With any bounds at all, every returned value is the raw one clamped. *)
Theorem C15_clip_is_clamp :
  forall Or o n lc rc s v s',
  uncorrelated_top o -> smp Or o n lc rc s = (Ok v, s') ->
  exists u, smp Or (unclipped o) n None None s = (Ok u, s') /\
    Forall2 (clamped (tight_lower (q_of lc) (q_of (own_lower o))) (tight_upper (q_of rc) (q_of (own_upper o))))
            (elems u) (elems v).
Proof. exact clip_relation. Qed.
Print Assumptions C15_clip_is_clamp.

(** Clipping succeeds exactly on numbers; everything else it leaves to the object. *)
Theorem C15_clipping_needs_numbers :
  forall Or o n lc rc s r s', uncorrelated_top o -> smp Or (unclipped o) n None None s = (r, s') ->
  match r with
  | Err e => smp Or o n lc rc s = (Err e, s')
  | Ok u =>
      ((forall x, In x (elems u) -> as_x x <> None) -> exists v, smp Or o n lc rc s = (Ok v, s')) /\
      ((exists x, In x (elems u) /\ as_x x = None) ->
         tight_lower (q_of lc) (q_of (own_lower o)) <> None \/ tight_upper (q_of rc) (q_of (own_upper o)) <> None ->
         smp Or o n lc rc s = (Err TypeError, s'))
  end.
Proof. exact clip_outcome. Qed.
Print Assumptions C15_clipping_needs_numbers.

Example C15_sat :
  exists u v, smp ex_oracle (ODist (DLeaf (LUniform 0 10) (Some (NI 2)) None)) 4 None (Some (NF 5)) (ex_state 0) = (Ok v, ex_state 4) /\
    smp ex_oracle (leaf_dist (LUniform 0 10)) 4 None None (ex_state 0) = (Ok u, ex_state 4) /\
    u <> v.
Proof. eexists. eexists. split; [vm_compute; reflexivity|]. split; [vm_compute; reflexivity|discriminate]. Qed.

(** C16. *)
Theorem C16_crossed_bounds_give_upper :
  forall Or o n lc rc s v s' l h,
  uncorrelated_top o -> smp Or o n lc rc s = (Ok v, s') ->
  tight_lower (q_of lc) (q_of (own_lower o)) = Some l -> tight_upper (q_of rc) (q_of (own_upper o)) = Some h ->
  h < l ->
  Forall (fun y => as_x y = Some NaN \/ exists q, as_x y = Some (Fin q) /\ q == h) (elems v).
Proof. exact clip_crossed. Qed.
Print Assumptions C16_crossed_bounds_give_upper.

Example C16_sat :
  exists v, smp ex_oracle (leaf_dist (LUniform 0 10)) 3 (Some (NF 7)) (Some (NF 4)) (ex_state 0) = (Ok v, ex_state 3) /\
    v = Arr [PFlt (Fin 4); PFlt (Fin 4); PFlt (Fin 4)].
Proof. eexists. split; vm_compute; reflexivity. Qed.

(** C22. *)
Theorem C22_leaf_support :
  forall Or, in_support Or -> forall k n s v s',
  smp Or (leaf_dist k) n None None s = (Ok v, s') -> Forall (support k) (elems v).
Proof. exact leaf_in_support. Qed.
Print Assumptions C22_leaf_support.

Theorem C22_bernoulli_draws :
  forall Or, in_support Or -> forall p n s v s', (1 <= n)%nat ->
  smp Or (leaf_dist (LBernoulli p)) n None None s = (Ok v, s') ->
  exists us g, drawf Or (RUniform 0 1) n (rng s) = (Ok us, g) /\ s' = mkState g (corr s) /\
    Forall2 (fun u x => 0 <= u < 1 /\ (x = PInt 1 /\ u < p \/ x = PInt 0 /\ p <= u)) us (elems v).
Proof. exact bernoulli_draws. Qed.
Print Assumptions C22_bernoulli_draws.

Example C22_sat :
  in_support ex_oracle /\
  (exists v, smp ex_oracle (leaf_dist (LPert 1 2 5 4)) 3 None None (ex_state 0) = (Ok v, ex_state 3)) /\
  smp ex_oracle (leaf_dist (LBernoulli (1#2))) 3 None None (ex_state 0) =
    (Ok (Arr [PInt 1; PInt 1; PInt 0]), ex_state 3).
Proof. split; [exact ex_in_support|]. split; [eexists|]; vm_compute; reflexivity. Qed.

(** C23.  [rng] is the generator, [corr] everything else sampling may touch
    besides the caches (see the cache model for those). *)
Theorem C23_only_rng_matters :
  forall Or o n lc rc s1 s2, self_contained o -> rng s1 = rng s2 ->
  let r1 := smp Or o n lc rc s1 in let r2 := smp Or o n lc rc s2 in
  fst r1 = fst r2 /\ rng (snd r1) = rng (snd r2) /\ corr (snd r1) = corr s1 /\ corr (snd r2) = corr s2.
Proof. exact sample_reproducible. Qed.
Print Assumptions C23_only_rng_matters.

Example C23_sat :
  let o := ODist (DMixture [1#2; 1#2] [leaf_dist (LUniform 0 1); OCall (fun s => (Ok (leaf_dist LCoin), s))] None None) in
  @self_contained (G ex_oracle) o /\
  fst (smp ex_oracle o 3 None None (ex_state 0)) <> fst (smp ex_oracle o 3 None None (ex_state 1)).
Proof.
  split.
  - repeat split. intros g. exists (Ok (leaf_dist LCoin)), g. reflexivity.
  - vm_compute. discriminate.
Qed.

(** C24. *)
Theorem C24_model_function :
  forall Or f n s v s', (1 <= n)%nat ->
  (smp Or (OCall f) n None None s = (Ok v, s') <->
   exists os s1 vs, called f n s os s1 /\ resolved (fun o => smp Or o 1%nat None None) os s1 vs s' /\
     v = simplify (np_array (fmt Or) vs)).
Proof. exact model_function. Qed.
Print Assumptions C24_model_function.

Theorem C24_model_function_fails :
  forall Or f n k s os s1 e s2, (k < n)%nat ->
  called f k s os s1 -> f s1 = (Err e, s2) ->
  smp Or (OCall f) n None None s = (Err e, s2).
Proof. exact model_function_fails. Qed.
Print Assumptions C24_model_function_fails.

(** The function below draws one uniform and returns a distribution: with n = 2
    both calls (draws 0.3 and 0.0) come before both resolutions (0.7 and 0.4). *)
Definition ex_model (s : state (G ex_oracle)) : res (obj (G ex_oracle)) * state (G ex_oracle) :=
  match rngf ex_oracle (RUniform 0 1) 1 s with
  | (Ok (u :: _), s') => (Ok (leaf_dist (LUniform u (u + 1))), s')
  | (_, s') => (Err Unmodelled, s')
  end.
Example C24_sat :
  exists v, smp ex_oracle (OCall ex_model) 2 None None (ex_state 0) = (Ok v, ex_state 4) /\
    Forall2 same_number (elems v) [PFlt (Fin (10#10)); PFlt (Fin (4#10))].
Proof. eexists. split; [vm_compute; reflexivity|]. repeat constructor. Qed.

(** C25. *)
Theorem C25_event_below_p :
  forall Or, right_length Or -> in_support Or -> forall p q s us g,
  as_x p = Some (Fin q) -> drawf Or (RUniform 0 1) 1 (rng s) = (Ok us, g) ->
  exists u b, us = [u] /\ 0 <= u < 1 /\
    event_occurs Or (OLit p) s = (Ok b, mkState g (corr s)) /\ (b = true <-> u < q).
Proof. exact event_runs. Qed.
Print Assumptions C25_event_below_p.

(** A distribution or function is sampled first, then the draw is made. *)
Theorem C25_event_of_distribution :
  forall Or o p x s s1 us g, is_dist_or_callable o = true ->
  smp Or o 1 None None s = (Ok (Scalar p), s1) -> as_x p = Some x ->
  drawf Or (RUniform 0 1) 1 (rng s1) = (Ok us, g) -> right_length Or ->
  exists u, us = [u] /\ event_occurs Or o s = (Ok (xlt (Fin u) x), mkState g (corr s1)).
Proof. exact event_dist. Qed.
Print Assumptions C25_event_of_distribution.

Theorem C25_event_never :
  forall Or, right_length Or -> in_support Or -> forall p q s b s',
  as_x p = Some (Fin q) -> q <= 0 -> event_occurs Or (OLit p) s = (Ok b, s') -> b = false.
Proof. exact event_never. Qed.
Print Assumptions C25_event_never.
Theorem C25_event_always :
  forall Or, right_length Or -> in_support Or -> forall p q s b s',
  as_x p = Some (Fin q) -> 1 <= q -> event_occurs Or (OLit p) s = (Ok b, s') -> b = true.
Proof. exact event_always. Qed.
Print Assumptions C25_event_always.
Theorem C25_event_monotone :
  forall Or, right_length Or -> in_support Or -> forall p1 q1 p2 q2 s b1 s1 b2 s2,
  as_x p1 = Some (Fin q1) -> as_x p2 = Some (Fin q2) -> q1 <= q2 ->
  event_occurs Or (OLit p1) s = (Ok b1, s1) -> event_occurs Or (OLit p2) s = (Ok b2, s2) ->
  b1 = true -> b2 = true.
Proof. exact event_monotone. Qed.
Print Assumptions C25_event_monotone.

Example C25_sat :
  event_occurs ex_oracle (OLit (PFlt (Fin (1#2)))) (ex_state 0) = (Ok true, ex_state 1) /\
  event_occurs ex_oracle (OLit (PFlt (Fin (1#2)))) (ex_state 2) = (Ok false, ex_state 3).
Proof. split; vm_compute; reflexivity. Qed.

(** C78: a normal distribution without sd cannot be sampled. *)
Theorem C78_incomplete_not_samplable :
  forall Or m lc rc n s, (1 <= n)%nat ->
  smp Or (ODist (DLeaf (LNormal m None) lc rc)) n None None s = (Err TypeError, s).
Proof. intros Or m lc rc [|n] s H; [lia|]. reflexivity. Qed.
Print Assumptions C78_incomplete_not_samplable.
