(** Constructor checks, PERT and dice (C83-C86, C96, C115). *)
From Verif Require Import Base M_Weights M_Values M_Sampler M_Ctor SpecSampler SpecCtor P_Ctor P_Dice P_Request P_Ctor2 P_DieRun.
Open Scope Q_scope.

(* ---------------------------------------------------------------- C83 *)
Theorem C83_accepts_exactly_documented :
  forall T (c : ctor), (exists d : dist T, construct c = Ok d) <-> documented c.
Proof. exact @construct_accepts. Qed.
Print Assumptions C83_accepts_exactly_documented.

Theorem C83_rejection :
  forall T (c : ctor) e, construct (T := T) c = Err e -> e = AssertionError \/ exists s, e = ValueError s.
Proof. exact @construct_error. Qed.
Print Assumptions C83_rejection.

Theorem C83_accepted_can_be_sampled :
  forall Or, numpy_checks Or -> right_length Or ->
  forall (c : ctor) (d : dist (G Or)) n s,
  fully_checked c -> construct c = Ok d -> (1 <= n)%nat ->
  exists v s', smp Or (ODist d) n None None s = (Ok v, s').
Proof. exact checked_runs. Qed.
Print Assumptions C83_accepted_can_be_sampled.

Example C83_sat :
  numpy_checks strict_oracle /\ right_length strict_oracle /\ in_support strict_oracle /\
  fully_checked (NewPert 1 2 4 4 (Some (NI 2)) None) /\
  construct (T := nat) (NewPert 1 2 4 4 (Some (NI 2)) None) = Ok (DLeaf (LPert 1 2 4 4) (Some (NI 2)) None) /\
  (exists v s', smp strict_oracle (ODist (DLeaf (LPert 1 2 4 4) (Some (NI 2)) None)) 3 None None (strict_state 0) = (Ok v, s')) /\
  construct (T := nat) (NewUniform 3 3) = Err AssertionError /\
  (exists m, construct (T := nat) (NewTriangular 1 0 4 None None) = Err (ValueError m)).
Proof.
  split; [exact strict_checks|]. split; [exact strict_length|]. split; [exact strict_support|].
  split; [exact I|]. split; [vm_compute; reflexivity|]. split; [eexists; eexists; vm_compute; reflexivity|].
  split; [reflexivity|]. eexists. reflexivity.
Qed.

(* ---------------------------------------------------------------- C84 *)
(** Some constructors let parameters through that can never be sampled. *)
Theorem C84_refuted :
  exists (c : ctor), (forall T, exists d : dist T, construct c = Ok d) /\
    forall Or (d : dist (G Or)) n s, numpy_checks Or -> right_length Or -> construct c = Ok d -> (1 <= n)%nat ->
      exists msg s', smp Or (ODist d) n None None s = (Err (ValueError msg), s').
Proof. exact unsamplable. Qed.
Print Assumptions C84_refuted.

Theorem C84_all_unchecked_kinds :
  forall c, In c [NewGeometric 0; NewPoisson (-1) None None; NewBeta 0 1; NewBeta 1 0; NewPareto 0; NewNorm None (-1) None None;
                  NewLognorm None (-1) None None; NewGamma (-1) 1 None None; NewGamma 1 (-1) None None; NewBinomial (-1) (1#2);
                  NewT None None 0 90 None None; NewLogT None None 0 90 None None] ->
  forall Or (d : dist (G Or)) n s, numpy_checks Or -> right_length Or -> construct c = Ok d -> (1 <= n)%nat ->
  exists msg s', smp Or (ODist d) n None None s = (Err (ValueError msg), s').
Proof. exact unchecked_kinds. Qed.
Print Assumptions C84_all_unchecked_kinds.

Theorem C84_exactly_the_meaningful_partial :
  forall Or, numpy_checks Or -> right_length Or ->
  forall (c : ctor) k lc rc n s,
  construct (T := G Or) c = Ok (DLeaf k lc rc) -> one_request k -> (1 <= n)%nat ->
  (meaningful k -> exists v s', smp Or (ODist (DLeaf k lc rc)) n None None s = (Ok v, s')) /\
  (~ meaningful k -> exists msg s', smp Or (ODist (DLeaf k lc rc)) n None None s = (Err (ValueError msg), s')).
Proof. exact samples_iff. Qed.
Print Assumptions C84_exactly_the_meaningful_partial.

(** t distributions with bounds: the degrees of freedom and the credibility
    decide, and nobody checks them before sampling. *)
Theorem C84_t_with_bounds :
  forall Or, numpy_checks Or -> forall k lo hi t cred lc rc n s,
  (k = LT (Some lo) (Some hi) t cred \/
   k = LLogT (Some lo) (Some hi) t cred /\ 0 < num_q lo /\ log_ Or (num_q lo) < log_ Or (num_q hi)) ->
  num_q lo < num_q hi -> (1 <= n)%nat ->
  let q := ppf Or ((1#2) + (1#2) * (cred / 100)) in
  (0 < q -> 0 < t -> exists v s', smp Or (ODist (DLeaf k lc rc)) n None None s = (Ok v, s')) /\
  (q < 0 \/ (0 < q /\ ~ 0 < t) -> exists msg s', smp Or (ODist (DLeaf k lc rc)) n None None s = (Err (ValueError msg), s')).
Proof. exact bounded_t_samples. Qed.
Print Assumptions C84_t_with_bounds.

(** Invalid weights of a discrete distribution raise when it is sampled. *)
Theorem C84_discrete_checked_late :
  forall Or k e n s, (1 <= n)%nat ->
  (exists items, k = LCatList items /\ cat_list items = Err e) \/
  (exists items, k = LCatDict items /\ cat_dict items = Err e) ->
  smp Or (ODist (DLeaf k None None)) n None None s = (Err e, s).
Proof. exact discrete_rejected. Qed.
Print Assumptions C84_discrete_checked_late.

Example C84_sat :
  (exists d : dist nat, construct (NewGeometric 0) = Ok d) /\ one_request (LGeometric 0) /\ ~ meaningful (LGeometric 0) /\
  meaningful (LGamma 2 1) /\ one_request (LGamma 2 1) /\
  (exists v s', smp strict_oracle (ODist (DLeaf (LGamma 2 1) None (Some (NF (1#2))))) 3 None None (strict_state 0) = (Ok v, s')) /\
  (exists m s', smp strict_oracle (ODist (DLeaf (LGeometric 0) None None)) 3 None None (strict_state 0) = (Err (ValueError m), s')) /\
  (exists v s', smp strict_oracle (ODist (DLeaf (LT (Some (NI 1)) (Some (NI 2)) 3 90) None None)) 3 None None (strict_state 0) = (Ok v, s')) /\
  (exists m, cat_dict [(PInt 1, Num (1#2))] = Err (ValueError m)).
Proof.
  split; [eexists; reflexivity|]. split; [exact I|]. split; [intros [H _]; now apply Qlt_irrefl in H|].
  split; [split; discriminate|]. split; [exact I|].
  do 3 (split; [eexists; eexists; vm_compute; reflexivity|]). eexists. vm_compute. reflexivity.
Qed.

(* ---------------------------------------------------------------- C85 *)
Theorem C85_beta_parameters :
  forall l m r lam, l <= m -> m <= r -> l < r -> 0 <= lam ->
  1 <= pert_alpha l m r lam /\ 1 <= pert_beta l m r lam /\
  pert_alpha l m r lam + pert_beta l m r lam == 2 + lam.
Proof. exact pert_params. Qed.
Print Assumptions C85_beta_parameters.

(** The mean of a beta(a, b) variable is a / (a + b). *)
Theorem C85_mean :
  forall l m r lam, l < r -> 0 <= lam ->
  let a := pert_alpha l m r lam in let b := pert_beta l m r lam in
  l + (a / (a + b)) * (r - l) == (l + lam * m + r) / (lam + 2).
Proof. exact pert_mean. Qed.
Print Assumptions C85_mean.

(** The mode of a beta(a, b) variable is (a - 1) / (a + b - 2). *)
Theorem C85_mode :
  forall l m r lam, l < r -> 0 < lam ->
  let a := pert_alpha l m r lam in let b := pert_beta l m r lam in
  l + ((a - 1) / (a + b - 2)) * (r - l) == m.
Proof. exact pert_mode. Qed.
Print Assumptions C85_mode.

Theorem C85_samples_are_scaled_beta_draws :
  forall Or l m r lam n s v s', (1 <= n)%nat -> l < r ->
  smp Or (ODist (DLeaf (LPert l m r lam) None None)) n None None s = (Ok v, s') ->
  exists xs g, drawf Or (RBeta (pert_alpha l m r lam) (pert_beta l m r lam)) n (rng s) = (Ok xs, g) /\
    s' = mkState g (corr s) /\ elems v = map (fun x => PFlt (Fin (l + x * (r - l)))) xs.
Proof. exact pert_draws. Qed.
Print Assumptions C85_samples_are_scaled_beta_draws.

(** The sampler itself, called without a width, divides by zero. *)
Theorem C85_no_width :
  forall Or l m r lam n s, l == r -> pert_sample Or l m r lam n s = (Err ZeroDivisionError, s).
Proof. exact pert_no_width. Qed.
Print Assumptions C85_no_width.

Example C85_sat :
  pert_alpha 0 1 4 4 == 2 /\ pert_beta 0 1 4 4 == 4 /\
  exists v s', smp strict_oracle (ODist (DLeaf (LPert 0 1 4 4) None None)) 2 None None (strict_state 0) = (Ok v, s').
Proof. split; [reflexivity|]. split; [reflexivity|]. eexists; eexists; vm_compute; reflexivity. Qed.

(* ---------------------------------------------------------------- C86 *)
Theorem C86_accepted :
  forall sides ex k, die_of sides ex = Ok k <->
  exists n zs, k = LDie n zs /\ py_int sides n /\ (2 <= n)%Z /\ explodes n ex zs.
Proof. exact die_accepts. Qed.
Print Assumptions C86_accepted.

Theorem C86_rejection_is_ValueError :
  forall sides ex e, die_of sides ex = Err e -> exists s, e = ValueError s.
Proof. exact die_rejects. Qed.
Print Assumptions C86_rejection_is_ValueError.

Theorem C86_some_face_never_explodes :
  forall sides ex n l, die_of sides ex = Ok (LDie n (Some l)) -> exists f, (1 <= f <= n)%Z /\ ~ In f l.
Proof. exact accepted_free_face. Qed.
Print Assumptions C86_some_face_never_explodes.

(** [n] samples are [n] throws in a row, each the sum of its rolls; at most
    [die_fuel] explosions per throw are modelled. *)
Theorem C86_samples_are_throws :
  forall Or sides ex n s v s', (1 <= n)%nat ->
  (smp Or (ODist (DLeaf (LDie sides ex) None None)) n None None s = (Ok v, s') <->
   exists zs, length zs = n /\ throws Or sides ex (die_fuel Or) s zs s' /\ v = simplify (map PInt zs)).
Proof. exact die_throws. Qed.
Print Assumptions C86_samples_are_throws.

Theorem C86_plain_die_is_the_draw :
  forall Or sides s v s',
  smp Or (ODist (DLeaf (LDie sides None) None None)) 1 None None s = (Ok v, s') <->
  exists z g, drawi Or (RInt 1 (sides + 1)) 1 (rng s) = (Ok [z], g) /\ s' = mkState g (corr s) /\ v = Scalar (PInt z).
Proof. exact plain_die. Qed.
Print Assumptions C86_plain_die_is_the_draw.

(** A die exploding on one face never shows that face, *)
Theorem C86_single_value_never_shown :
  forall Or, in_support Or -> forall sides v n s a s', (1 <= v <= sides)%Z -> (1 <= n)%nat ->
  smp Or (ODist (DLeaf (LDie sides (Some [v])) None None)) n None None s = (Ok a, s') -> ~ In (PInt v) (elems a).
Proof. exact single_never_shown. Qed.
Print Assumptions C86_single_value_never_shown.

(** and if it is the highest face, the total tells the rolls. *)
Theorem C86_top_face_total_tells_the_rolls :
  forall Or, in_support Or -> forall sides s z s', (2 <= sides)%Z ->
  smp Or (ODist (DLeaf (LDie sides (Some [sides])) None None)) 1 None None s = (Ok (Scalar (PInt z)), s') ->
  rolled Or sides s (repeat sides (Z.to_nat (z / sides)) ++ [z mod sides]%Z) s' /\ (1 <= z mod sides)%Z.
Proof. exact top_face_sample. Qed.
Print Assumptions C86_top_face_total_tells_the_rolls.

Theorem C86_continuous_sides_refused :
  forall Or k ex s d s', float_leaf k -> die Or (ODist (DLeaf k None None)) ex s = (Ok d, s') -> False.
Proof. exact float_sides. Qed.
Print Assumptions C86_continuous_sides_refused.

Example C86_sat :
  die_of (PInt 6) (ExOne (PInt 6)) = Ok (LDie 6 (Some [6%Z])) /\
  die_of (PInt 3) (ExList [PInt 1; PBool true]) = Ok (LDie 3 (Some [1; 1]%Z)) /\
  (exists m, die_of (PInt 2) (ExList [PInt 1; PInt 2]) = Err (ValueError m)) /\
  (exists zs s', throws strict_oracle 3 (Some [1%Z]) 20 (strict_state 0) zs s' /\ zs = [1 + 1 + 3; 2]%Z) /\
  (exists d s', die strict_oracle (ODist (DLeaf (LDie 4 None) None None)) ExNone (strict_state 2) = (Ok d, s')).
Proof.
  split; [reflexivity|]. split; [reflexivity|]. split; [eexists; reflexivity|]. split; [|eexists; eexists; vm_compute; reflexivity].
  exact dice_example.
Qed.

(* ---------------------------------------------------------------- C96 *)
(** [triangular] takes clips and drops them. *)
Theorem C96_refuted :
  exists l m r hi (d : dist nat) n v s', construct (NewTriangular l m r None (Some hi)) = Ok d /\
    smp strict_oracle (ODist d) n None None (strict_state 0) = (Ok v, s') /\
    exists q, In (PFlt (Fin q)) (elems v) /\ num_q hi < q.
Proof. exact triangular_clip_lost. Qed.
Print Assumptions C96_refuted.

Theorem C96_clips_have_no_effect :
  forall T l m r lc rc, construct (T := T) (NewTriangular l m r lc rc) = construct (NewTriangular l m r None None).
Proof. exact @triangular_clips_ignored. Qed.
Print Assumptions C96_clips_have_no_effect.

(** The constructors that keep their clips: every sample respects them. *)
Theorem C96_other_clips_kept :
  forall Or (c : ctor) (d : dist (G Or)) lo hi n s v s',
  ctor_clips c = Some (Some lo, Some hi) -> num_q lo <= num_q hi -> construct c = Ok d ->
  smp Or (ODist d) n None None s = (Ok v, s') ->
  Forall (fun x => exists y, as_x x = Some y /\ within (Some (num_q lo)) (Some (num_q hi)) y) (elems v).
Proof. exact clips_kept. Qed.
Print Assumptions C96_other_clips_kept.

Example C96_sat :
  ctor_clips (NewGamma 2 1 (Some (NI 0)) (Some (NF (1#2)))) = Some (Some (NI 0), Some (NF (1#2))) /\
  exists v s', smp strict_oracle (ODist (DLeaf (LGamma 2 1) (Some (NI 0)) (Some (NF (1#2))))) 3 None None (strict_state 0) = (Ok v, s').
Proof. split; [reflexivity|]. eexists; eexists; vm_compute; reflexivity. Qed.

(* ---------------------------------------------------------------- C115 *)
(** A constructor of a float distribution makes the one generator call its
    name and parameters ask for; clips act on top (C15). *)
Theorem C115_float_distributions :
  forall Or (c : ctor) (d : dist (G Or)) r f n s v s',
  (1 <= n)%nat -> construct c = Ok d -> float_request c = Some (r, f) ->
  (smp Or (unclipped (ODist d)) n None None s = (Ok v, s') <->
   exists xs g, drawf Or r n (rng s) = (Ok xs, g) /\ s' = mkState g (corr s) /\ v = simplify (map f xs)).
Proof. exact float_requests. Qed.
Print Assumptions C115_float_distributions.

Theorem C115_integer_distributions :
  forall Or, right_length Or -> forall (c : ctor) (d : dist (G Or)) r f n s v s',
  (1 <= n)%nat -> construct c = Ok d -> int_request c = Some (r, f) ->
  (smp Or (unclipped (ODist d)) n None None s = (Ok v, s') <->
   exists xs g, drawi Or r n (rng s) = (Ok xs, g) /\ s' = mkState g (corr s) /\ v = simplify (map f xs)).
Proof. exact int_requests. Qed.
Print Assumptions C115_integer_distributions.

(** An error of the generator is the error of the sampling, clipped or not. *)
Theorem C115_generator_errors :
  forall Or (c : ctor) (d : dist (G Or)) n s e g,
  (1 <= n)%nat -> construct c = Ok d ->
  (exists r f, float_request c = Some (r, f) /\ drawf Or r n (rng s) = (Err e, g)) ->
  smp Or (ODist d) n None None s = (Err e, mkState g (corr s)).
Proof. exact request_errors. Qed.
Print Assumptions C115_generator_errors.

Example C115_sat :
  float_request (NewGamma 2 3 None None) = Some (RGamma 2 3, fun q => PFlt (Fin q)) /\
  construct (T := nat) (NewGamma 2 3 None None) = Ok (DLeaf (LGamma 2 3) None None) /\
  exists v s', smp strict_oracle (ODist (DLeaf (LGamma 2 3) None None)) 3 None None (strict_state 0) = (Ok v, s').
Proof. split; [reflexivity|split; [reflexivity|]]. eexists; eexists; vm_compute; reflexivity. Qed.
