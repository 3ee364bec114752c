(** C113, C120: tdist(low, high) under a change of units. *)
From Verif Require Import Base M_Weights M_Values M_Sampler SpecSampler SpecT P_TDist.
Open Scope Q_scope.
Notation tdist lo hi t cred := (ODist (DLeaf (LT (Some lo) (Some hi) t cred) None None)).

(** Multiplying both bounds by a positive number multiplies every sample by it. *)
Theorem C113_scale_equivariant :
  forall Or, right_length Or -> location_scale Or ->
  forall lo hi lo' hi' c t cred n s v s',
  num_q lo < num_q hi -> 0 < c -> num_q lo' == c * num_q lo -> num_q hi' == c * num_q hi ->
  positive_quantile Or cred ->
  smp Or (tdist lo hi t cred) n None None s = (Ok v, s') ->
  exists w, smp Or (tdist lo' hi' t cred) n None None s = (Ok w, s') /\
    Forall2 (float_pair (fun a b => b == c * a)) (elems v) (elems w).
Proof. exact t_scale. Qed.
Print Assumptions C113_scale_equivariant.

(** Adding [c] to both bounds adds [c] divided by the root of the chi-square
    draw over the degrees of freedom. *)
Theorem C113_effect_of_shift :
  forall Or, right_length Or -> location_scale Or ->
  forall lo hi lo' hi' c t cred n s v s',
  num_q lo < num_q hi -> num_q lo' == num_q lo + c -> num_q hi' == num_q hi + c ->
  positive_quantile Or cred ->
  smp Or (tdist lo hi t cred) n None None s = (Ok v, s') ->
  exists w g cs, smp Or (tdist lo' hi' t cred) n None None s = (Ok w, s') /\
    drawf Or (RChi t) n g = (Ok cs, rng s') /\
    pairwise3 (fun x a b => b == a + c / sqrt_ Or (x / t)) cs (elems v) (elems w).
Proof. exact t_shift. Qed.
Print Assumptions C113_effect_of_shift.

(** So the samples do not move with the bounds: with chi-square draws of 4 and
    one degree of freedom every sample moves by half the shift. *)
Theorem C113_shift_equivariant_refuted :
  exists lo hi c t cred,
  lo < hi /\ ~ c == 0 /\ positive_quantile t_oracle cred /\
  forall n s v s',
    smp t_oracle (tdist (NF lo) (NF hi) t cred) n None None s = (Ok v, s') ->
    exists w, smp t_oracle (tdist (NF (lo + c)) (NF (hi + c)) t cred) n None None s = (Ok w, s') /\
      Forall2 (float_pair (fun a b => b == a + (1#2) * c)) (elems v) (elems w).
Proof. exact t_shift_fails. Qed.
Print Assumptions C113_shift_equivariant_refuted.

Example C113_sat :
  right_length t_oracle /\ location_scale t_oracle /\ positive_quantile t_oracle 90 /\
  (exists v s', smp t_oracle (tdist (NF 0) (NF 1) 1 90) 3 None None (mkState 0%nat (fun _ _ => None)) = (Ok v, s')).
Proof.
  split; [exact t_oracle_length|]. split; [exact t_oracle_ls|]. split; [reflexivity|].
  do 2 eexists. vm_compute. reflexivity.
Qed.

(* ---------------------------------------------------------------- C120 *)
(** log_tdist(low, high) is exp of tdist(log low, log high). *)
Theorem C120_log_space :
  forall Or lo hi t cred n s, 0 < num_q lo -> num_q lo < num_q hi ->
  log_ Or (num_q lo) < log_ Or (num_q hi) ->
  smp Or (ODist (DLeaf (LLogT (Some lo) (Some hi) t cred) None None)) n None None s =
  match smp Or (tdist (NF (log_ Or (num_q lo))) (NF (log_ Or (num_q hi))) t cred) n None None s with
  | (Ok v, s') => (Ok (on_val (on_floats (exp_ Or)) v), s')
  | (Err e, s') => (Err e, s')
  end.
Proof. exact log_t_is_exp. Qed.
Print Assumptions C120_log_space.
Example C120_sat :
  log_ t_oracle (num_q (NF 1)) < log_ t_oracle (num_q (NF 2)) /\
  exists v s', smp t_oracle (tdist (NF 1) (NF 2) 1 90) 3 None None (mkState 0%nat (fun _ _ => None)) = (Ok v, s').
Proof. split; [reflexivity|]. do 2 eexists. vm_compute. reflexivity. Qed.

(** Without bounds this holds for one sample only: log_tdist draws once. *)
Theorem C120_no_bounds_refuted :
  exists t n s v s', smp ex_oracle (ODist (DLeaf (LLogT None None t 90) None None)) n None None s = (Ok (Scalar v), s') /\
    exists w s'', smp ex_oracle (ODist (DLeaf (LT None None t 90) None None)) n None None s = (Ok (Arr w), s'') /\ length w = 3%nat.
Proof.
  exists 20, 3%nat, (ex_state 0). do 2 eexists. split; [vm_compute; reflexivity|].
  do 2 eexists. split; vm_compute; reflexivity.
Qed.
Print Assumptions C120_no_bounds_refuted.
