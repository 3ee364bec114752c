(** C187: distributions with parameters are rescaled standard ones. *)
From Coq Require Import Lqa.
From Verif Require Import Base M_Values M_Sampler M_Ops SpecSampler SpecOps SpecRising SpecStandard P_Standard.
Open Scope Q_scope.

(* ---------------------------------------------------------------- C187 *)
(** [uniform(lo, hi)] has the samples of [uniform(0, 1) * (hi - lo) + lo], ... *)
Theorem C187_uniform :
  forall Or, right_length Or -> standard_draws Or -> forall lo hi n, num_q lo <= num_q hi -> (1 <= n)%nat ->
  alike Or n (plain_leaf Or (LUniform (num_q lo) (num_q hi))) (times_plus Or (plain_leaf Or (LUniform 0 1)) (NF (num_q hi - num_q lo)) lo).
Proof. exact uniform_alike. Qed.
Print Assumptions C187_uniform.
(** ... [norm(mean=m, sd=sd)] those of [norm(mean=0, sd=1) * sd + m], ... *)
Theorem C187_normal :
  forall Or, right_length Or -> standard_draws Or -> forall m sd n, 0 <= num_q sd -> (1 <= n)%nat ->
  alike Or n (plain_leaf Or (LNormal (num_q m) (Some (num_q sd)))) (times_plus Or (plain_leaf Or (LNormal 0 (Some 1))) sd m).
Proof. exact normal_alike. Qed.
Print Assumptions C187_normal.
(** ... [exponential(s)] those of [exponential(1) * s] ... *)
Theorem C187_exponential :
  forall Or, right_length Or -> standard_draws Or -> forall sc n, 0 <= num_q sc -> (1 <= n)%nat ->
  alike Or n (plain_leaf Or (LExponential (num_q sc))) (times Or (plain_leaf Or (LExponential 1)) sc).
Proof. exact exponential_alike. Qed.
Print Assumptions C187_exponential.
(** ... and [gamma(k, s)] those of [gamma(k) * s]. *)
Theorem C187_gamma :
  forall Or, right_length Or -> standard_draws Or -> forall k sc n, 0 < k -> 0 <= num_q sc -> (1 <= n)%nat ->
  alike Or n (plain_leaf Or (LGamma k (num_q sc))) (times Or (plain_leaf Or (LGamma k 1)) sc).
Proof. exact gamma_alike. Qed.
Print Assumptions C187_gamma.
(** Raising the bounds of a uniform, the mean of a normal, or the scale of an exponential or
    gamma distribution lowers no sample. *)
Theorem C187_uniform_rises :
  forall Or, right_length Or -> standard_draws Or -> in_support Or -> forall lo hi lo' hi' n,
  lo <= hi -> lo' <= hi' -> lo <= lo' -> hi <= hi' -> (1 <= n)%nat ->
  never_above Or n (plain_leaf Or (LUniform lo hi)) (plain_leaf Or (LUniform lo' hi')).
Proof. exact uniform_rise. Qed.
Print Assumptions C187_uniform_rises.
Theorem C187_normal_rises :
  forall Or, right_length Or -> standard_draws Or -> in_support Or -> forall m m' sd n, 0 <= sd -> m <= m' -> (1 <= n)%nat ->
  never_above Or n (plain_leaf Or (LNormal m (Some sd))) (plain_leaf Or (LNormal m' (Some sd))).
Proof. exact normal_rise. Qed.
Print Assumptions C187_normal_rises.
Theorem C187_exponential_rises :
  forall Or, right_length Or -> standard_draws Or -> in_support Or -> forall sc sc' n, 0 <= sc -> sc <= sc' -> (1 <= n)%nat ->
  never_above Or n (plain_leaf Or (LExponential sc)) (plain_leaf Or (LExponential sc')).
Proof. exact exponential_rise. Qed.
Print Assumptions C187_exponential_rises.
Theorem C187_gamma_rises :
  forall Or, right_length Or -> standard_draws Or -> in_support Or -> forall k sc sc' n, 0 < k -> 0 <= sc -> sc <= sc' -> (1 <= n)%nat ->
  never_above Or n (plain_leaf Or (LGamma k sc)) (plain_leaf Or (LGamma k sc')).
Proof. exact gamma_rise. Qed.
Print Assumptions C187_gamma_rises.
(** The same holds for the mean of the logarithm in a lognormal distribution; samples
    of the inverse of one fall. *)
Theorem C187_lognormal_rises :
  forall Or, right_length Or -> standard_draws Or -> exponential_draws Or -> forall m m' sd n, 0 <= sd -> m <= m' -> (1 <= n)%nat ->
  never_above Or n (plain_leaf Or (LLognormal m sd)) (plain_leaf Or (LLognormal m' sd)).
Proof. exact lognormal_rise. Qed.
Print Assumptions C187_lognormal_rises.
Theorem C187_inverse_falls :
  forall Or, right_length Or -> standard_draws Or -> exponential_draws Or -> forall m m' sd n, 0 <= sd -> m <= m' -> (1 <= n)%nat ->
  never_above Or n (plain_leaf Or (LInvLognormal m' sd)) (plain_leaf Or (LInvLognormal m sd)).
Proof. exact inverse_falls. Qed.
Print Assumptions C187_inverse_falls.
(** Raising the standard deviation of a normal distribution can lower samples. *)
Theorem C187_normal_sd_refuted :
  exists Or, right_length Or /\ standard_draws Or /\ in_support Or /\
  ~ never_above Or 1 (plain_leaf Or (LNormal 0 (Some 1))) (plain_leaf Or (LNormal 0 (Some 2))).
Proof. exists std_oracle. split; [exact std_length|]. split; [exact std_standard|]. split; [exact std_support|exact normal_sd_falls]. Qed.
Print Assumptions C187_normal_sd_refuted.
Example C187_sat :
  right_length std_oracle /\ standard_draws std_oracle /\ in_support std_oracle /\ exponential_draws std_oracle /\
  exists a b a' b' s,
    smp std_oracle (plain_leaf std_oracle (LUniform 2 4)) 2 None None (std_state 0) = (Ok (Arr [PFlt (Fin a); PFlt (Fin b)]), s) /\
    smp std_oracle (times_plus std_oracle (plain_leaf std_oracle (LUniform 0 1)) (NI 2) (NI 2)) 2 None None (std_state 0)
      = (Ok (Arr [PFlt (Fin a'); PFlt (Fin b')]), s) /\ a == (13#5) /\ a' == (13#5) /\ b == 2 /\ b' == 2.
Proof.
  split; [exact std_length|]. split; [exact std_standard|]. split; [exact std_support|]. split; [exact std_exponential|].
  do 5 eexists. split; [vm_compute; reflexivity|]. split; [vm_compute; reflexivity|]. repeat split.
Qed.
