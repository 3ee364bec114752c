(** Resolve dates of the Kelly helpers (C140, C141). *)
From Coq Require Import Ascii String.
From Verif Require Import Base M_Kelly M_Date SpecKelly SpecDate P_Kelly P_Date.
Open Scope Q_scope.

(* ---------------------------------------------------------------- C140 *)
(** Exactly the texts that name an existing day are dates. *)
Theorem C140_accepted_exactly :
  forall s y m d, strptime s = Ok (Day y m d) <-> written s y m d /\ real_day y m d.
Proof. exact strptime_iff. Qed.
Print Assumptions C140_accepted_exactly.

(** With every other text, [kelly] raises ValueError. *)
Theorem C140_rejected :
  forall power now my m d b s c e, price m -> price my -> share d -> (my < m -> e = false) ->
  (~ exists y mo da, written s y mo da /\ real_day y mo da) ->
  exists text, kelly_on power now my m d b (Some s) c e = Err (ValueError text).
Proof.
  intros power now my m d b s c e M P D E H. exists "time data does not match format"%string. unfold kelly_on.
  rewrite (proj1 (resolve_bad now s) H). now apply kelly_dates.
Qed.
Print Assumptions C140_rejected.

(** Of two existing days, one is some number of days after the other. *)
Theorem C140_calendar :
  forall y m d y' m' d', real_day y m d -> real_day y' m' d' ->
  exists n, days_after n (y, m, d) (y', m', d') \/ days_after n (y', m', d') (y, m, d).
Proof. exact days_total. Qed.
Print Assumptions C140_calendar.

Example C140_sat :
  strptime "2024-02-29" = Ok (Day 2024 2 29) /\ strptime "2024-2- 9" = Ok (Day 2024 2 9) /\
  (exists t, strptime "2023-02-29" = Err (ValueError t)) /\ (exists t, strptime "1900-02-29" = Err (ValueError t)) /\
  (exists t, strptime "2024-12-32" = Err (ValueError t)) /\ (exists t, strptime "24-12-3" = Err (ValueError t)) /\
  written "2024-2-29" 2024 2 29 /\ real_day 2024 2 29.
Proof.
  assert (S : strptime "2024-2-29" = Ok (Day 2024 2 29)) by (vm_compute; reflexivity). apply strptime_iff in S as [W R].
  repeat match goal with |- _ /\ _ => split end; try (vm_compute; reflexivity); try (eexists; vm_compute; reflexivity); auto.
Qed.

(* ---------------------------------------------------------------- C141 *)
(** From tomorrow's date there is no annualised return: the days left are 0. *)
Theorem C141_refuted :
  exists now s, forall power my m d b c, price m -> price my -> share d -> m <= my ->
  (exists y mo da, written s y mo da /\ real_day y mo da /\
     days_after 1 (year (on now), month (on now), dom (on now)) (y, mo, da)) /\
  kelly_on power now my m d b (Some s) c true = Err ZeroDivisionError.
Proof.
  exists (At (Day 2024 2 29) 54000000000), "2024-03-01"%string. intros power my m d b c M P D L. split.
  - exists 2024%Z, 3%Z, 1%Z. assert (S : strptime "2024-03-01" = Ok (Day 2024 3 1)) by (vm_compute; reflexivity).
    apply strptime_iff in S as [W R]. split; [exact W|]. split; [exact R|]. econstructor; [constructor|].
    apply (next_month 2024 2 29); [constructor|reflexivity]. apply leap_iff. reflexivity.
  - unfold kelly_on. replace (resolve _ _) with (InDays 0) by (vm_compute; reflexivity).
    refine (proj2 (kelly_dates power my m d b c true M P D _)). intros X. exfalso. now apply (Qlt_not_le my m).
Qed.
Print Assumptions C141_refuted.

(** After midnight one day too few is counted. *)
Theorem C141_one_day_less :
  forall power yn mn dn t s y mo da n my m d b c e, time_of_day t -> (0 < t)%Z ->
  written s y mo da -> real_day y mo da -> days_after n (yn, mn, dn) (y, mo, da) ->
  kelly_on power (At (Day yn mn dn) t) my m d b (Some s) c e = kelly power my m d b (InDays (Z.of_nat n - 1)) c e.
Proof.
  intros power yn mn dn t s y mo da n my m d b c e T P W R A. unfold kelly_on. rewrite (ahead_days _ _ _ _ _ _ _ _ _ T W R A).
  destruct (Z.eqb_spec t 0); [lia|]. reflexivity.
Qed.
Print Assumptions C141_one_day_less.

(** The right number exactly at midnight. *)
Theorem C141_at_midnight_partial :
  forall power yn mn dn s y mo da n my m d b c e,
  written s y mo da -> real_day y mo da -> days_after n (yn, mn, dn) (y, mo, da) ->
  kelly_on power (At (Day yn mn dn) 0) my m d b (Some s) c e = kelly power my m d b (InDays (Z.of_nat n)) c e.
Proof.
  intros power yn mn dn s y mo da n my m d b c e W R A. unfold kelly_on.
  rewrite (ahead_days yn mn dn 0 s y mo da n ltac:(unfold time_of_day; lia) W R A). cbn [Z.eqb]. now rewrite Z.sub_0_r.
Qed.
Print Assumptions C141_at_midnight_partial.

(** Days that are over count negative, and one more; they are not rejected. *)
Theorem C141_past_dates :
  forall power yn mn dn t s y mo da n my m d b c e, time_of_day t -> (0 < t)%Z ->
  written s y mo da -> real_day y mo da -> days_after n (y, mo, da) (yn, mn, dn) ->
  kelly_on power (At (Day yn mn dn) t) my m d b (Some s) c e = kelly power my m d b (InDays (- Z.of_nat n - 1)) c e.
Proof.
  intros power yn mn dn t s y mo da n my m d b c e T P W R A. unfold kelly_on. rewrite (past_days _ _ _ _ _ _ _ _ _ T W R A).
  destruct (Z.eqb_spec t 0); [lia|]. reflexivity.
Qed.
Print Assumptions C141_past_dates.

(** Hence tomorrow always fails. *)
Theorem C141_tomorrow_fails :
  forall power yn mn dn t s y mo da my m d b c e, time_of_day t -> (0 < t)%Z ->
  written s y mo da -> real_day y mo da -> next_day (yn, mn, dn) (y, mo, da) ->
  price m -> price my -> share d -> (my < m -> e = false) ->
  kelly_on power (At (Day yn mn dn) t) my m d b (Some s) c e = Err ZeroDivisionError.
Proof.
  intros power yn mn dn t s y mo da my m d b c e T P W R A M My D E.
  rewrite (C141_one_day_less power yn mn dn t s y mo da 1 my m d b c e T P W R) by (econstructor; [constructor|exact A]).
  now apply kelly_dates.
Qed.
Print Assumptions C141_tomorrow_fails.

Example C141_sat :
  time_of_day 54000000000 /\ resolve (At (Day 2023 12 25) 54000000000) (Some "2024-01-04"%string) = InDays 9 /\
  resolve (At (Day 2023 12 25) 0) (Some "2024-01-04"%string) = InDays 10 /\
  resolve (At (Day 2023 12 25) 54000000000) (Some "2023-12-25"%string) = InDays (-1) /\
  days_after 2 (2023, 12, 31)%Z (2024, 1, 2)%Z /\ next_day (2023, 12, 31)%Z (2024, 1, 1)%Z.
Proof.
  split; [unfold time_of_day; lia|]. split; [vm_compute; reflexivity|]. split; [vm_compute; reflexivity|]. split; [vm_compute; reflexivity|].
  assert (N : next_day (2023, 12, 31)%Z (2024, 1, 1)%Z) by apply next_year. split; [|exact N].
  econstructor; [econstructor; [constructor|exact N]|]. eapply (next_in_month 2024 1 1 31); [constructor; simpl; tauto|reflexivity].
Qed.
