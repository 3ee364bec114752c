(** C182, C183: beta and gamma updates in double precision. *)
From Coq Require Import Qabs Permutation.
From Verif Require Import Base M_Double M_DoubleProb M_DoubleConj SpecFloat SpecDouble SpecDoubleConj P_DoubleConj.
Open Scope Q_scope.

(** C182.  Whole counts, up to a total of 2^53, are combined exactly in whatever order and grouping ... *)
Theorem C182_whole :
  forall t, Forall (fun p => whole (fst p) /\ whole (snd p)) (pieces t) ->
  sum_of fst (pieces t) <= inject_Z (2 ^ 53) -> sum_of snd (pieces t) <= inject_Z (2 ^ 53) ->
  fst (posterior t) == sum_of fst (pieces t) /\ snd (posterior t) == sum_of snd (pieces t).
Proof. exact beta_whole. Qed.
Print Assumptions C182_whole.
(** ... other counts within a relative 1.002 * n * 2^-53 for n pieces of evidence; two pieces commute. *)
Theorem C182_close :
  forall t, Forall (fun p => 0 <= fst p /\ 0 <= snd p) (pieces t) -> short_for double_u (length (pieces t)) ->
  let e := (1002 # 1000) * (inject_Z (Z.of_nat (length (pieces t))) * double_u) in
  Qabs (fst (posterior t) - sum_of fst (pieces t)) <= e * sum_of fst (pieces t) /\
  Qabs (snd (posterior t) - sum_of snd (pieces t)) <= e * sum_of snd (pieces t).
Proof. exact beta_close. Qed.
Print Assumptions C182_close.
Theorem C182_commutes : forall p e, fl_beta_update p e = fl_beta_update e p.
Proof. exact beta_comm. Qed.
Print Assumptions C182_commutes.
(** Fractional counts need not be grouped alike. *)
Theorem C182_grouping_refuted :
  exists x y z, Forall is_double [fst x; snd x; fst y; snd y; fst z; snd z] /\
  ~ fst (posterior (Both (Both (Single x) (Single y)) (Single z))) == fst (posterior (Both (Single x) (Both (Single y) (Single z)))).
Proof. exact beta_grouping. Qed.
Print Assumptions C182_grouping_refuted.
Example C182_sat : posterior (Both (Both (Single (1, 1)) (Single (7, 3))) (Single (0, 2))) = (8, 6) /\
  whole 7 /\ short_for double_u 3.
Proof. split; [vm_compute; reflexivity|]. split; [exists 7%Z; split; [vm_compute; discriminate|reflexivity] | vm_compute; discriminate]. Qed.

(** C183.  A gamma update of positive parameters succeeds, with positive parameters: the shape within a
    relative 3 * 2^-53 and the scale within 9 * 2^-53 of the exact ones ... *)
Theorem C183_close :
  forall s t s' t' w, 0 < s -> 0 < t -> 0 < s' -> 0 < t' -> 0 < w ->
  exists K Th, fl_gamma_update (s, t) (s', t') w = Ok (K, Th) /\ 0 < K /\ 0 < Th /\
    Qabs (K - exact_shape s s' w) <= 3 * double_u * exact_shape s s' w /\
    Qabs (Th - exact_scale s t s' t' w) <= 9 * double_u * exact_scale s t s' t' w.
Proof. exact gamma_close. Qed.
Print Assumptions C183_close.
(** ... and with weight 1 prior and evidence may be exchanged ... *)
Theorem C183_commutes :
  forall p e, is_double (fst p) -> is_double (fst e) -> fl_gamma_update p e 1 = fl_gamma_update e p 1.
Proof. exact gamma_comm. Qed.
Print Assumptions C183_commutes.
(** ... but the scale of two equal distributions can be below theirs. *)
Theorem C183_between_refuted :
  exists s t K Th, is_double s /\ is_double t /\ 0 < s /\ 0 < t /\ fl_gamma_update (s, t) (s, t) 1 = Ok (K, Th) /\ Th < t.
Proof. exact gamma_same_scale. Qed.
Print Assumptions C183_between_refuted.
Example C183_sat : fl_gamma_update (2, 1) (2, 2) 1 = Ok (4, Qred (rnd (4 # 3))) /\ exact_shape 2 2 1 == 4 /\ exact_scale 2 1 2 2 1 == 4 # 3 /\
  fl_gamma_update (2, 0) (2, 2) 1 = Err ZeroDivisionError.
Proof. repeat split; vm_compute; reflexivity. Qed.
