(** The text of a distribution as code (C124). *)
From Coq Require Import Ascii String.
From Verif Require Import Base M_Values M_Sampler M_Ops M_Str M_Ctor SpecStr SpecCall SpecRound P_Call P_CallRound.
From Verif Require M_Dists.
Open Scope string_scope.

(** The text is a Python call that performs the constructor call: for the leaves
    that print exactly ... *)
Theorem C124_text_is_code_partial :
  forall fmt k c, prints_exactly k -> ctor_of k = Some c ->
  exists call, leaf_text fmt k = head_mark ++ render fmt call /\ eval_call call = Some c.
Proof. intros fmt k c P H. exists (the_call k). split; [apply text_is_call, exact_form, P|now apply call_builds]. Qed.
Print Assumptions C124_text_is_code_partial.
(** ... not for PERT distributions: there is no function of that name; *)
Theorem C124_pert_refuted :
  forall fmt l m r a lc rc, signature "PERT" = None /\
  exists args, leaf_text fmt (KPert l m r a lc rc) =
    head_mark ++ render fmt (mkPy "PERT" ([(None, num_pv l); (None, num_pv m); (None, num_pv r); (Some "lam", num_pv a)] ++ args)%list) /\
    (lc = None -> rc = None -> args = []).
Proof.
  intros. split; [reflexivity|]. exists (clip_args lc rc).
  split; [exact (text_is_call fmt (KPert l m r a lc rc) I)|intros -> ->; reflexivity].
Qed.
Print Assumptions C124_pert_refuted.
(** nor for categorical distributions, made by [discrete]; *)
Theorem C124_categorical_refuted :
  forall fmt, signature "categorical" = None /\
  (forall l, exists args, leaf_text fmt (KCat l) = head_mark ++ "categorical(" ++ args) /\
  (forall l, exists args, leaf_text fmt (KCatDict l) = head_mark ++ "categorical(" ++ args).
Proof. intros fmt. split; [reflexivity|]. split; intros l; eexists; reflexivity. Qed.
Print Assumptions C124_categorical_refuted.
(** not for lognormals: both pairs of parameters are printed, which the constructor
    rejects; *)
Theorem C124_lognorm_refuted :
  forall fmt a b c d lc rc,
  (exists more, leaf_text fmt (KLognorm a b c d lc rc) =
    head_mark ++ render fmt (mkPy "lognorm" ([(Some "lognorm_mean", num_pv (round2 a)); (Some "lognorm_sd", num_pv (round2 b));
      (Some "norm_mean", num_pv (round2 c)); (Some "norm_sd", num_pv (round2 d))] ++ more)%list)) /\
  forall ppf nm ns lm ls cred l r, exists s,
    M_Dists.lognorm ppf None None (Some nm) (Some ns) (Some lm) (Some ls) cred l r = Err (ValueError s).
Proof.
  intros. split; [eexists; exact (text_is_call fmt (KLognorm a b c d lc rc) I)|]. intros. eexists. reflexivity.
Qed.
Print Assumptions C124_lognorm_refuted.
(** and normals are rounded: the text of norm(mean=0.001, sd=1) builds another one. *)
Theorem C124_norm_rounded_refuted :
  forall fmt, exists k m m' call, ctor_of k = Some (NewNorm (Some m) 1 None None) /\
  leaf_text fmt k = head_mark ++ render fmt call /\ eval_call call = Some (NewNorm (Some m') 1 None None) /\ ~ (m == m')%Q.
Proof.
  intros fmt. exists (KNorm (NF (1#1000)) (NI 1) None None). do 2 eexists.
  exists (the_call (KNorm (NF (1#1000)) (NI 1) None None)).
  split; [reflexivity|]. split; [apply text_is_call; exact I|]. split; [vm_compute; reflexivity|]. vm_compute. discriminate.
Qed.
Print Assumptions C124_norm_rounded_refuted.
(** what it builds then has the parameters rounded to two decimals. *)
Theorem C124_norm_rounded :
  forall fmt m s lc rc, exists call m' s', leaf_text fmt (KNorm m s lc rc) = head_mark ++ render fmt call /\
  eval_call call = Some (NewNorm (Some m') s' lc rc) /\ rounds 2 (num_q m) m' /\ rounds 2 (num_q s) s'.
Proof. exact norm_text_rounds. Qed.
Print Assumptions C124_norm_rounded.

(** Texts of operations name the operator that built them. *)
Theorem C124_operators_partial :
  forall T (l r : pexp T) (d : dist T), built l = ODist d ->
  (forall o, built (XInfix (IOp o) l r) = ODist (op_fwd o d (built r))) /\
  built (XInfix IEq l r) = ODist (op_eq d (built r)) /\ built (XInfix INe l r) = ODist (op_ne d (built r)) /\
  built (XNeg l) = ODist (op_neg d).
Proof. intros T l r d E. repeat split; simpl; rewrite E; reflexivity. Qed.
Print Assumptions C124_operators_partial.

Example C124_sat : forall fmt,
  prints_exactly (KGamma (NI 2) (NF (1#2)) None (Some (NI 3))) /\ prints_exactly (KNorm (NF (1#4)) (NI 1) None None) /\
  eval_call (mkPy "gamma" [(Some "shape", PInt 2); (Some "scale", PFlt (Fin (1#2))); (Some "rclip", PInt 3)]) =
    Some (NewGamma 2 (1#2) None (Some (NI 3))) /\
  eval_call (mkPy "gamma" [(None, PInt 2); (Some "shape", PInt 2)]) = None /\
  leaf_text fmt (KGeom (NF (1#2))) = "<Distribution> geometric(p=" ++ fmt (PFlt (Fin (1#2))) ++ ")".
Proof.
  intros fmt. repeat split.
Qed.
