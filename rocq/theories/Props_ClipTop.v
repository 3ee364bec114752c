(** C126: [lclip], [rclip] and [clip] on numbers, arrays, distributions and as pipes. *)
From Verif Require Import Base M_Values M_Sampler M_Ops M_ClipTop SpecSampler SpecSampler2 SpecOps P_ClipTop SpecCast P_Cast.
Open Scope Q_scope.

(** A number is clamped (and returned as a 0-dimensional array). *)
Theorem C126_number :
  forall T (x l r : num), exists v, clip (T := T) (CNumber x) (Some l) (Some r) = Ok (CZeroDim v) /\
    as_x v = Some (clamp (Some (num_q l)) (Some (num_q r)) (Fin (num_q x))).
Proof. intros T. exact clip_number. Qed.
Print Assumptions C126_number.

(** An array of the same kind as the bounds is clamped element by element. *)
Theorem C126_array :
  forall T (a : list pv) (l r : num), a <> [] -> one_kind a l r ->
  exists b, clip (T := T) (CArray a) (Some l) (Some r) = Ok (CArray b) /\
  Forall2 (fun x y => exists xx yy, as_x x = Some xx /\ as_x y = Some yy /\
             yy = clamp (Some (num_q l)) (Some (num_q r)) xx) a b.
Proof. intros T. exact clip_array. Qed.
Print Assumptions C126_array.

Theorem C126_distribution :
  forall T (d : dist T) l r, exists e, clip (CDistr d) l r = Ok (CDistr e) /\ clip_d (ODist d) l r = ODist e.
Proof. intros T. exact clip_dist. Qed.
Print Assumptions C126_distribution.

(** With one argument fewer, a function is returned that does the clip later. *)
Theorem C126_pipes :
  forall T (a : carg T) l r x,
  lclip (T := T) (CNumber x) None = Ok (CPipe (PLow x)) /\ run_pipe (PLow x) a = lclip a (Some x) /\
  rclip (T := T) (CNumber x) None = Ok (CPipe (PHigh x)) /\ run_pipe (PHigh x) a = rclip a (Some x) /\
  clip (T := T) (CNumber l) (Some r) None = Ok (CPipe (PBoth l r)) /\ run_pipe (PBoth l r) a = clip a (Some l) (Some r).
Proof. intros T. exact pipes. Qed.
Print Assumptions C126_pipes.

Example C126_sat :
  clip (T := unit) (CNumber (NI 7)) (Some (NI 1)) (Some (NI 5)) = Ok (CZeroDim (PInt 5)) /\
  clip (T := unit) (CArray [PInt 7; PInt 3; PInt 0]) (Some (NI 1)) (Some (NI 5)) = Ok (CArray [PInt 5; PInt 3; PInt 1]) /\
  one_kind [PInt 7; PInt 3; PInt 0] (NI 1) (NI 5).
Proof.
  split; [reflexivity|]. split; [reflexivity|]. right. split; [repeat constructor; eauto|]. split; eexists; reflexivity.
Qed.

(** An upper bound alone cannot be given for a number: the call raises instead of taking
    the smaller of the two. *)
Theorem C126_only_right_refuted :
  forall T, (forall x r, clip (T := T) (CNumber x) None (Some r) = Err TypeError) /\
  exists x r v, rclip (T := T) (CNumber x) (Some r) = Ok (CZeroDim v).
Proof. intros T. split; [exact clip_number_only_right|]. exists (NI 3), (NI 2). eexists. reflexivity. Qed.
Print Assumptions C126_only_right_refuted.

(** With a bound of another kind an element inside the bounds can change. *)
Theorem C126_mixed_kinds_refuted :
  forall T, exists a l b, lclip (T := T) (CArray a) (Some l) = Ok (CArray b) /\
  exists i q v, nth_error a i = Some (PFlt (Fin q)) /\ num_q l <= q /\ nth_error b i = Some v /\ as_x v <> Some (Fin q) /\ v = PInt 0.
Proof.
  intros T. exists [PFlt (Fin (-1)); PFlt (Fin (1 # 2))], (NI 0). eexists. split; [reflexivity|].
  exists 1%nat, (1 # 2). eexists. split; [reflexivity|]. split; [discriminate|]. split; [reflexivity|]. split; [discriminate|reflexivity].
Qed.
Print Assumptions C126_mixed_kinds_refuted.

(** The rule behind mixed kinds, for every list: the first result of a vectorised function
    fixes the kind.  After a bool everything becomes a truth value; ... *)
Theorem C126_bool_first :
  forall b l, exists ys, vec_cast (PBool b :: l) = Ok ys /\ Forall2 as_bool (PBool b :: l) ys.
Proof. exact bool_first. Qed.
Print Assumptions C126_bool_first.
(** ... after an int fractional parts are cut off, and the first value without an integer
    raises; ... *)
Theorem C126_int_first :
  forall z l,
  (forall ys, vec_cast (PInt z :: l) = Ok ys -> Forall2 as_integer (PInt z :: l) ys) /\
  (Forall (fun a => exists b, as_integer a b) l -> exists ys, vec_cast (PInt z :: l) = Ok ys) /\
  (forall l1 x l2 e, l = l1 ++ x :: l2 -> Forall (fun a => exists b, as_integer a b) l1 -> no_integer x e ->
     vec_cast (PInt z :: l) = Err e).
Proof.
  intros z l. split; [exact (int_first z l)|]. split; [exact (int_first_ok z l)|].
  intros l1 x l2 e ->. apply int_first_err.
Qed.
Print Assumptions C126_int_first.
(** ... after a float every number keeps its value, and None becomes nan. *)
Theorem C126_float_first :
  forall f l,
  (forall ys, vec_cast (PFlt f :: l) = Ok ys -> Forall2 as_float (PFlt f :: l) ys) /\
  (Forall (fun a => exists b, as_float a b) l -> exists ys, vec_cast (PFlt f :: l) = Ok ys).
Proof. intros f l. split; [exact (float_first f l)|exact (float_first_ok f l)]. Qed.
Print Assumptions C126_float_first.
Example C126_first_sat :
  vec_cast [PBool true; PInt 0; PFlt (Fin (1#2)); PNone] = Ok [PBool true; PBool false; PBool true; PBool false] /\
  vec_cast [PInt 3; PFlt (Fin (-5#2)); PBool true] = Ok [PInt 3; PInt (-2); PInt 1] /\
  vec_cast [PInt 3; PFlt NaN] = Err (ValueError "cannot convert float NaN to integer") /\
  vec_cast [PFlt (Fin 1); PInt 2; PNone] = Ok [PFlt (Fin 1); PFlt (Fin 2); PFlt NaN].
Proof. repeat split; reflexivity. Qed.
