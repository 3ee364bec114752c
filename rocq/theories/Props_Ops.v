(** Properties C17-C21, C88-C91, C123 and C136: arithmetic on distributions, [dist_fn],
    clips, rounding, exp and log, max and min. *)
From Verif Require Import Base M_Weights SpecWeights M_Values M_Sampler M_Ops SpecSampler SpecSampler2 SpecOps
  P_Count P_Clip P_Ops P_Ops2 P_Sampler2 P_Floor P_ClipTop P_Single P_Example.
From Coq Require Import Qabs.
Open Scope Q_scope.

Notation leaf_dist k := (ODist (DLeaf k None None)).
Notation const x := (ODist (DLeaf (LConst x) None None)).

(** C17.  [d op x] and [x op d] are the object [DComplex left right (FOp op)]
    with [left] and [right] in the order written ([op_fwd], [op_refl]). *)
Theorem C17_binary_operator :
  forall Or l r o n s a b s1 s2,
  (1 <= n)%nat -> r <> OLit PNone ->
  smp Or l n None None s = (Ok a, s1) -> smp Or r n None None s1 = (Ok b, s2) ->
  n_samples n a -> n_samples n b ->
  (forall zs, pointwise (binop (pow_ Or) (arrays n) o) (elems a) (elems b) zs -> Forall numeric zs \/ texts zs ->
     exists v, smp Or (ODist (DComplex l r (FOp o))) n None None s = (Ok v, s2) /\
               n_samples n v /\ Forall2 same_number zs (elems v)) /\
  ((forall zs, ~ pointwise (binop (pow_ Or) (arrays n) o) (elems a) (elems b) zs) ->
     exists e, smp Or (ODist (DComplex l r (FOp o))) n None None s = (Err e, s2)).
Proof. exact op_pointwise. Qed.
Print Assumptions C17_binary_operator.

(** On ordinary numbers the elementwise result is ordinary arithmetic. *)
Theorem C17_arithmetic :
  forall Or l r o n s a b s1 s2 xs ys zs,
  (1 <= n)%nat -> r <> OLit PNone ->
  smp Or l n None None s = (Ok a, s1) -> smp Or r n None None s1 = (Ok b, s2) ->
  n_samples n a -> n_samples n b ->
  Forall2 plain (elems a) xs -> Forall2 plain (elems b) ys ->
  Forall2 (fun xy z => arith o (fst xy) (snd xy) = Some z) (combine xs ys) zs ->
  exists v, smp Or (ODist (DComplex l r (FOp o))) n None None s = (Ok v, s2) /\
    n_samples n v /\
    Forall2 (fun z y => match as_x y with Some (Fin q) => q == z | _ => False end) zs (elems v).
Proof. exact op_arith. Qed.
Print Assumptions C17_arithmetic.

Theorem C17_comparison :
  forall pw arr o a b x y c, plain a x -> plain b y -> compare o x y = Some c -> binop pw arr o a b = Ok (PBool c).
Proof. exact binop_compare. Qed.
Print Assumptions C17_comparison.

(** The API forms build exactly that object; a comparison with the number on
    the left is the mirrored comparison with operands swapped. *)
Theorem C17_forms :
  forall T o (d : dist T) x,
  op_fwd o d x = DComplex (ODist d) x (FOp o) /\
  op_refl o x d = DComplex x (ODist d) (FOp o) /\
  (forall o' c p q, cmp_refl o x d = Some (DComplex (ODist d) x (FOp o')) ->
     compare o p q = Some c -> compare o' q p = Some c).
Proof.
  intros T o d x. split; [reflexivity|]. split; [reflexivity|].
  intros o' c p q E C. destruct o; simpl in E; try discriminate; inversion E; subst; exact C.
Qed.
Print Assumptions C17_forms.

Theorem C17_unary_minus :
  forall Or d n s a s1,
  (1 <= n)%nat -> smp Or (ODist d) n None None s = (Ok a, s1) -> n_samples n a ->
  Forall (fun x => exists z, negop (arrays n) x = Ok z) (elems a) ->
  exists v, smp Or (ODist (op_neg d)) n None None s = (Ok v, s1) /\ n_samples n v /\
    Forall2 (fun x y => exists z, negop (arrays n) x = Ok z /\ same_number z y) (elems a) (elems v).
Proof. exact neg_pointwise. Qed.
Print Assumptions C17_unary_minus.
Theorem C17_minus_is_minus :
  forall arr a x, plain a x -> exists z, negop arr a = Ok z /\ plain z (- x).
Proof. exact neg_plain. Qed.
Print Assumptions C17_minus_is_minus.

(** A single value combined with many acts like many copies of it. *)
Theorem C17_single_operand :
  forall f x l, lift2 f (Scalar x) (Arr l) = lift2 f (Arr (repeat x (length l))) (Arr l) /\
                lift2 f (Arr l) (Scalar x) = lift2 f (Arr l) (Arr (repeat x (length l))).
Proof. exact single_operand. Qed.
Print Assumptions C17_single_operand.

Example C17_sat :
  exists v, smp ex_oracle (ODist (op_refl Sub (OLit (PInt 1)) (DLeaf (LUniform 0 1) None None))) 2 None None (ex_state 0)
    = (Ok v, ex_state 2) /\ Forall2 same_number (elems v) [PFlt (Fin (7#10)); PFlt (Fin 1)].
Proof. eexists. split; [vm_compute; reflexivity|]. repeat constructor. Qed.

(** C18. *)
Theorem C18_const_arithmetic :
  forall Or e q n s, (1 <= n)%nat -> eval e = Some q ->
  exists x, smp Or (expr e) n None None s = (Ok (copies x n), s) /\ plain x q.
Proof. exact const_expr. Qed.
Print Assumptions C18_const_arithmetic.

Theorem C18_const_comparison :
  forall Or o e1 e2 x y c n s,
  (1 <= n)%nat -> eval e1 = Some x -> eval e2 = Some y -> compare o x y = Some c ->
  smp Or (ODist (DComplex (expr e1) (expr e2) (FOp o))) n None None s = (Ok (copies (PBool c) n), s).
Proof. exact const_compare. Qed.
Print Assumptions C18_const_comparison.

Example C18_sat :
  let e := ABin Mul (ABin Add (AConst (NI 1)) (ANumber (NF (1#2)))) (AMinus (ABin FloorDiv (AConst (NI 7)) (ANumber (NI (-2))))) in
  eval e = Some ((1 + (1#2)) * - inject_Z (-4)) /\
  exists x, smp ex_oracle (expr e) 2 None None (ex_state 5) = (Ok (Arr [x; x]), ex_state 5) /\ plain x 6.
Proof. split; [reflexivity|]. eexists. split; vm_compute; reflexivity. Qed.

(** C19 is false: both operators sample as [<=]. *)
Theorem C19_equality_refuted :
  exists a b s, smp ex_oracle (ODist (op_eq a b)) 1 None None s = (Ok (Scalar (PBool true)), s) /\
    smp ex_oracle (ODist a) 1 None None s = (Ok (Scalar (PInt 1)), s) /\
    smp ex_oracle b 1 None None s = (Ok (Scalar (PInt 2)), s).
Proof. exists (DLeaf (LConst (PInt 1)) None None), (OLit (PInt 2)), (ex_state 0). repeat split; vm_compute; reflexivity. Qed.
Print Assumptions C19_equality_refuted.
Theorem C19_inequality_refuted :
  exists a b s, smp ex_oracle (ODist (op_ne a b)) 1 None None s = (Ok (Scalar (PBool true)), s) /\
    smp ex_oracle (ODist a) 1 None None s = (Ok (Scalar (PInt 1)), s) /\
    smp ex_oracle b 1 None None s = (Ok (Scalar (PInt 1)), s).
Proof. exists (DLeaf (LConst (PInt 1)) None None), (OLit (PInt 1)), (ex_state 0). repeat split; vm_compute; reflexivity. Qed.
Print Assumptions C19_inequality_refuted.
(** What they do compute. *)
Theorem C19_eq_ne_are_le :
  forall T (d : dist T) x, op_eq d x = op_fwd Le d x /\ op_ne d x = op_fwd Le d x.
Proof. intros; split; reflexivity. Qed.
Print Assumptions C19_eq_ne_are_le.

(** C20. *)
Theorem C20_pipeline :
  forall Or hs (o : obj (G Or)) n s, (1 <= n)%nat ->
  Forall (fun h => forall a s v s', h a s = (Ok v, s') -> settled (fmt Or) v) hs ->
  smp Or (fold_fns o (OLit PNone) (map as_fn hs)) n None None s =
  match smp Or o n None None s with
  | (Ok a, s1) => run_all hs a s1
  | (Err e, s1) => (Err e, s1)
  end.
Proof. exact fold_run1. Qed.
Print Assumptions C20_pipeline.

Theorem C20_pipeline_two :
  forall Or d2 hs (o : obj (G Or)) n s, (1 <= n)%nat -> d2 <> OLit PNone ->
  Forall (fun h => forall a b s v s', h a b s = (Ok v, s') -> settled (fmt Or) v) hs ->
  smp Or (fold_fns o d2 (map as_fn2 hs)) n None None s =
  match smp Or o n None None s with
  | (Ok a, s1) => run_all2 (smp Or d2 n None None) hs a s1
  | (Err e, s1) => (Err e, s1)
  end.
Proof. exact fold_run2. Qed.
Print Assumptions C20_pipeline_two.

(** All call forms build that fold, and a pipe is the same as passing the
    distribution first. *)
Theorem C20_forms :
  forall T (d : dist T) (x : obj T) f fs, fs <> [] ->
  dist_fn (AObj (ODist d)) (AFuns fs) ANone = Ok (RDist (fold_fns (ODist d) (OLit PNone) fs)) /\
  dist_fn (AObj (ODist d)) (AFun f) ANone = Ok (RDist (fold_fns (ODist d) (OLit PNone) [f])) /\
  dist_fn (AObj (ODist d)) ANone (AFuns fs) = Ok (RDist (fold_fns (ODist d) (OLit PNone) fs)) /\
  dist_fn (AObj (ODist d)) ANone (AFun f) = Ok (RDist (fold_fns (ODist d) (OLit PNone) [f])) /\
  dist_fn (AObj (ODist d)) (AObj x) (AFuns fs) = Ok (RDist (fold_fns (ODist d) x fs)) /\
  dist_fn (AObj (ODist d)) (AObj x) (AFun f) = Ok (RDist (fold_fns (ODist d) x [f])) /\
  (exists h, dist_fn (AFuns fs) ANone ANone = Ok (RPipe h) /\
     rshift d h = Ok (fold_fns (ODist d) (OLit PNone) fs)) /\
  (exists h, dist_fn (AFun f) ANone ANone = Ok (RPipe h) /\
     rshift d h = Ok (fold_fns (ODist d) (OLit PNone) [f])).
Proof.
  intros T d x f fs N. destruct fs as [|g fs]; [congruence|].
  repeat split; try reflexivity; eexists; split; reflexivity.
Qed.
Print Assumptions C20_forms.

(** An empty list of functions is an error. *)
Theorem C20_no_functions :
  forall T (o : obj T) d2 f, dist_fn (T := T) (AFuns []) d2 f = Err IndexError /\
    dist_fn (AObj o) (AFuns []) f = Err IndexError /\ dist_fn (AObj o) ANone ANone = Err AttributeError.
Proof. intros. repeat split; destruct d2, f; reflexivity. Qed.
Print Assumptions C20_no_functions.

(** Two functions on a die roll array: add one, then double. *)
Definition ex_h (f : Z -> Z) : stateful (G ex_oracle) :=
  fun a s => (match a with
              | Scalar (PInt z) => Ok (Scalar (PInt (f z)))
              | _ => Err TypeError
              end, s).
Example C20_sat :
  Forall (fun h => forall a s v s', h a s = (Ok v, s') -> settled (fmt ex_oracle) v) [ex_h (Z.add 1); ex_h (Z.mul 2)] /\
  smp ex_oracle (fold_fns (leaf_dist (LDie 6 None)) (OLit PNone) (map as_fn [ex_h (Z.add 1); ex_h (Z.mul 2)])) 1 None None (ex_state 0)
    = (Ok (Scalar (PInt 6)), ex_state 1).
Proof.
  split; [|vm_compute; reflexivity].
  repeat constructor; intros a s v s' H; unfold ex_h in H; destruct a as [[]|]; inversion H; exact I.
Qed.

(** C21.  With samples and bounds of one kind (or one sample only) the clip is
    the pointwise clamp; [clamp_num] returns the value or the bound itself. *)
Theorem C21_clip_clamps :
  forall Or d lo hi n s a s1,
  (1 <= n)%nat -> smp Or d n None None s = (Ok a, s1) -> n_samples n a ->
  Forall numeric (elems a) -> (n = 1%nat \/ one_kind (elems a) lo hi) ->
  exists v, smp Or (clip_d d (Some lo) (Some hi)) n None None s = (Ok v, s1) /\
    Forall2 (fun x y => exists xx yy, as_x x = Some xx /\ as_x y = Some yy /\
               yy = clamp (Some (num_q lo)) (Some (num_q hi)) xx) (elems a) (elems v).
Proof. exact clip_clamps. Qed.
Print Assumptions C21_clip_clamps.

Theorem C21_pipe_is_clip :
  forall T lo hi (d : obj T), clip_pipe lo hi d = Ok (clip_d d (Some lo) (Some hi)).
Proof. reflexivity. Qed.
Print Assumptions C21_pipe_is_clip.

Theorem C21_no_bounds :
  forall Or d n s a s1,
  (1 <= n)%nat -> smp Or d n None None s = (Ok a, s1) -> n_samples n a ->
  (n = 1%nat \/ floats (elems a) \/ integers (elems a)) ->
  smp Or (clip_d d None None) n None None s = (Ok a, s1).
Proof. exact clip_none'. Qed.
Print Assumptions C21_no_bounds.

Theorem C21_clip_idempotent :
  forall Or d lo hi n s a s1,
  (1 <= n)%nat -> smp Or d n None None s = (Ok a, s1) -> n_samples n a ->
  Forall numeric (elems a) -> (n = 1%nat \/ one_kind (elems a) lo hi) ->
  smp Or (clip_d (clip_d d (Some lo) (Some hi)) (Some lo) (Some hi)) n None None s =
  smp Or (clip_d d (Some lo) (Some hi)) n None None s.
Proof. exact clip_twice. Qed.
Print Assumptions C21_clip_idempotent.

Example C21_sat :
  smp ex_oracle (clip_d (leaf_dist (LDie 10 None)) (Some (NI 2)) (Some (NI 4))) 4 None None (ex_state 0)
    = (Ok (Arr [PInt 4; PInt 2; PInt 4; PInt 4]), ex_state 4) /\
  smp ex_oracle (leaf_dist (LDie 10 None)) 4 None None (ex_state 0)
    = (Ok (Arr [PInt 4; PInt 1; PInt 8; PInt 5]), ex_state 4).
Proof. split; vm_compute; reflexivity. Qed.

(** Without that condition the property is false: with an int bound that the
    first sample violates, every later float sample is truncated. *)
Theorem C21_mixed_kinds_refuted :
  exists d lo s a v s1,
    smp ex_oracle d 2 None None s = (Ok a, s1) /\
    smp ex_oracle (lclip_d d (Some lo)) 2 None None s = (Ok v, s1) /\
    ~ Forall2 (fun x y => exists xx yy, as_x x = Some xx /\ as_x y = Some yy /\
                 xsame yy (clamp (Some (num_q lo)) None xx)) (elems a) (elems v).
Proof.
  exists (leaf_dist (LUniform (-1) 1)), (NI 0), (ex_state 1). eexists. eexists. eexists.
  split; [vm_compute; reflexivity|]. split; [vm_compute; reflexivity|].
  intros F. inversion F as [|? ? ? ? _ F2]; subst. inversion F2 as [|? ? ? ? K _]; subst.
  destruct K as (xx & yy & E1 & E2 & S). inversion E1; inversion E2; subst. vm_compute in S. discriminate.
Qed.
Print Assumptions C21_mixed_kinds_refuted.

(** What such a bound does: the first sample alone decides between ints, cut towards zero,
    and floats ([int_clipped]). *)
Theorem C21_int_bound :
  forall Or d z n s q0 qs s1,
  (2 <= n)%nat -> length (q0 :: qs) = n -> smp Or d n None None s = (Ok (Arr (map fl (q0 :: qs))), s1) ->
  smp Or (lclip_d d (Some (NI z))) n None None s = (Ok (Arr (map (int_clipped below_bound q0 z) (q0 :: qs))), s1) /\
  smp Or (rclip_d d (Some (NI z))) n None None s = (Ok (Arr (map (int_clipped above_bound q0 z) (q0 :: qs))), s1).
Proof.
  intros Or d z n s q0 qs s1 A B C.
  split; [eapply (int_bound_samples Or below_bound FLclip)|eapply (int_bound_samples Or above_bound FRclip)]; eauto.
Qed.
Print Assumptions C21_int_bound.
Example C21_int_bound_sat :
  map (int_clipped below_bound (-1) 0) [-1; 1#2; -3; 5#2] = [PInt 0; PInt 0; PInt 0; PInt 2] /\
  map (int_clipped below_bound (1#2) 0) [1#2; -1; 5#2] = [PFlt (Fin (1#2)); PFlt (Fin 0); PFlt (Fin (5#2))].
Proof. split; reflexivity. Qed.

(** C88.  One element of a larger sample is what a single sample of the same
    operands would give: true of ordinary numbers ... *)
Theorem C88_scalar_and_array_agree_partial :
  forall pw o a b x y q, plain a x -> plain b y -> arith o x y = Some q ->
  exists z z', binop pw false o a b = Ok z /\ binop pw true o a b = Ok z' /\ plain z q /\ plain z' q.
Proof. exact scalar_array. Qed.
Print Assumptions C88_scalar_and_array_agree_partial.
(** ... false in general: adding two comparisons. *)
Theorem C88_scalar_and_array_agree_refuted :
  exists d : dist nat,
    smp ex_oracle (ODist d) 1 None None (ex_state 0) = (Ok (Scalar (PInt 2)), ex_state 0) /\
    smp ex_oracle (ODist d) 2 None None (ex_state 0) = (Ok (Arr [PBool true; PBool true]), ex_state 0).
Proof.
  exists (op_fwd Add (op_fwd Lt (DLeaf (LConst (PInt 1)) None None) (OLit (PInt 2)))
                 (ODist (op_fwd Lt (DLeaf (LConst (PInt 1)) None None) (OLit (PInt 2))))).
  split; vm_compute; reflexivity.
Qed.
Print Assumptions C88_scalar_and_array_agree_refuted.

(** Arrays of bools follow numpy: or, and, no minus. *)
Theorem C88_bool_arrays :
  forall pw a b, binop pw true Add (PBool a) (PBool b) = Ok (PBool (a || b)) /\
    binop pw true Mul (PBool a) (PBool b) = Ok (PBool (a && b)) /\
    binop pw true Sub (PBool a) (PBool b) = Err TypeError /\
    binop pw false Sub (PBool a) (PBool b) = Ok (PInt (b2z a - b2z b)).
Proof. repeat split. Qed.
Print Assumptions C88_bool_arrays.
(** One bool counts as the integer 0 or 1, for every operator. *)
Theorem C88_single_bools :
  forall pw o a b, binop pw false o (PBool a) (PBool b) = binop pw false o (PInt (b2z a)) (PInt (b2z b)).
Proof. reflexivity. Qed.
Print Assumptions C88_single_bools.
(** Integers to negative powers: a float for one sample (zero raises), an error for
    several; likewise division by zero raises for one sample only. *)
Theorem C88_negative_powers :
  forall pw (a b : Z), (b < 0)%Z ->
  (a <> 0%Z -> binop pw false Pow (PInt a) (PInt b) = Ok (PFlt (Fin (Qpower (inject_Z a) b)))) /\
  binop pw false Pow (PInt 0) (PInt b) = Err ZeroDivisionError /\
  (exists m, binop pw true Pow (PInt a) (PInt b) = Err (ValueError m)) /\
  (forall o x y, (o = Div \/ o = FloorDiv) -> binop pw false o (PBool x) (PBool false) = Err ZeroDivisionError /\
     binop pw false o (PInt y) (PBool false) = Err ZeroDivisionError).
Proof.
  intros pw a b B. assert (L : (0 <=? b)%Z = false) by (apply Z.leb_gt; exact B). simpl. unfold ipow. rewrite L.
  split; [|split; [reflexivity|split; [eexists; reflexivity|]]].
  - intros N. apply Z.eqb_neq in N. now rewrite N.
  - intros o x y [-> | ->]; split; reflexivity.
Qed.
Print Assumptions C88_negative_powers.

(** C89.  Rounding works for one sample only. *)
Theorem C89_round_one :
  forall Or d digits s x q s1,
  smp Or d 1 None None s = (Ok (Scalar x), s1) -> x = PFlt (Fin q) ->
  smp Or (dist_round d digits) 1 None None s =
    (Ok (Scalar (if (digits <=? 0)%Z then PInt (qtrunc (np_round q digits)) else PFlt (Fin (np_round q digits)))), s1).
Proof. exact round_one. Qed.
Print Assumptions C89_round_one.
Theorem C89_rounds_to_nearest_even :
  (forall q, Qabs (q - inject_Z (round_half_even q)) <= 1#2) /\
  (forall z, Z.Even (round_half_even (inject_Z z + (1#2)))).
Proof. exact (conj round_half_even_near round_half_even_tie). Qed.
Print Assumptions C89_rounds_to_nearest_even.
(** What [_round] does to several floats: ints for no digits, floats otherwise - also for a
    negative number of digits; to an array of none or one: an error from no digits down, where
    [int] is called on the array. *)
Theorem C89_round_values :
  forall qs d, round_val (Arr (map (fun q => PFlt (Fin q)) qs)) (Scalar (PInt d)) =
    match qs with
    | [] => if (d <=? 0)%Z then Err TypeError else Ok (Arr [])
    | [q] => if (d <=? 0)%Z then Err TypeError else Ok (Arr [PFlt (Fin (np_round q d))])
    | _ => Ok (Arr (map (fun q => if (d =? 0)%Z then PInt (qtrunc (np_round q d)) else PFlt (Fin (np_round q d))) qs))
    end.
Proof. exact round_floats. Qed.
Print Assumptions C89_round_values.
(** Texts cannot be rounded. *)
Theorem C89_round_text :
  forall Or d digits s x s1, smp Or d 1 None None s = (Ok (Scalar x), s1) -> as_x x = None ->
  smp Or (dist_round d digits) 1 None None s = (Err TypeError, s1).
Proof. exact round_text. Qed.
Print Assumptions C89_round_text.
Theorem C89_round_many_fails :
  forall Or d digits n s a s1, (2 <= n)%nat ->
  smp Or d n None None s = (Ok a, s1) ->
  smp Or (dist_round d digits) n None None s = (Err TypeError, s1).
Proof. exact round_many. Qed.
Print Assumptions C89_round_many_fails.
Theorem C89_round_many_refuted :
  exists d n s a s1, smp ex_oracle d n None None s = (Ok a, s1) /\
    smp ex_oracle (dist_round d 1) n None None s = (Err TypeError, s1).
Proof.
  exists (leaf_dist (LUniform 0 1)), 2%nat, (ex_state 0). eexists. eexists. split; vm_compute; reflexivity.
Qed.
Print Assumptions C89_round_many_refuted.
Example C89_sat :
  exists x, smp ex_oracle (dist_round (leaf_dist (LUniform 0 1)) 0) 1 None None (ex_state 2) = (Ok (Scalar x), ex_state 3) /\ x = PInt 1.
Proof. eexists. split; vm_compute; reflexivity. Qed.

(** C90.  [dist_exp] and [dist_log] fail for more than one sample. *)
Theorem C90_exp_many_fails :
  forall Or d f n s a s1, (2 <= n)%nat -> n_samples n a ->
  smp Or d n None None s = (Ok a, s1) ->
  smp Or (dist_exp f d) n None None s = (Err TypeError, s1).
Proof. exact exp_many. Qed.
Print Assumptions C90_exp_many_fails.
Theorem C90_log_many_fails :
  forall Or d f base n s a s1, (2 <= n)%nat -> n_samples n a ->
  smp Or d n None None s = (Ok a, s1) ->
  smp Or (dist_log f d base) n None None s = (Err TypeError, s1).
Proof. exact log_many. Qed.
Print Assumptions C90_log_many_fails.
(** One sample: *)
Theorem C90_exp_one :
  forall Or d f s v s1 q, respects f -> smp Or d 1 None None s = (Ok (Scalar v), s1) -> reads v q ->
  exists y, smp Or (dist_exp f d) 1 None None s = (Ok (Scalar (PFlt (Fin y))), s1) /\ y == f q.
Proof. exact exp_one. Qed.
Print Assumptions C90_exp_one.
Theorem C90_exp_infinities_and_texts :
  forall Or d f s v s1, smp Or d 1 None None s = (Ok (Scalar v), s1) ->
  (v = PFlt PInf -> smp Or (dist_exp f d) 1 None None s = (Ok (Scalar (PFlt PInf)), s1)) /\
  (v = PFlt NInf -> smp Or (dist_exp f d) 1 None None s = (Ok (Scalar (PFlt (Fin 0))), s1)) /\
  (v = PFlt NaN -> smp Or (dist_exp f d) 1 None None s = (Ok (Scalar (PFlt NaN)), s1)) /\
  (as_x v = None -> smp Or (dist_exp f d) 1 None None s = (Err TypeError, s1)).
Proof. exact exp_special. Qed.
Print Assumptions C90_exp_infinities_and_texts.
Theorem C90_exp_array :
  forall Or d f s l s1, smp Or d 1 None None s = (Ok (Arr l), s1) ->
  smp Or (dist_exp f d) 1 None None s = (Err TypeError, s1).
Proof. exact exp_array. Qed.
Print Assumptions C90_exp_array.
Theorem C90_log_one :
  forall Or d f base s v s1 q b, respects f -> f 1 == 0 -> smp Or d 1 None None s = (Ok (Scalar v), s1) ->
  reads v q -> reads base b -> 0 < q -> 0 < b -> ~ f b == 0 ->
  exists y, smp Or (dist_log f d base) 1 None None s = (Ok (Scalar (PFlt (Fin y))), s1) /\ y * f b == f q.
Proof. exact log_one_sample. Qed.
Print Assumptions C90_log_one.
Theorem C90_log_errors :
  forall Or d f base s v s1 q b, respects f -> f 1 == 0 -> smp Or d 1 None None s = (Ok (Scalar v), s1) ->
  reads v q -> reads base b ->
  (q <= 0 \/ b <= 0 -> smp Or (dist_log f d base) 1 None None s = (Err (ValueError "math domain error"), s1)) /\
  (0 < q -> b == 1 -> smp Or (dist_log f d base) 1 None None s = (Err ZeroDivisionError, s1)).
Proof. exact log_errors. Qed.
Print Assumptions C90_log_errors.
Theorem C90_log_wrong_kind :
  forall Or d f base s a s1, smp Or d 1 None None s = (Ok a, s1) ->
  (forall v, a = Scalar v -> as_x v = None) -> smp Or (dist_log f d base) 1 None None s = (Err TypeError, s1).
Proof. exact log_wrong_kind. Qed.
Print Assumptions C90_log_wrong_kind.
Example C90_sat :
  let f q := q - 1 in
  respects f /\ f 1 == 0 /\ ~ f 3 == 0 /\
  (exists y, smp ex_oracle (dist_log f (leaf_dist (LConst (PInt 5))) (PInt 3)) 1 None None (ex_state 0) =
     (Ok (Scalar (PFlt (Fin y))), ex_state 0) /\ y == 2) /\
  smp ex_oracle (dist_log f (leaf_dist (LConst (PInt 5))) (PInt 1)) 1 None None (ex_state 0) = (Err ZeroDivisionError, ex_state 0).
Proof.
  split; [intros x y E; now rewrite E|]. split; [reflexivity|]. split; [discriminate|].
  split; [eexists; split; vm_compute; reflexivity|vm_compute; reflexivity].
Qed.
Theorem C90_exp_log_many_refuted :
  exists d n s a s1, smp ex_oracle d n None None s = (Ok a, s1) /\
    smp ex_oracle (dist_exp (exp_ ex_oracle) d) n None None s = (Err TypeError, s1) /\
    smp ex_oracle (dist_log (log_ ex_oracle) d (PInt 10)) n None None s = (Err TypeError, s1).
Proof.
  exists (leaf_dist (LUniform 1 2)), 2%nat, (ex_state 0). eexists. eexists. repeat split; vm_compute; reflexivity.
Qed.
Print Assumptions C90_exp_log_many_refuted.

(** C91. *)
Theorem C91_max_pointwise :
  forall Or d1 d2 n s a b s1 s2 zs,
  (1 <= n)%nat -> d2 <> OLit PNone ->
  smp Or d1 n None None s = (Ok a, s1) -> smp Or d2 n None None s1 = (Ok b, s2) ->
  n_samples n a -> n_samples n b -> pointwise max_pv (elems a) (elems b) zs ->
  exists v, smp Or (dist_max2 d1 d2) n None None s = (Ok v, s2) /\ n_samples n v /\
    Forall2 same_number zs (elems v).
Proof. exact max_pointwise. Qed.
Print Assumptions C91_max_pointwise.
Theorem C91_min_pointwise :
  forall Or d1 d2 n s a b s1 s2 zs,
  (1 <= n)%nat -> d2 <> OLit PNone ->
  smp Or d1 n None None s = (Ok a, s1) -> smp Or d2 n None None s1 = (Ok b, s2) ->
  n_samples n a -> n_samples n b -> pointwise min_pv (elems a) (elems b) zs ->
  exists v, smp Or (dist_min2 d1 d2) n None None s = (Ok v, s2) /\ n_samples n v /\
    Forall2 same_number zs (elems v).
Proof. exact min_pointwise. Qed.
Print Assumptions C91_min_pointwise.
Theorem C91_max_min_numbers :
  forall a b x y, plain a x -> plain b y ->
  (exists z, max_pv a b = Ok z /\ plain z (if Qlt_bool x y then y else x)) /\
  (exists z, min_pv a b = Ok z /\ plain z (if Qlt_bool y x then y else x)).
Proof. exact max_min_plain. Qed.
Print Assumptions C91_max_min_numbers.
(** A text or None on either side raises. *)
Theorem C91_only_numbers :
  forall a b, as_x a = None \/ as_x b = None -> max_pv a b = Err TypeError /\ min_pv a b = Err TypeError.
Proof. exact max_min_only_numbers. Qed.
Print Assumptions C91_only_numbers.
Example C91_sat :
  smp ex_oracle (dist_max2 (leaf_dist (LDie 10 None)) (OLit (PInt 4))) 4 None None (ex_state 0)
    = (Ok (Arr [PInt 4; PInt 4; PInt 8; PInt 5]), ex_state 4).
Proof. vm_compute; reflexivity. Qed.

(** C123.  Every sample is rounded to the next integer, for any number of samples. *)
Theorem C123_ceil :
  forall Or d n s a s1, (1 <= n)%nat -> smp Or d n None None s = (Ok a, s1) -> n_samples n a ->
  Forall (fun x => exists q, plain x q) (elems a) ->
  exists v, smp Or (dist_ceil d) n None None s = (Ok v, s1) /\ n_samples n v /\ Forall2 rounded_up (elems a) (elems v).
Proof. exact ceil_run. Qed.
Print Assumptions C123_ceil.
Theorem C123_floor :
  forall Or d n s a s1, (1 <= n)%nat -> smp Or d n None None s = (Ok a, s1) -> n_samples n a ->
  Forall (fun x => exists q, plain x q) (elems a) ->
  exists v, smp Or (dist_floor d) n None None s = (Ok v, s1) /\ n_samples n v /\ Forall2 rounded_down (elems a) (elems v).
Proof. exact floor_run. Qed.
Print Assumptions C123_floor.
Theorem C123_texts_raise :
  forall Or d n s a s1, (1 <= n)%nat -> smp Or d n None None s = (Ok a, s1) -> n_samples n a ->
  Forall (fun x => as_x x = None) (elems a) ->
  smp Or (dist_ceil d) n None None s = (Err TypeError, s1) /\ smp Or (dist_floor d) n None None s = (Err TypeError, s1).
Proof. exact ceil_floor_text. Qed.
Print Assumptions C123_texts_raise.
Example C123_sat :
  smp ex_oracle (dist_ceil (const (PFlt (Fin (3#2))))) 2 None None (ex_state 0) =
    (Ok (Arr [PFlt (Fin 2); PFlt (Fin 2)]), ex_state 0) /\
  smp ex_oracle (dist_floor (const (PFlt (Fin (-(3#2)))))) 1 None None (ex_state 0) = (Ok (Scalar (PFlt (Fin (-2)))), ex_state 0).
Proof. split; vm_compute; reflexivity. Qed.

(** C136.  Operators on texts. *)
Theorem C136_texts :
  forall pw arr s t,
  (exists r, binop pw arr Add (PStr s) (PStr t) = Ok (PStr r) /\ chars r = chars s ++ chars t) /\
  (exists lt le, binop pw arr Lt (PStr s) (PStr t) = Ok (PBool lt) /\ binop pw arr Gt (PStr t) (PStr s) = Ok (PBool lt) /\
     binop pw arr Le (PStr s) (PStr t) = Ok (PBool le) /\ binop pw arr Ge (PStr t) (PStr s) = Ok (PBool le) /\
     (lt = true <-> before s t) /\ (le = true <-> before s t \/ s = t)) /\
  (forall o, In o [Sub; Mul; Div; FloorDiv; Pow] -> binop pw arr o (PStr s) (PStr t) = Err TypeError).
Proof. exact texts_ok. Qed.
Print Assumptions C136_texts.
Theorem C136_total_order :
  (forall s, ~ before s s) /\ (forall s t u, before s t -> before t u -> before s u) /\
  (forall s t, before s t \/ s = t \/ before t s).
Proof. exact before_order. Qed.
Print Assumptions C136_total_order.
(** A text times an integer repeats it for one sample and fails for several. *)
Theorem C136_repetition :
  forall pw s k,
  (exists r, binop pw false Mul (PStr s) (PInt k) = Ok (PStr r) /\ binop pw false Mul (PInt k) (PStr s) = Ok (PStr r) /\
     chars r = concat (repeat (chars s) (Z.to_nat k))) /\
  binop pw true Mul (PStr s) (PInt k) = Err TypeError /\ binop pw true Mul (PInt k) (PStr s) = Err TypeError.
Proof. exact text_times. Qed.
Print Assumptions C136_repetition.
Theorem C136_text_and_number :
  forall pw arr o s v, o <> Mul -> (forall t, v <> PStr t) ->
  binop pw arr o (PStr s) v = Err TypeError /\ binop pw arr o v (PStr s) = Err TypeError.
Proof. exact text_other. Qed.
Print Assumptions C136_text_and_number.
Theorem C136_text_and_float :
  forall pw arr o s x,
  binop pw arr o (PStr s) (PFlt x) = Err TypeError /\ binop pw arr o (PFlt x) (PStr s) = Err TypeError.
Proof. exact text_float. Qed.
Print Assumptions C136_text_and_float.
Theorem C136_negation : forall arr s, negop arr (PStr s) = Err TypeError /\ negop arr PNone = Err TypeError.
Proof. split; reflexivity. Qed.
Print Assumptions C136_negation.
(** Clips of texts take the later and the earlier text; a text and a number do not compare. *)
Theorem C136_clips :
  forall s t,
  (exists u, lclip_fn (PStr s) (PStr t) = Ok (PStr u) /\ (u = s \/ u = t) /\ ~ before u s /\ ~ before u t) /\
  (exists u, rclip_fn (PStr s) (PStr t) = Ok (PStr u) /\ (u = s \/ u = t) /\ ~ before s u /\ ~ before t u).
Proof. exact clip_texts_ok. Qed.
Print Assumptions C136_clips.
Theorem C136_clip_text_and_number :
  forall s v, (forall t, v <> PStr t) -> v <> PNone ->
  lclip_fn (PStr s) v = Err TypeError /\ rclip_fn (PStr s) v = Err TypeError /\
  lclip_fn v (PStr s) = Err TypeError /\ rclip_fn v (PStr s) = Err TypeError.
Proof. exact clip_text_number. Qed.
Print Assumptions C136_clip_text_and_number.
(** Minus a bool is an int for one sample; numpy refuses it for an array. *)
Theorem C136_minus_bool :
  negop true (PBool true) = Err TypeError /\ negop true (PBool false) = Err TypeError /\
  negop false (PBool true) = Ok (PInt (-1)) /\ negop false (PBool false) = Ok (PInt 0).
Proof. repeat split. Qed.
Print Assumptions C136_minus_bool.
Example C136_sat :
  let d s : obj nat := const (PStr s) in
  fst (smp ex_oracle (ODist (DComplex (d "ab"%string) (d "c"%string) (FOp Add))) 2 None None (ex_state 0)) =
    Ok (Arr [PStr "abc"%string; PStr "abc"%string]) /\
  fst (smp ex_oracle (ODist (DComplex (d "ab"%string) (d "b"%string) (FOp Lt))) 1 None None (ex_state 0)) = Ok (Scalar (PBool true)) /\
  fst (smp ex_oracle (ODist (DComplex (d "ab"%string) (OLit (PInt 2)) (FOp Mul))) 1 None None (ex_state 0)) = Ok (Scalar (PStr "abab"%string)) /\
  fst (smp ex_oracle (ODist (DComplex (d "ab"%string) (OLit (PInt 2)) (FOp Mul))) 2 None None (ex_state 0)) = Err TypeError.
Proof. repeat split; vm_compute; reflexivity. Qed.
