(** C203: expressions with larger parts have larger samples in double precision. *)
From Coq Require Import Qabs Lia Lqa.
From Verif Require Import Base M_Values M_Sampler M_Ops M_Double M_Ieee M_DoubleExpr SpecSampler SpecOps SpecRising SpecRaised P_Raised.
Open Scope Q_scope.

(** Raising the parts that are added, multiplied or divided and lowering those that are subtracted or
    divided by, where products and quotients are of what is never negative, lowers no sample that is
    computed in double precision, infinities included and without any tolerance. *)
Theorem C203_raised : forall Or n e e', raised Or n e e' -> fl_never_above Or n e e'.
Proof. exact raised_below. Qed.
Print Assumptions C203_raised.
(** Sums, products and quotients of what is never negative never are. *)
Theorem C203_no_negatives :
  forall Or n,
  (forall d, (forall s v s', smp Or d n None None s = (Ok v, s') -> exists xs, numbers n v xs /\ Forall (Qle 0) xs) -> no_negatives Or n (FPart d)) /\
  (forall o a b, o <> FMinus -> no_negatives Or n a -> no_negatives Or n b -> no_negatives Or n (FExp o a b)).
Proof. exact (fun Or n => conj (part_positive Or n) (exp_positive Or n)). Qed.
Print Assumptions C203_no_negatives.
(** Sums of them are never NaN either; at worst they are infinite. *)
Theorem C203_sums :
  forall Or n,
  (forall d, (forall s v s', smp Or d n None None s = (Ok v, s') -> exists xs, numbers n v xs /\ Forall (Qle 0) xs) -> proper_sizes Or n (FPart d)) /\
  (forall a b, proper_sizes Or n a -> proper_sizes Or n b -> proper_sizes Or n (FExp FPlus a b)).
Proof. exact (fun Or n => conj (part_proper Or n) (sum_proper Or n)). Qed.
Print Assumptions C203_sums.
(** Rounding keeps the order of all numbers and infinities. *)
Theorem C203_rounding : forall a b, not_above a b -> not_above (round64 a) (round64 b).
Proof. exact round64_below. Qed.
Print Assumptions C203_rounding.
(** But strictly larger parts need not give larger samples: 1 + 2^-61 and 1 + 2^-60. *)
Theorem C203_not_strict :
  exists Or (d d' : obj (G Or)) s zs, let whole x := FExp FPlus (FPart (OLit (PFlt (Fin 1)))) (FPart x) in
  never_above Or 1 d d' /\ ~ never_above Or 1 d' d /\ fl_run Or (whole d) 1 s = (Ok zs, s) /\ fl_run Or (whole d') 1 s = (Ok zs, s).
Proof.
  exists ex_oracle, (OLit (PFlt (Fin (pow2 (-61))))), (OLit (PFlt (Fin (pow2 (-60))))), (ex_state 0). eexists. cbv zeta. split; [|split; [|split; vm_compute; reflexivity]].
  - intros s v v' s1 s2 E E'. cbn in E, E'. inversion E; inversion E'; subst. split; [|reflexivity]. exists [pow2 (-61)], [pow2 (-60)].
    repeat split; try (eexists; reflexivity); repeat constructor; try reflexivity. vm_compute. discriminate.
  - intros N. destruct (N (ex_state 0) _ _ _ _ eq_refl eq_refl) as ((xs & ys & [_ X] & [_ Y] & L) & _). cbn [elems lit_sample repeat simplify] in X, Y.
    inversion X as [|? x ? ? X1 X2]; subst. inversion Y as [|? y ? ? Y1 Y2]; subst. inversion L as [|? ? ? ? L1]; subst. cbn [plain] in X1, Y1. rewrite <- X1, <- Y1 in L1.
    vm_compute in L1. now apply L1.
Qed.
Print Assumptions C203_not_strict.

(** 3 / (1 + 2) is not above 3 / (1 + 1). *)
Example C203_sat :
  let lit x := FPart (OLit (PFlt (Fin x))) in
  let a := FExp FOver (lit 3) (FExp FPlus (lit 1) (lit 2)) in
  let b := FExp FOver (lit 3) (FExp FPlus (lit 1) (lit 1)) in
  raised ex_oracle 2 a b /\
  fl_run ex_oracle a 2 (ex_state 0) = (Ok [Fin (inject_Z (2 ^ 52) * pow2 (-52)); Fin (inject_Z (2 ^ 52) * pow2 (-52))], ex_state 0) /\
  fl_run ex_oracle b 2 (ex_state 0) = (Ok [Fin (inject_Z (3 * 2 ^ 51) * pow2 (-52)); Fin (inject_Z (3 * 2 ^ 51) * pow2 (-52))], ex_state 0).
Proof.
  cbv zeta. split; [|split; vm_compute; reflexivity].
  assert (P : forall x y, x <= y -> raised ex_oracle 2 (FPart (OLit (PFlt (Fin x)))) (FPart (OLit (PFlt (Fin y))))).
  { intros x y L. constructor. intros s v v' s1 s2 E E'. cbv in E, E'. inversion E; inversion E'; subst. split; [|reflexivity]. exists [x; x], [y; y].
    repeat split; try (eexists; split; reflexivity); repeat constructor; auto; cbn; reflexivity. }
  assert (N : forall x, 0 <= x -> no_negatives ex_oracle 2 (FPart (OLit (PFlt (Fin x))))).
  { intros x L. apply part_positive. intros s v s1 E. cbv in E. inversion E; subst. exists [x; x]. repeat split; try (eexists; split; reflexivity); repeat constructor; auto; cbn; reflexivity. }
  apply ra_quotient; try (apply N; lra); try (apply exp_positive; [discriminate|apply N; lra|apply N; lra]); [apply P; lra|].
  apply ra_sum; apply P; lra.
Qed.
