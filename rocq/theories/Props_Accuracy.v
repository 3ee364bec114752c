(** C202: estimates made of positive numbers are accurate in double precision. *)
From Coq Require Import Qabs Lia Lqa.
From Verif Require Import Base M_Values M_Sampler M_Ops M_Double M_Ieee M_DoubleExpr SpecSampler SpecOps SpecRising SpecFloat SpecIeee SpecAccuracy P_Accuracy.
Open Scope Q_scope.

(** Expressions with [+], [*] and [/] over any distributions and numbers: if the parts' samples and
    all results on the way are between 2^-1021 and 2^1022, sampling gives the exact results
    [xs], and in double precision each is off by at most one part in 2^53 per rounding and one more. *)
Theorem C202_accurate :
  forall Or n e s xs s', (1 <= n)%nat -> estimates Or n e s xs s' -> (steps e <= 1000)%nat ->
  exists v ys, smp Or (fobj e) n None None s = (Ok v, s') /\ numbers n v xs /\ fl_run Or e n s = (Ok (map Fin ys), s') /\
    Forall2 (fun x y => Qabs (y - x) <= inject_Z (Z.of_nat (S (steps e))) * double_u * x) xs ys.
Proof. exact estimate_accurate. Qed.
Print Assumptions C202_accurate.

(** With [-] and numbers of any sign, but without [/]: off by that share of the size, which is the
    same computed as if all numbers were positive and all differences sums. *)
Theorem C202_signed :
  forall Or n e s l s', (1 <= n)%nat -> accounts Or n e s l s' -> (steps e <= 1000)%nat ->
  exists v zs, smp Or (fobj e) n None None s = (Ok v, s') /\ numbers n v (map want l) /\ fl_run Or e n s = (Ok zs, s') /\
    Forall2 same zs (map (fun r => Fin (got r)) l) /\
    Forall (fun r => Qabs (got r - want r) <= inject_Z (Z.of_nat (S (steps e))) * double_u * size r) l.
Proof. exact account_accurate. Qed.
Print Assumptions C202_signed.

(** With [-] nothing may be left: 1 + 2^-60 - 1 is 0 in double precision. *)
Theorem C202_differences :
  exists Or (e : fexp (G Or)) s x y, smp Or (fobj e) 1 None None s = (Ok (Scalar (PFlt (Fin x))), s) /\ x == pow2 (-60) /\
    fl_run Or e 1 s = (Ok [Fin y], s) /\ y == 0.
Proof.
  exists ex_oracle, (FExp FMinus (FExp FPlus (FPart (OLit (PFlt (Fin 1)))) (FPart (OLit (PFlt (Fin (pow2 (-60))))))) (FPart (OLit (PFlt (Fin 1))))), (ex_state 0).
  eexists. eexists. split; [vm_compute; reflexivity|]. split; [vm_compute; reflexivity|]. split; vm_compute; reflexivity.
Qed.
Print Assumptions C202_differences.
(** And results on the way can be too large: 2^600 * 2^600 / 2^600 is infinite. *)
Theorem C202_range :
  exists Or (e : fexp (G Or)) s x, smp Or (fobj e) 1 None None s = (Ok (Scalar (PFlt (Fin x))), s) /\ x == pow2 600 /\
    fl_run Or e 1 s = (Ok [PInf], s).
Proof.
  exists ex_oracle, (FExp FOver (FExp FTimes (FPart (OLit (PFlt (Fin (pow2 600))))) (FPart (OLit (PFlt (Fin (pow2 600)))))) (FPart (OLit (PFlt (Fin (pow2 600)))))), (ex_state 0).
  eexists. split; [vm_compute; reflexivity|]. split; vm_compute; reflexivity.
Qed.
Print Assumptions C202_range.

(** (uniform(1, 2) * 0.1 + 0.2) / 3, three samples. *)
Definition trial : fexp (G ex_oracle) :=
  FExp FOver (FExp FPlus (FExp FTimes (FPart (ODist (DLeaf (LUniform 1 2) None None))) (FPart (OLit (PFlt (Fin (1 # 10)))))) (FPart (OLit (PFlt (Fin (2 # 10))))))
    (FPart (OLit (PInt 3))).
Example C202_sat :
  steps trial = 6%nat /\ exists xs s', estimates ex_oracle 3 trial (ex_state 0) xs s' /\ length xs = 3%nat /\
  exists ys, fl_run ex_oracle trial 3 (ex_state 0) = (Ok (map Fin ys), s') /\ Forall2 (fun x y => Qeq_bool x y = false) xs ys.
Proof.
  split; [reflexivity|]. eexists. eexists. split.
  - unfold trial. eapply est_op; [discriminate| | |].
    + eapply est_op; [discriminate| | |].
      * eapply est_op; [discriminate| | |].
        -- eapply est_part; [discriminate|vm_compute; reflexivity| |].
           ++ split; [eexists; split; reflexivity|]. cbn [elems]. repeat constructor; cbn [plain]; reflexivity.
           ++ repeat constructor; vm_compute; discriminate.
        -- eapply est_part; [discriminate|vm_compute; reflexivity| |].
           ++ split; [eexists; split; reflexivity|]. cbn [elems]. repeat constructor; cbn [plain]; reflexivity.
           ++ repeat constructor; vm_compute; discriminate.
        -- repeat constructor; vm_compute; discriminate.
      * eapply est_part; [discriminate|vm_compute; reflexivity| |].
        ++ split; [eexists; split; reflexivity|]. cbn [elems]. repeat constructor; cbn [plain]; reflexivity.
        ++ repeat constructor; vm_compute; discriminate.
      * repeat constructor; vm_compute; discriminate.
    + eapply est_part; [discriminate|vm_compute; reflexivity| |].
      ++ split; [eexists; split; reflexivity|]. cbn [elems]. repeat constructor; cbn [plain]; reflexivity.
      ++ repeat constructor; vm_compute; discriminate.
    + repeat constructor; vm_compute; discriminate.
  - split; [reflexivity|]. eexists (_ :: _ :: _ :: nil). split; [vm_compute; reflexivity|]. repeat constructor; vm_compute; reflexivity.
Qed.

(** 0.1 + 0.2 - 0.3 is not 0 in double precision, but less than 2^-50 of 0.6. *)
Definition tenths (k : Z) : row := let q := inject_Z k / 10 in Row q (rnd q) q.
Example C202_signed_sat :
  let lit k := FPart (OLit (PFlt (Fin (inject_Z k / 10)))) in
  let third := let q := rnd (1 # 10) + rnd (2 # 10) in Row (3 # 10) (rnd q) (3 # 10) in
  let last := let q := got third - rnd (3 # 10) in Row 0 (rnd q) (6 # 10) in
  accounts ex_oracle 1 (FExp FMinus (FExp FPlus (lit 1%Z) (lit 2%Z)) (lit 3%Z)) (ex_state 0) [last] (ex_state 0) /\
  got last == pow2 (-54).
Proof.
  cbv zeta. split; [|vm_compute; reflexivity].
  assert (P : forall k, (k = 1 \/ k = 2 \/ k = 3)%Z -> accounts ex_oracle 1 (FPart (OLit (PFlt (Fin (inject_Z k / 10))))) (ex_state 0) [tenths k] (ex_state 0)).
  { intros k K. eapply acc_part; [discriminate|reflexivity| |].
    - split; [eexists; reflexivity|]. cbn [elems]. constructor; [|constructor]. reflexivity.
    - constructor; [|constructor]. destruct K as [->|[->| ->]]; (split; [reflexivity|split; [right; split; vm_compute; discriminate|reflexivity]]). }
  eapply acc_op; [discriminate| |apply P; auto|].
  - eapply acc_op; [discriminate|apply P; auto|apply P; auto|].
    constructor; [|constructor]. instantiate (1 := let q := rnd (1 # 10) + rnd (2 # 10) in Row (3 # 10) (rnd q) (3 # 10)).
    split; [reflexivity|]. split; [reflexivity|]. split; [right; split; vm_compute; discriminate|vm_compute; reflexivity].
  - constructor; [|constructor]. split; [reflexivity|]. split; [reflexivity|]. split; [right; split; vm_compute; discriminate|vm_compute; reflexivity].
Qed.
