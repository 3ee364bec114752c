(** Lemmas for [Props_Accuracy]. *)
From Coq Require Import Qabs Lia Lqa.
From Verif Require Import Base M_Values M_Sampler M_Ops M_Double M_Ieee M_DoubleExpr SpecSampler SpecOps SpecRising SpecFloat SpecIeee SpecAccuracy
  P_Sampler P_Count P_Clip P_Ops P_Ops2 P_Support P_Dominance P_Float P_Double P_DoubleProb P_DoubleMean P_DoubleConj P_Ieee P_Ieee2 P_Rising P_Example.
Open Scope Q_scope.

Lemma half k : (k <= 1000)%nat -> 1 # 2 <= qpow (1 - double_u) k.
Proof.
  intros K. pose proof (pow_low double_u k ltac:(vm_compute; discriminate) ltac:(vm_compute; discriminate)) as P.
  assert (N : inject_Z (Z.of_nat k) <= 1000) by (rewrite <- (Zle_Qle _ 1000); lia).
  assert (U : 0 <= double_u) by (vm_compute; discriminate). assert (1000 * double_u <= 1 # 2) by (vm_compute; discriminate).
  assert (inject_Z (Z.of_nat k) * double_u <= 1000 * double_u) by (apply Qmult_le_compat_r; auto). lra.
Qed.
Lemma round_near k q x : (S k <= 1000)%nat -> moderate x -> near k q x -> exists r, round64 (Fin q) = Fin r /\ near (S k) r x.
Proof.
  intros K [L H] N. pose proof N as (Q & X & A & B).
  assert (HK : 1 # 2 <= qpow (1 - double_u) k) by (apply half; lia).
  assert (Two : forall e, pow2 (e + 1) == 2 * pow2 e) by (intro e; unfold pow2; rewrite Qpower_plus by discriminate; change (2 ^ 1) with 2; ring).
  pose proof (Two (-1022)%Z) as T1. pose proof (Two 1023%Z) as T2. pose proof (Two 1022%Z) as T3. pose proof (pow2_pos 1022) as P3.
  change (1023 + 1)%Z with 1024%Z in T2. change (1022 + 1)%Z with 1023%Z in T3. change (-1022 + 1)%Z with (-1021)%Z in T1.
  assert (Lq : pow2 (-1022) <= q).
  { assert ((1 # 2) * x <= qpow (1 - double_u) k * x) by (apply Qmult_le_compat_r; lra). lra. }
  assert (NR : near (S k) (rnd q) x) by (apply (near_trans 1 k _ q _); [now apply near_rnd|exact N]).
  assert (HR : rnd q <= 2 * x).
  { destruct NR as (R & _ & _ & D). pose proof (half (S k) K) as HS.
    assert ((1 # 2) * rnd q <= qpow (1 - double_u) (S k) * rnd q) by (apply Qmult_le_compat_r; lra). lra. }
  destruct (normal_rounds q ltac:(rewrite Qabs_pos; lra)) as [F _].
  rewrite Qabs_pos in F by (destruct NR; lra). specialize (F ltac:(lra)).
  destruct (round64 (Fin q)) as [r| | |]; cbn [same] in F; try contradiction. exists r. split; [reflexivity|].
  apply (near_compat (S k) (rnd q) r x x); [now symmetry|reflexivity|exact NR].
Qed.

Definition close (k : nat) (x : Q) (z : xnum) : Prop := exists y, z = Fin y /\ near k y x.
Lemma moderate_pos x : moderate x -> 0 < x.
Proof. intros [L _]. pose proof (pow2_pos (-1021)). lra. Qed.
Definition joint {T} (o : fop) (a b : fexp T) : nat := pred (steps (FExp o a b)).
Lemma op_near {T} o (a b : fexp T) x x' y y' : o <> FMinus -> near (steps a) x' x -> near (steps b) y' y ->
  exists q, fl_op o (Fin x') (Fin y') = round64 (Fin q) /\ near (joint o a b) q (exactly o x y).
Proof.
  intros M X Y. unfold joint. unfold fl_op. destruct o; cbn [steps pred exactly xadd xmul xdiv].
  - eexists. split; [reflexivity|]. apply near_add; [apply (near_weaken (steps a)); auto; lia|apply (near_weaken (steps b)); auto; lia].
  - congruence.
  - eexists. split; [reflexivity|]. now apply near_mul.
  - destruct Y as (Y0 & Y1 & Y2). assert (Qeq_bool y' 0 = false) as -> by (apply not_true_iff_false; rewrite Qeq_bool_iff; lra).
    eexists. split; [reflexivity|]. apply near_mul; auto. apply near_inv. now split.
Qed.
Lemma steps_joint {T} o (a b : fexp T) : steps (FExp o a b) = S (joint o a b).
Proof. unfold joint. destruct o; reflexivity. Qed.
Lemma steps_parts {T} o (a b : fexp T) : (steps a <= joint o a b /\ steps b <= joint o a b)%nat.
Proof. unfold joint. destruct o; cbn [steps pred]; lia. Qed.
Lemma ops_close {T} o (a b : fexp T) : o <> FMinus -> (steps (FExp o a b) <= 1000)%nat ->
  forall xs zs, Forall2 (close (steps a)) xs zs -> forall ys ws, Forall2 (close (steps b)) ys ws -> Forall moderate (each o xs ys) ->
  Forall2 (close (steps (FExp o a b))) (each o xs ys) (map (fun p => fl_op o (fst p) (snd p)) (combine zs ws)).
Proof.
  intros M K xs zs F. induction F as [|x z xs zs (x' & -> & X) F IH]; intros ys ws G H; [constructor|].
  destruct G as [|y w ys ws (y' & -> & Y) G]; [constructor|]. unfold each in *. cbn [combine map fst snd] in *. inversion H; subst.
  constructor; [|now apply IH]. destruct (op_near o a b x x' y y' M X Y) as (q & E & N). rewrite steps_joint in *.
  destruct (round_near _ q _ K ltac:(eassumption) N) as (r & R & NR). exists r. split; [congruence|exact NR].
Qed.
Lemma doubles_close l xs : Forall2 plain l xs -> Forall moderate xs -> exists zs, doubles l = Ok zs /\ Forall2 (close 1) xs zs.
Proof.
  intros F. induction F as [|p x l xs P F IH]; intros H; [exists []; split; [reflexivity|constructor]|].
  inversion H; subst. destruct IH as (zs & E & C); auto. cbn [doubles].
  assert (A : exists q, as_x p = Some (Fin q) /\ q == x).
  { destruct p as [z|[q| | |]| | |]; cbn in P; try contradiction; eexists; (split; [reflexivity|exact P]). }
  destruct A as (q & -> & Q). rewrite E.
  destruct (round_near 0 q x ltac:(lia) ltac:(assumption)) as (r & R & N).
  { apply (near_compat 0 x q x x); [now symmetry|reflexivity|]. apply near_refl. now apply moderate_pos. }
  rewrite R. eexists. split; [reflexivity|]. constructor; [|exact C]. exists r. auto.
Qed.

Section Runs.
  Variable Or : oracle.
  Lemma pointwise_positive o n : o <> FMinus ->
    forall l xs, Forall2 plain l xs -> forall m ys, Forall2 plain m ys -> length l = length m -> Forall (fun y => 0 < y) ys ->
    exists zs, pointwise (binop (pow_ Or) (arrays n) (opn_of o)) l m zs /\ Forall2 plain zs (each o xs ys).
  Proof.
    intros M l xs P. induction P as [|a x l xs A P IH]; intros m ys Q L Y; destruct m as [|b m]; try discriminate.
    - exists []. split; constructor.
    - inversion Q as [|? y ? ys' B Q']; subst. inversion Y; subst.
      destruct (binop_plain (pow_ Or) (arrays n) (opn_of o) a b x y (exactly o x y) A B) as (c & E & C).
      { destruct o; cbn [opn_of arith exactly]; auto. assert (Qeq_bool y 0 = false) as -> by (apply not_true_iff_false; rewrite Qeq_bool_iff; lra). reflexivity. }
      destruct (IH m ys' Q') as (zs & Z & Pz); [cbn in L; congruence|auto|].
      exists (c :: zs). split; [constructor; auto|]. unfold each. cbn. constructor; auto.
  Qed.
  Lemma fobj_some n e s xs s' : estimates Or n e s xs s' -> fobj e <> OLit PNone.
  Proof. destruct 1; cbn [fobj]; [assumption|discriminate]. Qed.
  Lemma estimates_moderate n e s xs s' : estimates Or n e s xs s' -> Forall moderate xs.
  Proof. destruct 1; auto. Qed.
  Lemma estimate_run n e s xs s' : (1 <= n)%nat -> estimates Or n e s xs s' -> (steps e <= 1000)%nat ->
    exists v zs, smp Or (fobj e) n None None s = (Ok v, s') /\ numbers n v xs /\ fl_run Or e n s = (Ok zs, s') /\ Forall2 (close (steps e)) xs zs.
  Proof.
    intros Hn H. induction H as [d v xs s s' D R V F|o a b xs ys s s1 s2 M A IHA B IHB F]; intros K.
    - destruct V as [V P]. destruct (doubles_close _ _ P F) as (zs & E & C). exists v, zs. cbn [fobj fl_run steps]. split; [exact R|]. split; [now split|].
      split; [|exact C]. unfold bindS. rewrite R. unfold lift. change (match v with Scalar x => [x] | Arr l => l end) with (elems v). rewrite E. reflexivity.
    - pose proof (steps_parts o a b) as [SA SB]. pose proof (steps_joint o a b) as SJ.
      destruct (IHA ltac:(lia)) as (u & zs & R & [Na Pa] & E & C). destruct (IHB ltac:(lia)) as (w & ws & R' & [Nb Pb] & E' & C').
      pose proof (lift2_run (fun arr => binop (pow_ Or) arr (opn_of o)) n u w Na Nb) as L. pose proof (n_elems _ _ Na) as La. pose proof (n_elems _ _ Nb) as Lb.
      assert (Y : Forall (fun y => 0 < y) ys) by (eapply Forall_impl; [exact moderate_pos|eapply estimates_moderate; eassumption]).
      destruct (pointwise_positive o n M _ _ Pa _ _ Pb ltac:(congruence) Y) as (ps & Z & Pz).
      apply zipM_pointwise in Z. cbv beta in L. rewrite Z in L. destruct L as (t & T & Nt & Et).
      exists (finish_list Or t), (map (fun p => fl_op o (fst p) (snd p)) (combine zs ws)). repeat split.
      + cbn [fobj]. rewrite (complex_run _ _ _ _ _ _ _ _ _ _ Hn (fobj_some _ _ _ _ _ B) R R'). cbn [fn_result apply_fn]. rewrite T. reflexivity.
      + now apply n_finish.
      + apply finish_plain. rewrite Et. exact Pz.
      + cbn [fl_run]. unfold bindS. rewrite E, E'. reflexivity.
      + now apply ops_close.
  Qed.
  Lemma estimate_accurate n e s xs s' : (1 <= n)%nat -> estimates Or n e s xs s' -> (steps e <= 1000)%nat ->
    exists v ys, smp Or (fobj e) n None None s = (Ok v, s') /\ numbers n v xs /\ fl_run Or e n s = (Ok (map Fin ys), s') /\
      Forall2 (fun x y => Qabs (y - x) <= inject_Z (Z.of_nat (S (steps e))) * double_u * x) xs ys.
  Proof.
    intros Hn H K. destruct (estimate_run n e s xs s' Hn H K) as (v & zs & R & V & E & C).
    assert (X : exists ys, zs = map Fin ys /\ Forall2 (fun x y => near (steps e) y x) xs ys).
    { clear -C. induction C as [|x z xs zs (y & -> & N) C (ys & -> & F)]; [exists []; split; [reflexivity|constructor]|]. exists (y :: ys). split; [reflexivity|now constructor]. }
    destruct X as (ys & -> & F). exists v, ys. repeat split; auto; try apply V.
    clear -F K. induction F; constructor; auto. now apply near_error.
  Qed.
End Runs.

(** Numbers of any sign. *)
Notation w := (1 + double_u).
Lemma w_one : 1 <= w.
Proof. vm_compute. discriminate. Qed.
Lemma wpow_add j k : qpow w (j + k) == qpow w j * qpow w k.
Proof. induction j; cbn [Nat.add qpow]; [ring|]. rewrite IHj. ring. Qed.
Lemma wpow_error k : (k <= 1000)%nat -> qpow w k - 1 <= inject_Z (Z.of_nat (S k)) * double_u.
Proof.
  intros K. pose proof (pow_high double_u k ltac:(vm_compute; discriminate) ltac:(vm_compute; discriminate)) as P.
  rewrite nat_S_q. assert (N0 : 0 <= inject_Z (Z.of_nat k)) by (change 0 with (inject_Z 0); rewrite <- Zle_Qle; lia).
  assert (N1 : inject_Z (Z.of_nat k) <= 1000) by (rewrite <- (Zle_Qle _ 1000); lia).
  assert (U : 0 < double_u) by reflexivity. assert (W : 1000 * (1001 * double_u) <= 1) by (vm_compute; discriminate).
  set (n := inject_Z (Z.of_nat k)) in *. clearbody n. set (x := qpow w k) in *. clearbody x. set (u := double_u) in *. clearbody u.
  assert (A : n * ((n + 1) * u) <= 1000 * (1001 * u)).
  { apply Qle_trans with (1000 * ((n + 1) * u)); [apply Qmult_le_compat_r; [lra|apply Qmult_le_0_compat; lra]|].
    rewrite !(Qmult_comm 1000). apply Qmult_le_compat_r; [|lra]. apply Qmult_le_compat_r; lra. }
  assert (B : 0 < 1 - n * u).
  { assert (n * u <= 1000 * u) by (apply Qmult_le_compat_r; lra). lra. }
  assert (C : 1 <= (1 + (n + 1) * u) * (1 - n * u)).
  { setoid_replace ((1 + (n + 1) * u) * (1 - n * u)) with (1 + u * (1 - n * ((n + 1) * u))) by ring.
    assert (0 <= u * (1 - n * ((n + 1) * u))) by (apply Qmult_le_0_compat; lra). lra. }
  assert (D : x * (1 - n * u) <= (1 + (n + 1) * u) * (1 - n * u)) by lra.
  apply Qmult_le_r in D; lra.
Qed.
(** Off by at most [k] roundings of the size. *)
Definition off (k : nat) (r : row) : Prop := Qabs (want r) <= size r /\ Qabs (got r - want r) <= (qpow w k - 1) * size r.
Lemma off_bounds k r : off k r -> 0 <= size r /\ - size r <= want r <= size r /\
  - ((qpow w k - 1) * size r) <= got r - want r <= (qpow w k - 1) * size r /\ - (qpow w k * size r) <= got r <= qpow w k * size r.
Proof.
  intros [A B]. pose proof (Qabs_nonneg (want r)). apply Qabs_Qle_condition in A. apply Qabs_Qle_condition in B.
  repeat split; lra.
Qed.
Lemma off_weaken j k r : (j <= k)%nat -> off j r -> off k r.
Proof.
  intros L [A B]. split; [exact A|]. eapply Qle_trans; [exact B|]. pose proof (Qabs_nonneg (want r)).
  pose proof (qpow_le w j k w_one L). apply Qmult_le_compat_r; lra.
Qed.
Lemma off_round k q x S r : Qabs x <= S -> Qabs (q - x) <= (qpow w k - 1) * S -> r == rnd q -> Qabs (r - x) <= (qpow w (Datatypes.S k) - 1) * S.
Proof.
  intros A B ->. pose proof (rnd_error q) as E. pose proof (Qabs_triangle (rnd q - q) (q - x)) as T.
  assert (E1 : rnd q - q + (q - x) == rnd q - x) by ring. rewrite E1 in T. clear E1.
  pose proof (Qabs_triangle (q - x) x) as T2. assert (E2 : q - x + x == q) by ring. rewrite E2 in T2.
  assert (U : 0 < double_u) by reflexivity. cbn [qpow].
  assert (M : double_u * Qabs q <= double_u * (qpow w k * S)) by (rewrite !(Qmult_comm double_u); apply Qmult_le_compat_r; lra).
  setoid_replace ((w * qpow w k - 1) * S) with ((qpow w k - 1) * S + double_u * (qpow w k * S)) by ring. lra.
Qed.
Lemma mul_le a b c d : 0 <= a -> 0 <= c -> a <= b -> c <= d -> a * c <= b * d.
Proof. intros A C AB CD. apply Qle_trans with (b * c); [apply Qmult_le_compat_r; auto|]. rewrite !(Qmult_comm b). apply Qmult_le_compat_r; lra. Qed.
Lemma off_op {T} o (a b : fexp T) ra rb r : o <> FOver -> off (steps a) ra -> off (steps b) rb -> op_row o ra rb r -> off (steps (FExp o a b)) r.
Proof.
  intros M A B (W & Z & _ & G). rewrite steps_joint. pose proof (steps_parts o a b) as [SA SB].
  assert (X : Qabs (exactly o (want ra) (want rb)) <= size r /\
              Qabs (exactly o (got ra) (got rb) - exactly o (want ra) (want rb)) <= (qpow w (joint o a b) - 1) * size r).
  { rewrite !Z. destruct o; cbn [exactly]; try congruence.
    - apply (off_weaken _ _ _ SA), off_bounds in A. apply (off_weaken _ _ _ SB), off_bounds in B.
      split; apply Qabs_Qle_condition; split; lra.
    - apply (off_weaken _ _ _ SA), off_bounds in A. apply (off_weaken _ _ _ SB), off_bounds in B.
      split; apply Qabs_Qle_condition; split; lra.
    - pose proof (off_bounds _ _ A) as (SZ & _). pose proof (off_bounds _ _ B) as (SZ' & _ & _ & GB). apply Qabs_Qle_condition in GB.
      destruct A as [A1 A2]. destruct B as [B1 B2]. split; [rewrite Qabs_Qmult; apply mul_le; auto; apply Qabs_nonneg|].
      unfold joint. cbn [steps pred]. rewrite wpow_add.
      setoid_replace (got ra * got rb - want ra * want rb) with ((got ra - want ra) * got rb + want ra * (got rb - want rb)) by ring.
      eapply Qle_trans; [apply Qabs_triangle|]. rewrite !Qabs_Qmult.
      pose proof (mul_le _ _ _ _ (Qabs_nonneg _) (Qabs_nonneg _) A2 GB) as M1. pose proof (mul_le _ _ _ _ (Qabs_nonneg _) (Qabs_nonneg _) A1 B2) as M2.
      eapply Qle_trans; [apply Qplus_le_compat; [exact M1|exact M2]|].
      setoid_replace ((qpow w (steps a) * qpow w (steps b) - 1) * (size ra * size rb)) with
        ((qpow w (steps a) - 1) * size ra * (qpow w (steps b) * size rb) + size ra * ((qpow w (steps b) - 1) * size rb)) by ring. apply Qle_refl. }
  destruct X as [X1 X2]. split; [now rewrite W|]. rewrite W. apply (off_round _ (exactly o (got ra) (got rb))); auto.
Qed.
Lemma off_part r : part_row r -> off 1 r.
Proof.
  intros (Z & _ & G). split; [rewrite Z; apply Qle_refl|]. apply (off_round 0 (want r)); [rewrite Z; apply Qle_refl| |exact G].
  setoid_replace (want r - want r) with 0 by ring. cbn [qpow]. change (Qabs 0) with 0. lra.
Qed.
Lemma fits_round q : fits64 q -> same (round64 (Fin q)) (Fin (rnd q)).
Proof.
  intros [Z|[L H]].
  - eapply same_trans; [apply (round64_compat q 0 Z)|]. change (0 == rnd q). symmetry. exact (rnd_compat q 0 Z).
  - destruct (normal_rounds q L) as [F _]. apply F. pose proof (rnd_error q) as E. pose proof (Qabs_triangle (rnd q - q) q) as T.
    assert (E1 : rnd q - q + q == rnd q) by ring. rewrite E1 in T. pose proof (pow2_pos 1023) as P.
    assert (D : pow2 1024 == 2 * pow2 1023) by reflexivity. assert (U : double_u < 1) by reflexivity.
    assert (double_u * Qabs q <= double_u * pow2 1023) by (rewrite !(Qmult_comm double_u); apply Qmult_le_compat_r; [auto|vm_compute; discriminate]).
    assert (double_u * pow2 1023 < 1 * pow2 1023) by (apply Qmult_lt_compat_r; lra). lra.
Qed.
Definition shows (r : row) (z : xnum) : Prop := same z (Fin (got r)).
Lemma doubles_show l : forall ps, Forall2 plain ps (map want l) -> Forall part_row l -> exists zs, doubles ps = Ok zs /\ Forall2 shows l zs.
Proof.
  induction l as [|r l IH]; intros ps P F; cbn [map] in P; inversion P as [|p x ps' xs Pp P' E1 E2]; subst; [exists []; split; [reflexivity|constructor]|].
  inversion F as [|? ? R F']; subst. destruct (IH ps' P' F') as (zs & E & C). cbn [doubles].
  assert (A : exists q, as_x p = Some (Fin q) /\ q == want r).
  { destruct p as [z|[q| | |]| | |]; cbn in Pp; try contradiction; eexists; (split; [reflexivity|exact Pp]). }
  destruct A as (q & -> & Q). rewrite E. eexists. split; [reflexivity|]. constructor; [|exact C]. destruct R as (_ & Fi & G). unfold shows.
  eapply same_trans; [apply (round64_compat q _ Q)|]. eapply same_trans; [apply fits_round, Fi|]. cbn [same]. now symmetry.
Qed.
Lemma op_shows o a b r z z' : o <> FOver -> op_row o a b r -> shows a z -> shows b z' -> shows r (fl_op o z z').
Proof.
  intros M (_ & _ & Fi & G) A B. unfold shows in *. destruct z as [x| | |]; cbn [same] in A; try contradiction. destruct z' as [y| | |]; cbn [same] in B; try contradiction.
  assert (X : exists q, fl_op o (Fin x) (Fin y) = round64 (Fin q) /\ q == exactly o (got a) (got b)).
  { unfold fl_op. destruct o; try congruence; eexists; (split; [reflexivity|]); cbn [exactly]; rewrite A, B; ring. }
  destruct X as (q & -> & Q). eapply same_trans; [apply (round64_compat q _ Q)|]. eapply same_trans; [apply fits_round, Fi|]. cbn [same]. now symmetry.
Qed.
Lemma ops_show o la lb l : o <> FOver -> op_rows o la lb l -> forall zs ws, Forall2 shows la zs -> Forall2 shows lb ws ->
  Forall2 shows l (map (fun p => fl_op o (fst p) (snd p)) (combine zs ws)).
Proof.
  intros M H. induction H as [|a b r la lb l R H IH]; intros zs ws A B; inversion A; inversion B; subst; cbn [combine map fst snd]; constructor; auto.
  eapply op_shows; eauto.
Qed.
Lemma ops_off {T} o (a b : fexp T) la lb l : o <> FOver -> op_rows o la lb l -> Forall (off (steps a)) la -> Forall (off (steps b)) lb -> Forall (off (steps (FExp o a b))) l.
Proof.
  intros M H. induction H as [|ra rb r la lb l R H IH]; intros A B; inversion A; inversion B; subst; constructor; auto. eapply (off_op o a b ra rb); eauto.
Qed.

Section Signed.
  Variable Or : oracle.
  Lemma rows_plain o n la lb l : o <> FOver -> op_rows o la lb l -> forall ps qs, Forall2 plain ps (map want la) -> Forall2 plain qs (map want lb) ->
    exists zs, pointwise (binop (pow_ Or) (arrays n) (opn_of o)) ps qs zs /\ Forall2 plain zs (map want l).
  Proof.
    intros M H. induction H as [|ra rb r la lb l R H IH]; intros ps qs P Q; cbn [map] in P, Q; inversion P as [|p ? ps' ? Pp P']; inversion Q as [|q ? qs' ? Qq Q']; subst.
    - exists []. split; constructor.
    - destruct (IH ps' qs' P' Q') as (zs & Z & Pz).
      destruct (binop_plain (pow_ Or) (arrays n) (opn_of o) p q _ _ (exactly o (want ra) (want rb)) Pp Qq) as (c & E & C).
      { destruct o; try congruence; reflexivity. }
      exists (c :: zs). split; [constructor; auto|]. cbn [map]. constructor; [|exact Pz]. destruct R as (W & _).
      destruct c as [z|[x| | |]| | |]; cbn [plain] in *; try contradiction; now rewrite W.
  Qed.
  Lemma account_run n e s l s' : (1 <= n)%nat -> accounts Or n e s l s' ->
    exists v zs, smp Or (fobj e) n None None s = (Ok v, s') /\ numbers n v (map want l) /\ fl_run Or e n s = (Ok zs, s') /\ Forall2 shows l zs /\
      Forall (off (steps e)) l /\ fobj e <> OLit PNone.
  Proof.
    intros Hn H. induction H as [d v l s s' D R V F|o a b la lb l s s1 s2 M A IHA B IHB H].
    - destruct V as [V P]. destruct (doubles_show l _ P F) as (zs & E & C). exists v, zs. cbn [fobj fl_run steps]. split; [exact R|]. split; [now split|].
      split; [|split; [exact C|split; [|exact D]]].
      + unfold bindS. rewrite R. unfold lift. change (match v with Scalar x => [x] | Arr l => l end) with (elems v). rewrite E. reflexivity.
      + eapply Forall_impl; [exact off_part|exact F].
    - destruct IHA as (u & zs & R & [Na Pa] & E & C & O1 & _). destruct IHB as (t & ws & R' & [Nb Pb] & E' & C' & O2 & D).
      pose proof (lift2_run (fun arr => binop (pow_ Or) arr (opn_of o)) n u t Na Nb) as L.
      destruct (rows_plain o n la lb l M H _ _ Pa Pb) as (ps & Z & Pz).
      apply zipM_pointwise in Z. cbv beta in L. rewrite Z in L. destruct L as (y & T & Nt & Et).
      exists (finish_list Or y), (map (fun p => fl_op o (fst p) (snd p)) (combine zs ws)). split; [|split; [split|split; [|split; [|split]]]].
      + cbn [fobj]. rewrite (complex_run _ _ _ _ _ _ _ _ _ _ Hn D R R'). cbn [fn_result apply_fn]. rewrite T. reflexivity.
      + now apply n_finish.
      + apply finish_plain. rewrite Et. exact Pz.
      + cbn [fl_run]. unfold bindS. rewrite E, E'. reflexivity.
      + eapply ops_show; eauto.
      + eapply ops_off; eauto.
      + discriminate.
  Qed.
  Lemma account_accurate n e s l s' : (1 <= n)%nat -> accounts Or n e s l s' -> (steps e <= 1000)%nat ->
    exists v zs, smp Or (fobj e) n None None s = (Ok v, s') /\ numbers n v (map want l) /\ fl_run Or e n s = (Ok zs, s') /\
      Forall2 same zs (map (fun r => Fin (got r)) l) /\
      Forall (fun r => Qabs (got r - want r) <= inject_Z (Z.of_nat (S (steps e))) * double_u * size r) l.
  Proof.
    intros Hn H K. destruct (account_run n e s l s' Hn H) as (v & zs & R & V & E & C & F & _). exists v, zs. repeat split; auto; try apply V.
    - clear -C. induction C; cbn [map]; constructor; auto.
    - eapply Forall_impl; [|exact F]. cbv beta. intros r B. pose proof (off_bounds _ _ B) as (Z & _). destruct B as [_ B]. eapply Qle_trans; [exact B|].
      apply Qmult_le_compat_r; [now apply wpow_error|exact Z].
  Qed.
End Signed.
