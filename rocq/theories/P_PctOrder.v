(** Lemmas for [Props_PctOrder]. *)
From Coq Require Import Lqa Setoid Permutation Sorted Qabs.
From Verif Require Import Base M_Values M_Ops M_Percentiles SpecPercentiles SpecPctUnits SpecPctOrder SpecRound
  P_Support P_Ctor P_Round P_Percentiles P_Percentiles2 P_Percentiles3 P_Percentiles4 P_PctUnits.
Open Scope Q_scope.

(* ------------------------------------------------------------ order statistics *)
Definition upto (e : Q) (x y : Q) : Prop := x <= y + e.
Lemma upto_length e l m : Forall2 (upto e) l m -> length l = length m.
Proof. induction 1; simpl; auto. Qed.
Lemma counts_upto e l m a b : Forall2 (upto e) l m -> b + e < a -> (count_upto m b <= count_below l a)%nat.
Proof.
  intros F L. unfold count_upto, count_below. induction F as [|x y l m H F IH]; simpl; [lia|]. unfold upto in H.
  destruct (Qle_bool y b) eqn:E; simpl.
  - apply Qle_bool_iff in E. assert (Qlt_bool x a = true) as -> by (apply qlt_true; lra). simpl. lia.
  - destruct (Qlt_bool x a); simpl; lia.
Qed.
Lemma order_stat_upto e l m i a b : Forall2 (upto e) l m -> order_stat l i a -> order_stat m i b -> a <= b + e.
Proof.
  intros F [_ A] [_ B]. apply Qnot_lt_le. intros C. pose proof (counts_upto e l m a b F C). lia.
Qed.
Lemma percentile_upto e l m p r s : Forall2 (upto e) l m -> percentile_of l p r -> percentile_of m p s -> r <= s + e.
Proof.
  intros F (i & a & b & V1 & V2 & A & B & E) (j & c & d & W1 & W2 & C & D & G). cbv zeta in *.
  rewrite <- (upto_length e l m F) in *. set (v := inject_Z (Z.of_nat (length l - 1)) * (p / 100)) in *.
  assert (IJ : i = j).
  { apply Nat.le_antisymm; apply Nat.lt_succ_r, inject_nat_lt; rewrite inject_S; lra. }
  subst j. pose proof (order_stat_upto e l m _ _ _ F A C) as X. pose proof (order_stat_upto e l m _ _ _ F B D) as Y.
  set (t := v - inject_Z (Z.of_nat i)) in *. assert (T0 : 0 <= t) by (unfold t; lra). assert (T1 : t < 1) by (unfold t; lra).
  pose proof (Qmult_le_0_compat (c + e - a) (1 - t) ltac:(lra) ltac:(lra)).
  pose proof (Qmult_le_0_compat (d + e - b) t ltac:(lra) ltac:(lra)). rewrite E, G. lra.
Qed.

(* ------------------------------------------------------------ interpolation *)
Definition above (e : Q) (q q' : Q * Q) : Prop := fst q = fst q' /\ upto e (snd q) (snd q').
Lemma interp_from_upto e x pts pts' : Forall2 (above e) pts pts' -> forall x0 y0 y0', x0 <= x -> upto e y0 y0' ->
  interp_from x x0 y0 pts <= interp_from x x0 y0' pts' + e.
Proof.
  unfold upto. induction 1 as [|[x1 y1] [x1' y1'] pts pts' [E H] F IH]; intros x0 y0 y0' L U; simpl in *; auto.
  subst x1'. destruct (Qle_bool x1 x) eqn:C.
  - apply Qle_bool_iff in C. apply IH; auto.
  - apply qle_false in C. destruct (fraction x x0 x1 L C) as [T0 T1]. unfold upto in H.
    assert (forall a b, (b - a) / (x1 - x0) * (x - x0) + a == a + (b - a) * ((x - x0) / (x1 - x0))) as Eq by (intros; unfold Qdiv; ring).
    rewrite !Eq. set (t := (x - x0) / (x1 - x0)) in *.
    pose proof (Qmult_le_0_compat (y0' + e - y0) (1 - t) ltac:(lra) ltac:(lra)).
    pose proof (Qmult_le_0_compat (y1' + e - y1) t ltac:(lra) ltac:(lra)). lra.
Qed.
Lemma np_interp_upto e x pts pts' : 0 <= e -> Forall2 (above e) pts pts' -> np_interp pts x <= np_interp pts' x + e.
Proof.
  intros E0 F. destruct F as [|[x0 y0] [x0' y0'] pts pts' [E H] F]; simpl in *; [lra|]. subst x0'.
  destruct (Qlt_bool x x0) eqn:C; [exact H|]. apply qlt_false in C. now apply interp_from_upto.
Qed.
Lemma different_nth l i j : different l -> (i < length l)%nat -> (j < length l)%nat -> i <> j -> ~ nth i l 0 == nth j l 0.
Proof.
  intros D I J N E. apply N. unfold different in D. rewrite (NoDup_nth _ (Qred 0)) in D. apply D; rewrite ?map_length; auto.
  rewrite !map_nth. now apply Qred_complete.
Qed.
Lemma argsort_strict argsort data : sorts_numbers argsort -> different data ->
  StronglySorted (fun i j => nth i data 0 < nth j data 0) (argsort data).
Proof.
  intros S D. destruct (S data) as [P H]. pose proof (Permutation_length P) as L. rewrite seq_length in L.
  assert (R : forall i, (i < length data)%nat -> (nth i (argsort data) 0 < length data)%nat).
  { intros i I. assert (J : In (nth i (argsort data) 0%nat) (seq 0 (length data))) by (eapply Permutation_in; [exact P|apply nth_In; lia]).
    apply in_seq in J. lia. }
  assert (N : NoDup (argsort data)) by (eapply Permutation_NoDup; [symmetry; exact P|apply seq_NoDup]).
  assert (Q : forall i j, (i < j < length (argsort data))%nat -> nth (nth i (argsort data) 0%nat) data 0 < nth (nth j (argsort data) 0%nat) data 0).
  { intros i j I. rewrite L in I. destruct (Qlt_le_dec (nth (nth i (argsort data) 0%nat) data 0) (nth (nth j (argsort data) 0%nat) data 0)) as [X|X]; auto.
    exfalso. refine (different_nth data (nth i (argsort data) 0%nat) (nth j (argsort data) 0%nat) D _ _ _ _); try (apply R; lia).
    - intros C. rewrite (NoDup_nth _ 0%nat) in N. apply N in C; lia.
    - apply Qle_antisym; auto. apply H. lia. }
  revert Q. generalize (argsort data). clear. induction l as [|x l IH]; intros Q; constructor.
  - apply IH. intros i j I. apply (Q (S i) (S j)). simpl. lia.
  - apply Forall_forall. intros y I. apply (In_nth _ _ 0%nat) in I as (k & K & <-). apply (Q 0%nat (S k)). simpl. lia.
Qed.
Lemma ss_weaken {A} (R R' : A -> A -> Prop) (l : list A) : (forall x y, In x l -> In y l -> R x y -> R' x y) ->
  StronglySorted R l -> StronglySorted R' l.
Proof.
  induction l as [|x l IH]; intros H S; constructor; inversion S as [|? ? S' F]; subst.
  - apply IH; auto. intros; apply H; simpl; auto.
  - rewrite Forall_forall in *. intros y I. apply H; simpl; auto.
Qed.
Lemma same_order_different data data' : same_order data data' -> different data -> different data'.
Proof.
  intros [L O] D. unfold different. apply (NoDup_nth _ (Qred 0)). rewrite map_length. intros i j I J E. rewrite !map_nth in E.
  assert (E' : nth i data' 0 == nth j data' 0) by (rewrite <- (Qred_correct (nth i data' 0)), E; apply Qred_correct). clear E.
  destruct (Nat.eq_dec i j); auto. exfalso. rewrite L in I, J. pose proof (different_nth data i j D I J n) as N.
  destruct (Q_dec (nth i data 0) (nth j data 0)) as [[X|X]|X]; [pose proof (O i j I J X)|pose proof (O j i J I X)|contradiction]; lra.
Qed.
Lemma same_argsort as1 as2 data data' : sorts_numbers as1 -> sorts_numbers as2 -> different data -> same_order data data' ->
  as1 data = as2 data'.
Proof.
  intros S1 S2 D O. pose proof (same_order_different _ _ O D) as D'.
  apply (strict_unique (fun i j => nth i data' 0 < nth j data' 0)).
  - intros x. apply Qlt_irrefl.
  - intros x y A B. lra.
  - apply (ss_weaken (fun i j => nth i data 0 < nth j data 0)); [|now apply argsort_strict].
    intros x y I J. destruct (S1 data) as [P _].
    apply (Permutation_in _ P), in_seq in I. apply (Permutation_in _ P), in_seq in J. apply O; lia.
  - now apply argsort_strict.
  - destruct (S1 data) as [P1 _], (S2 data') as [P2 _]. rewrite P1, P2. destruct O as [-> _]. reflexivity.
Qed.
Lemma points_upto e q (o : list nat) data data' : length data = length data' ->
  (forall i, (i < length data)%nat -> upto e (nth i data 0) (nth i data' 0)) -> (forall i, In i o -> (i < length data)%nat) ->
  Forall2 (above e) (combine q (map (fun k => nth k data 0) o)) (combine q (map (fun k => nth k data' 0) o)).
Proof.
  intros L H. revert q. induction o as [|k o IH]; intros [|x q] I; simpl; constructor.
  - split; auto. apply H, I. now left.
  - apply IH. intros i J. apply I. now right.
Qed.
Lemma forall2_nth (R : Q -> Q -> Prop) l m : Forall2 R l m -> forall i, (i < length l)%nat -> R (nth i l 0) (nth i m 0).
Proof. induction 1; simpl; intros i I; [lia|]. destruct i; auto. apply IHForall2. lia. Qed.
Lemma weighted_upto e as1 as2 data data' w x : 0 <= e -> sorts_numbers as1 -> sorts_numbers as2 -> different data ->
  same_order data data' -> Forall2 (upto e) data data' ->
  np_interp (weighted_points as1 data w) x <= np_interp (weighted_points as2 data' w) x + e.
Proof.
  intros E0 S1 S2 D O F. apply np_interp_upto; auto. unfold weighted_points. rewrite <- (same_argsort as1 as2 data data' S1 S2 D O).
  apply points_upto.
  - symmetry. apply O.
  - now apply forall2_nth.
  - intros i I. destruct (S1 data) as [P _]. apply (Permutation_in _ P), in_seq in I. lia.
Qed.

(* ------------------------------------------------------------ through the interface *)
Lemma related_dset (R : Q -> Q -> Prop) d d' k v v' : Forall2 (fun x y : Q * Q => fst x = fst y /\ R (snd x) (snd y)) d d' -> R v v' ->
  Forall2 (fun x y => fst x = fst y /\ R (snd x) (snd y)) (dset d k v) (dset d' k v').
Proof.
  intros F E. induction F as [|[a x] [b y] d d' [E1 E2] F IH]; simpl in *.
  - repeat constructor. auto.
  - subst b. destruct (Qeq_bool a k); constructor; auto.
Qed.
Lemma related_dict (R : Q -> Q -> Prop) ls vs vs' : Forall2 R vs vs' ->
  Forall2 (fun x y => fst x = fst y /\ R (snd x) (snd y)) (dict_of (combine ls vs)) (dict_of (combine ls vs')).
Proof.
  intros F. unfold dict_of. assert (G : Forall2 (fun x y : Q * Q => fst x = fst y /\ R (snd x) (snd y)) [] []) by constructor.
  revert G. generalize (@nil (Q * Q)) at 1 3. generalize (@nil (Q * Q)). revert vs vs' F.
  induction ls as [|l ls IH]; intros vs vs' F d d' G; simpl; auto. destruct F as [|v v' vs vs' E F]; simpl; auto.
  apply IH; auto. now apply related_dset.
Qed.
Lemma gp_related (R : Q -> Q -> Prop) as1 as2 data data' w pa reverse digits : sorts_numbers as1 -> sorts_numbers as2 ->
  good_call data w (plist pa) -> good_call data' w (plist pa) ->
  (forall p, In p (plist pa) -> R (round_to digits (pct as1 data w p)) (round_to digits (pct as2 data' w p))) ->
  exists o o', get_percentiles as1 data pa w reverse digits = Ok o /\ get_percentiles as2 data' pa w reverse digits = Ok o' /\
    related R o o'.
Proof.
  intros H1 H2 G G' E. rewrite (get_vals as1 data pa w) by auto. rewrite (get_vals as2 data' pa w) by auto. cbv zeta.
  set (labels := if reverse then rev (plist pa) else plist pa).
  set (v := map (fun p => round_to digits (pct as1 data w p)) (plist pa)).
  set (v' := map (fun p => round_to digits (pct as2 data' w p)) (plist pa)).
  assert (F : Forall2 R v v').
  { unfold v, v'. revert E. generalize (plist pa). induction l as [|p l IH]; simpl; intros E; constructor; auto. }
  assert (Lv : length v = length labels) by (unfold v, labels; destruct reverse; rewrite map_length, ?rev_length; auto).
  destruct labels as [|a [|b ls]] eqn:EL.
  - eexists; eexists; split; [reflexivity|]; split; [reflexivity|]. simpl. constructor.
  - destruct F as [|x x' y y' Ex F]; [discriminate|]. eexists; eexists; split; [reflexivity|]; split; [reflexivity|]. exact Ex.
  - eexists; eexists; split; [reflexivity|]; split; [reflexivity|]. now apply related_dict.
Qed.
Lemma risen_upto l m : risen l m -> Forall2 (upto 0) l m.
Proof. intros F. induction F as [|x y l m H F IH]; constructor; auto. unfold upto. lra. Qed.
Lemma moved_upto e l m : moved e l m -> Forall2 (upto e) l m /\ Forall2 (upto e) m l.
Proof.
  intros F. induction F as [|x y l m H F [I J]]; split; constructor; auto; apply Qabs_Qle_condition in H; unfold upto; lra.
Qed.
Definition keeps (w : option (list Q)) (data data' : list Q) : Prop := w = None \/ (different data /\ same_order data data').
Lemma same_order_back data data' : same_order data data' -> different data -> same_order data' data.
Proof.
  intros [L O] D. split; auto. rewrite L. intros i j I J H. destruct (Q_dec (nth i data 0) (nth j data 0)) as [[X|X]|X]; auto.
  - exfalso. pose proof (O j i J I X). lra.
  - exfalso. destruct (Nat.eq_dec i j) as [->|N]; [lra|]. exact (different_nth data i j D I J N X).
Qed.
Lemma keeps_back w data data' : keeps w data data' -> keeps w data' data.
Proof.
  intros [->|[D O]]; [now left|right]. split; [now apply (same_order_different data)|now apply same_order_back].
Qed.
Lemma pct_upto e as1 as2 data data' w ps p : 0 <= e -> sorts_numbers as1 -> sorts_numbers as2 -> good_call data w ps ->
  good_call data' w ps -> keeps w data data' -> Forall2 (upto e) data data' -> In p ps ->
  pct as1 data w p <= pct as2 data' w p + e.
Proof.
  intros E0 S1 S2 G G' K F I. destruct w as [w|]; simpl in *.
  - destruct K as [K|[D O]]; [discriminate|]. now apply weighted_upto.
  - destruct G as [N P], G' as [N' _]. eapply percentile_upto; [exact F| |]; apply np_percentile_spec; auto.
Qed.
Lemma good_call_to data data' w ps : length data' = length data -> good_call data w ps -> good_call data' w ps.
Proof.
  intros L. destruct w as [w|]; simpl.
  - unfold usable_weights. now rewrite L.
  - intros [N P]. split; auto. intros ->. destruct data; [now apply N|discriminate].
Qed.
Lemma gp_rise as1 as2 data data' w pa reverse digits : sorts_numbers as1 -> sorts_numbers as2 ->
  good_call data w (plist pa) -> risen data data' -> w = None \/ (different data /\ same_order data data') ->
  exists o o', get_percentiles as1 data pa w reverse digits = Ok o /\ get_percentiles as2 data' pa w reverse digits = Ok o' /\
    out_le o o'.
Proof.
  intros S1 S2 G R K. pose proof (risen_upto _ _ R) as U. pose proof (upto_length _ _ _ U) as L.
  pose proof (good_call_to data data' w _ (eq_sym L) G) as G'. apply gp_related; auto.
  intros p I. apply round_to_mono. pose proof (pct_upto 0 as1 as2 data data' w (plist pa) p ltac:(lra) S1 S2 G G' K U I). lra.
Qed.
Lemma gp_moved e as1 as2 data data' w pa reverse : sorts_numbers as1 -> sorts_numbers as2 ->
  good_call data w (plist pa) -> moved e data data' -> w = None \/ (different data /\ same_order data data') ->
  exists o o', get_percentiles as1 data pa w reverse None = Ok o /\ get_percentiles as2 data' pa w reverse None = Ok o' /\
    out_close e o o'.
Proof.
  intros S1 S2 G R K. destruct (moved_upto _ _ _ R) as [U V]. pose proof (upto_length _ _ _ U) as L.
  pose proof (good_call_to data data' w _ (eq_sym L) G) as G'. 
  assert (E0 : 0 <= e).
  { destruct R as [|x y l m H R]; [|eapply Qle_trans; [apply Qabs_nonneg|exact H]]. exfalso. destruct w as [w|]; simpl in G.
    - destruct G as (E & _ & T). destruct w; [|discriminate]. simpl in T. lra.
    - destruct G as [N _]. now apply N. }
  apply gp_related; auto. intros p I. cbn [round_to]. apply Qabs_Qle_condition.
  pose proof (pct_upto e as1 as2 data data' w (plist pa) p E0 S1 S2 G G' K U I).
  pose proof (pct_upto e as2 as1 data' data w (plist pa) p E0 S2 S1 G' G (keeps_back _ _ _ K) V I). split; lra.
Qed.
Lemma sum_rise l m : Forall2 Qle l m -> sum l <= sum m.
Proof. induction 1; simpl; [apply Qle_refl|]. lra. Qed.
Lemma mean_rise l m : Forall2 Qle l m -> qsum l / qlen l <= qsum m / qlen m.
Proof.
  intros F. assert (L : length l = length m) by (clear - F; induction F; simpl; auto).
  unfold qlen. rewrite <- L. rewrite !sum_total. unfold Qdiv. apply Qmult_le_compat_r; [now apply sum_rise|].
  apply Qinv_le_0_compat. unfold Qle. simpl. lia.
Qed.
Lemma ci_rise as1 as2 data data' c digits r r' s s' : sorts_numbers as1 -> sorts_numbers as2 -> data <> [] -> percent c ->
  risen data data' ->
  get_median_and_ci as1 data c None digits = Ok r -> get_median_and_ci as2 data' c None digits = Ok r' ->
  get_mean_and_ci as1 data c None digits = Ok s -> get_mean_and_ci as2 data' c None digits = Ok s' ->
  (md_low r <= md_low r' /\ md_median r <= md_median r' /\ md_high r <= md_high r') /\
  (mc_low s <= mc_low s' /\ mc_mean s <= mc_mean s' /\ mc_high s <= mc_high s').
Proof.
  intros S1 S2 N C R E E' M M'. pose proof (risen_upto _ _ R) as U. pose proof (upto_length _ _ _ U) as L.
  assert (N' : data' <> []) by (intros ->; destruct data; [now apply N|discriminate]).
  destruct (median_ci_run as1 S1 data c None digits N C) as (x & Ex & A & B & D).
  destruct (median_ci_run as2 S2 data' c None digits N' C) as (y & Ey & A' & B' & D').
  destruct (mean_ci_run as1 S1 data c None digits N C) as (x1 & Ex1 & A1 & B1 & D1).
  destruct (mean_ci_run as2 S2 data' c None digits N' C) as (y1 & Ey1 & A1' & B1' & D1').
  rewrite E in Ex. rewrite E' in Ey. rewrite M in Ex1. rewrite M' in Ey1.
  inversion Ex; inversion Ey; inversion Ex1; inversion Ey1; subst x y x1 y1.
  destruct (lowp_percent c C) as (P1 & P2 & _).
  assert (T : forall p, percent p -> round_to digits (pct as1 data None p) <= round_to digits (pct as2 data' None p)).
  { intros p P. apply round_to_mono. simpl.
    pose proof (percentile_upto 0 data data' p _ _ U (np_percentile_spec data p N P) (np_percentile_spec data' p N' P)). lra. }
  rewrite A, B, D, A', B', D', A1, B1, D1, A1', B1', D1'.
  assert (percent 50) by (split; discriminate).
  repeat split; auto. apply round_to_mono, mean_rise, R.
Qed.

(** With weights a percentile may fall when a datum rises past another one. *)
Lemma weighted_falls :
  exists data data' w p, usable_weights data w /\ percent p /\ risen data data' /\ different data /\ different data' /\
  forall as1 as2, sorts_numbers as1 -> sorts_numbers as2 ->
  exists v v', get_percentiles as1 data (POne p) (Some w) false None = Ok (One v) /\
    get_percentiles as2 data' (POne p) (Some w) false None = Ok (One v') /\ v' < v.
Proof.
  exists [0; 10; 11; 100], [0; 12; 11; 100], [1; 1; 3; 1], (500 # 6).
  assert (U : usable_weights [0; 10; 11; 100] [1; 1; 3; 1]).
  { split; [reflexivity|]. split; [intros x [<-|[<-|[<-|[<-|[]]]]]; discriminate|reflexivity]. }
  assert (U' : usable_weights [0; 12; 11; 100] [1; 1; 3; 1]).
  { split; [reflexivity|]. split; [intros x [<-|[<-|[<-|[<-|[]]]]]; discriminate|reflexivity]. }
  assert (D : different [0; 10; 11; 100]).
  { unfold different. cbn. repeat constructor; cbn; intuition discriminate. }
  assert (D' : different [0; 12; 11; 100]).
  { unfold different. cbn. repeat constructor; cbn; intuition discriminate. }
  split; [exact U|]. split; [split; discriminate|]. split; [repeat constructor; discriminate|]. split; [exact D|]. split; [exact D'|].
  intros as1 as2 S1 S2. eexists; eexists. rewrite (get_vals as1) by (auto; exact U). rewrite (get_vals as2) by (auto; exact U').
  split; [reflexivity|]. split; [reflexivity|]. cbn [round_to pct].
  rewrite (weighted_perm as1 argsort0 _ _ [0; 10; 11; 100] [1; 1; 3; 1] _ S1 argsort0_sorts U) by (auto; reflexivity).
  rewrite (weighted_perm as2 argsort0 _ _ [0; 12; 11; 100] [1; 1; 3; 1] _ S2 argsort0_sorts U') by (auto; reflexivity).
  vm_compute. reflexivity.
Qed.
