(** Lemmas about [get_percentiles] and the credible intervals. *)
From Coq Require Import Lqa Setoid Permutation Sorted.
From Verif Require Import Base M_Values M_Ops M_Percentiles SpecPercentiles SpecRound
  P_Support P_Ctor P_Round P_Percentiles P_Percentiles2.
Open Scope Q_scope.

Lemma round_to_compat d x y : x == y -> round_to d x == round_to d y.
Proof. intros E. destruct d; simpl; auto. now apply np_round_compat. Qed.
Lemma round_to_mono d x y : x <= y -> round_to d x <= round_to d y.
Proof. intros E. destruct d; simpl; auto. now apply np_round_mono. Qed.

(* ------------------------------------------------- dicts *)
Lemma qeqb_trans a b c : a == b -> Qeq_bool a c = Qeq_bool b c.
Proof. intros E. apply eq_true_iff_eq. rewrite !Qeq_bool_iff. now rewrite E. Qed.
Lemma dget_dset {V} (d : list (Q * V)) k v k' : dget (dset d k v) k' = if Qeq_bool k k' then Some v else dget d k'.
Proof.
  induction d as [|[k0 v0] d IH]; simpl; auto.
  destruct (Qeq_bool k0 k) eqn:E; simpl.
  - apply Qeq_bool_iff in E. rewrite (qeqb_trans k0 k k' E). destruct (Qeq_bool k k'); auto.
  - rewrite IH. destruct (Qeq_bool k0 k') eqn:E1, (Qeq_bool k k') eqn:E2; auto.
    apply Qeq_bool_iff in E1. apply Qeq_bool_iff in E2. apply Qeq_bool_neq in E. exfalso. apply E. now rewrite E1, E2.
Qed.
Lemma dget_fold {V} (l : list (Q * V)) k : forall d,
  dget (fold_left (fun d kv => dset d (fst kv) (snd kv)) l d) k =
  match find (fun kv => Qeq_bool (fst kv) k) (rev l) with Some kv => Some (snd kv) | None => dget d k end.
Proof.
  induction l as [|[k0 v0] l IH]; intros d; simpl; auto. rewrite IH, dget_dset. cbn [fst snd].
  assert (F : forall (f : Q * V -> bool) a x, find f (a ++ [x]) = match find f a with Some y => Some y | None => if f x then Some x else None end).
  { clear. intros f a x. induction a; simpl; [now destruct (f x)|]. destruct (f a); auto. }
  rewrite F. destruct (find _ (rev l)); auto. cbn [fst snd]. destruct (Qeq_bool k0 k); auto.
Qed.
Lemma dget_dict_of {V} (l : list (Q * V)) k :
  dget (dict_of l) k = match find (fun kv => Qeq_bool (fst kv) k) (rev l) with Some kv => Some (snd kv) | None => None end.
Proof. unfold dict_of. now rewrite dget_fold. Qed.
(** The value found comes from an entry with an equal key. *)
Lemma dict_some {V} (l : list (Q * V)) k v : dget (dict_of l) k = Some v -> exists k', In (k', v) l /\ k' == k.
Proof.
  rewrite dget_dict_of. destruct (find _ (rev l)) as [[k' v']|] eqn:E; intros H; [|discriminate]. inversion H; subst.
  apply find_some in E as [I E]. apply in_rev in I. apply Qeq_bool_iff in E. simpl in *. eauto.
Qed.
Lemma dict_has {V} (l : list (Q * V)) k v : In (k, v) l -> exists v', dget (dict_of l) k = Some v'.
Proof.
  intros I. rewrite dget_dict_of. destruct (find _ (rev l)) as [kv|] eqn:E; eauto.
  apply in_rev in I. eapply find_none in E; eauto. simpl in E. rewrite Qeq_bool_refl in E. discriminate.
Qed.
(** With different keys every entry is found. *)
Lemma dict_different {V} (l : list (Q * V)) k v : different (map fst l) -> In (k, v) l -> dget (dict_of l) k = Some v.
Proof.
  intros D I. destruct (dict_has l k v I) as (v' & E). rewrite E. apply dict_some in E as (k' & I' & Ek).
  assert (X : forall a b, In a l -> In b l -> Qred (fst a) = Qred (fst b) -> a = b).
  { clear - D. unfold different in D. rewrite map_map in D. induction l as [|x l IH]; intros a b Ia Ib Er; [contradiction|].
    simpl in D. inversion D as [|? ? NI ND]; subst. destruct Ia as [->|Ia], Ib as [->|Ib]; auto.
    - exfalso. apply NI. apply in_map_iff. exists b. split; auto.
    - exfalso. apply NI. apply in_map_iff. exists a. split; auto. }
  specialize (X (k, v) (k', v') I I'). simpl in X. rewrite (Qred_complete k' k Ek) in X. specialize (X eq_refl). now inversion X.
Qed.

Section P.
  Variable argsort : list Q -> list nat.
  Hypothesis sorts : sorts_numbers argsort.

  (** The unrounded percentile computed. *)
  Definition pct (data : list Q) (weights : option (list Q)) (p : Q) : Q :=
    match weights with
    | None => np_percentile data p
    | Some w => np_interp (weighted_points argsort data w) (p / 100)
    end.
  Lemma pct_spec data weights ps p : good_call data weights ps -> In p ps -> percentile_is data weights p (pct data weights p).
  Proof.
    destruct weights as [w|]; simpl; intros G I.
    - now apply weighted_spec.
    - destruct G as [N P]. now apply np_percentile_spec; auto.
  Qed.
  Lemma pct_mono data weights ps p q : good_call data weights ps -> In p ps -> In q ps -> p <= q ->
    pct data weights p <= pct data weights q.
  Proof.
    destruct weights as [w|]; simpl; intros G I J L.
    - apply np_interp_mono; [now apply points_rising|]. unfold Qdiv. apply Qmult_le_compat_r; auto. discriminate.
    - destruct G as [N P]. eapply percentile_mono; [exact L| |]; apply np_percentile_spec; auto.
  Qed.
  Lemma pct_compat data weights ps p q : good_call data weights ps -> In p ps -> In q ps -> p == q ->
    pct data weights p == pct data weights q.
  Proof. intros G I J E. apply Qle_antisym; eapply pct_mono; eauto; rewrite E; apply Qle_refl. Qed.
  Lemma pct_between data weights ps p lo hi : good_call data weights ps -> In p ps -> all_between lo hi data ->
    lo <= pct data weights p /\ pct data weights p <= hi.
  Proof.
    destruct weights as [w|]; simpl; intros G I B.
    - now apply weighted_between.
    - destruct G as [N P]. eapply percentile_between; [exact B|]. apply np_percentile_spec; auto.
  Qed.
  Lemma get_vals data pa weights reverse digits : good_call data weights (plist pa) ->
    get_percentiles argsort data pa weights reverse digits =
    let labels := if reverse then rev (plist pa) else plist pa in
    let vals := map (fun p => round_to digits (pct data weights p)) (plist pa) in
    match labels, vals with
    | [_], v :: _ => Ok (One v)
    | [_], [] => Err IndexError
    | _, _ => Ok (Dict (dict_of (combine labels vals)))
    end.
  Proof.
    intros G. unfold get_percentiles.
    assert (match weights with Some w => weighted_percentile argsort data w (plist pa) | None => np_percentiles data (plist pa) end
            = Ok (map (pct data weights) (plist pa))) as ->.
    { destruct weights as [w|]; simpl in G.
      - now apply weighted_ok.
      - destruct G as [N P]. unfold np_percentiles. rewrite (proj2 (forallb_percent _) P). destruct data; [congruence|reflexivity]. }
    cbn [bind]. rewrite map_map. reflexivity.
  Qed.

  Lemma get_single data pa p weights reverse digits : plist pa = [p] -> good_call data weights [p] ->
    exists v, get_percentiles argsort data pa weights reverse digits = Ok (One (round_to digits v)) /\ percentile_is data weights p v.
  Proof.
    intros E G. exists (pct data weights p). split.
    - rewrite get_vals; rewrite E; auto. destruct reverse; reflexivity.
    - eapply pct_spec; eauto. now left.
  Qed.

  Lemma label_case {A} (labels vals : list Q) (x : Q -> A) (y z : A) : length labels <> 1%nat ->
    match labels, vals with [_], v :: _ => x v | [_], [] => y | _, _ => z end = z.
  Proof. destruct labels as [|a [|b l]]; simpl; intros H; auto. lia. Qed.

  Lemma get_list data ps weights digits : length ps <> 1%nat -> good_call data weights ps ->
    exists d, get_percentiles argsort data (PList ps) weights false digits = Ok (Dict d) /\
    (forall p, In p ps -> exists v, dget d p = Some v /\ v == round_to digits (pct data weights p)) /\
    (forall k v, dget d k = Some v -> exists p, In p ps /\ p == k).
  Proof.
    intros L G. exists (dict_of (combine ps (map (fun p => round_to digits (pct data weights p)) ps))). split; [|split].
    - rewrite get_vals by auto. cbv zeta. cbn [plist]. now apply label_case.
    - intros p I. assert (C : forall q v, In (q, v) (combine ps (map (fun p => round_to digits (pct data weights p)) ps)) ->
                         In q ps /\ v = round_to digits (pct data weights q)).
      { clear. intros q v. induction ps as [|x ps IH]; simpl; [contradiction|]. intros [E|H]; [inversion E; subst; auto|].
        destruct (IH H). auto. }
      assert (I' : In (p, round_to digits (pct data weights p)) (combine ps (map (fun p => round_to digits (pct data weights p)) ps))).
      { clear - I. induction ps as [|x ps IH]; simpl in *; [contradiction|]. destruct I as [->|I]; [now left|right; auto]. }
      destruct (dict_has _ _ _ I') as (v & E). exists v. split; auto. apply dict_some in E as (k & J & Ek).
      apply C in J as [Jq ->]. apply round_to_compat. eapply pct_compat; eauto.
    - intros k v H. apply dict_some in H as (k' & I & E). exists k'. split; auto. now apply in_combine_l in I.
  Qed.

  Lemma get_reversed data ps weights digits i : length ps <> 1%nat -> good_call data weights ps -> different ps ->
    (i < length ps)%nat ->
    exists d v, get_percentiles argsort data (PList ps) weights true digits = Ok (Dict d) /\
      dget d (nth (length ps - 1 - i) ps 0) = Some (round_to digits v) /\ percentile_is data weights (nth i ps 0) v.
  Proof.
    intros L G D I. set (vals := map (fun p => round_to digits (pct data weights p)) ps).
    exists (dict_of (combine (rev ps) vals)), (pct data weights (nth i ps 0)). split; [|split].
    - rewrite get_vals by auto. cbv zeta. cbn [plist]. apply label_case. now rewrite rev_length.
    - apply dict_different.
      + assert (map fst (combine (rev ps) vals) = rev ps) as ->.
        { assert (length (rev ps) = length vals) as Lr by (unfold vals; rewrite rev_length, map_length; auto).
          revert Lr. generalize (rev ps) vals. clear. induction l as [|x l IH]; intros [|v vs] Lr; simpl in *; try discriminate; auto.
          f_equal. auto. }
        unfold different. rewrite map_rev. apply NoDup_rev. exact D.
      + assert (E : nth i (combine (rev ps) vals) (0, 0) = (nth (length ps - 1 - i) ps 0, round_to digits (pct data weights (nth i ps 0)))).
        { rewrite combine_nth by (unfold vals; rewrite rev_length, map_length; auto). f_equal.
          - rewrite rev_nth by auto. f_equal. lia.
          - unfold vals. rewrite (nth_map_in _ _ _ _ 0) by auto. reflexivity. }
        rewrite <- E. apply nth_In. rewrite combine_length. unfold vals. rewrite rev_length, map_length. lia.
    - eapply pct_spec; eauto. now apply nth_In.
  Qed.

  (* ------------------------------------------------- credible intervals *)
  Definition lowp (c : Q) : Q := (100 - c) / 2.
  Definition highp (c : Q) : Q := 100 - (100 - c) / 2.
  Lemma lowp_percent c : percent c -> percent (lowp c) /\ percent (highp c) /\ lowp c <= 50 /\ 50 <= highp c.
  Proof.
    intros [A B]. unfold lowp, highp, Qdiv. assert (E : (100 - c) * / 2 == 50 - c * (1#2)) by (change (/ 2) with (1#2); ring).
    unfold percent. rewrite E. repeat split; lra.
  Qed.
  Lemma good_ci_call data weights ps : good_ci data weights -> (forall p, In p ps -> percent p) -> good_call data weights ps.
  Proof. destruct weights; simpl; auto. Qed.

  Lemma lookup_dict d k v : dget d k = Some v -> lookup (Dict d) k = Ok v.
  Proof. intros H. simpl. now rewrite H. Qed.

  Lemma median_ci_run data c weights digits : good_ci data weights -> percent c ->
    exists r, get_median_and_ci argsort data c weights digits = Ok r /\
      md_low r == round_to digits (pct data weights (lowp c)) /\
      md_median r == round_to digits (pct data weights 50) /\
      md_high r == round_to digits (pct data weights (highp c)).
  Proof.
    intros G C. destruct (lowp_percent c C) as (A & B & _).
    destruct (get_list data [lowp c; 50; highp c] weights digits) as (d & E & H & _); [discriminate| |].
    { apply good_ci_call; auto. intros p [<-|[<-|[<-|[]]]]; auto. split; discriminate. }
    destruct (H (lowp c)) as (l & L1 & L2); [simpl; auto|]. destruct (H 50) as (m & M1 & M2); [simpl; auto|].
    destruct (H (highp c)) as (h & H1 & H2); [simpl; auto|].
    exists (MedianCI m l h). split; [|auto]. unfold get_median_and_ci. fold (lowp c). fold (highp c).
    change (100 - lowp c) with (highp c). rewrite E. cbn [bind].
    rewrite (lookup_dict _ _ _ M1), (lookup_dict _ _ _ L1), (lookup_dict _ _ _ H1). reflexivity.
  Qed.
  Lemma mean_ci_run data c weights digits : good_ci data weights -> percent c ->
    exists r, get_mean_and_ci argsort data c weights digits = Ok r /\
      mc_low r == round_to digits (pct data weights (lowp c)) /\
      mc_mean r = round_to digits (qsum data / qlen data) /\
      mc_high r == round_to digits (pct data weights (highp c)).
  Proof.
    intros G C. destruct (lowp_percent c C) as (A & B & _).
    destruct (get_list data [lowp c; highp c] weights digits) as (d & E & H & _); [discriminate| |].
    { apply good_ci_call; auto. intros p [<-|[<-|[]]]; auto. }
    destruct (H (lowp c)) as (l & L1 & L2); [simpl; auto|].
    destruct (H (highp c)) as (h & H1 & H2); [simpl; auto|].
    exists (MeanCI (round_to digits (qsum data / qlen data)) l h). split; [|auto]. unfold get_mean_and_ci. fold (lowp c). fold (highp c).
    change (100 - lowp c) with (highp c). rewrite E. cbn [bind].
    rewrite (lookup_dict _ _ _ L1), (lookup_dict _ _ _ H1). reflexivity.
  Qed.

  Lemma pct_mono_ci data weights p q : good_ci data weights -> percent p -> percent q -> p <= q -> pct data weights p <= pct data weights q.
  Proof.
    intros G P Q L. apply (pct_mono data weights [p; q]); simpl; auto. apply good_ci_call; auto.
    intros x [<-|[<-|[]]]; auto.
  Qed.
  Lemma pct_spec_ci data weights p : good_ci data weights -> percent p -> percentile_is data weights p (pct data weights p).
  Proof. intros G P. apply (pct_spec data weights [p]); [|now left]. apply good_ci_call; auto. intros x [<-|[]]; auto. Qed.

  Lemma median_ci data c weights digits : good_ci data weights -> percent c ->
    exists r l m h, get_median_and_ci argsort data c weights digits = Ok r /\
      percentile_is data weights ((100 - c) / 2) l /\ percentile_is data weights 50 m /\
      percentile_is data weights (100 - (100 - c) / 2) h /\
      md_low r == round_to digits l /\ md_median r == round_to digits m /\ md_high r == round_to digits h /\
      md_low r <= md_median r /\ md_median r <= md_high r.
  Proof.
    intros G C. destruct (median_ci_run data c weights digits G C) as (r & E & L & M & H).
    destruct (lowp_percent c C) as (A & B & K1 & K2). assert (P50 : percent 50) by (split; discriminate).
    exists r, (pct data weights (lowp c)), (pct data weights 50), (pct data weights (highp c)).
    split; auto. split; [now apply pct_spec_ci|]. split; [now apply pct_spec_ci|]. split; [now apply pct_spec_ci|].
    split; auto. split; auto. split; auto. rewrite L, M, H. split; apply round_to_mono; now apply pct_mono_ci.
  Qed.
  Lemma qmean_between l lo hi : l <> [] -> all_between lo hi l -> lo <= qsum l / qlen l /\ qsum l / qlen l <= hi.
  Proof.
    intros N B. assert (P : 0 < qlen l) by (unfold qlen, Qlt; destruct l; simpl; [congruence|lia]).
    assert (S : lo * qlen l <= sum l /\ sum l <= hi * qlen l).
    { clear N P. unfold qlen. induction l as [|x l IH]; [simpl; split; change (inject_Z 0) with 0; ring_simplify; apply Qle_refl|].
      destruct (B x ltac:(now left)). destruct IH as [I1 I2]; [intros y I; apply B; now right|]. cbn [length]. rewrite inject_S. cbn [sum]. split; lra. }
    destruct S. rewrite sum_total. split; [apply Qle_shift_div_l; auto|apply Qle_shift_div_r; auto].
  Qed.
  Lemma mean_ci_spec data c weights digits lo hi : good_ci data weights -> percent c -> all_between lo hi data ->
    exists r l h, get_mean_and_ci argsort data c weights digits = Ok r /\
      percentile_is data weights ((100 - c) / 2) l /\ percentile_is data weights (100 - (100 - c) / 2) h /\
      mc_low r == round_to digits l /\ mc_high r == round_to digits h /\ mc_low r <= mc_high r /\
      mc_mean r = round_to digits (qsum data / qlen data) /\
      round_to digits lo <= mc_mean r /\ mc_mean r <= round_to digits hi.
  Proof.
    intros G C AB. destruct (mean_ci_run data c weights digits G C) as (r & E & L & M & H).
    destruct (lowp_percent c C) as (A & B & K1 & K2).
    exists r, (pct data weights (lowp c)), (pct data weights (highp c)).
    split; auto. split; [now apply pct_spec_ci|]. split; [now apply pct_spec_ci|]. split; auto. split; auto.
    split. { rewrite L, H. apply round_to_mono, pct_mono_ci; auto. now apply Qle_trans with 50. }
    split; auto. rewrite M. destruct (qmean_between data lo hi) as [X Y]; auto.
    { destruct weights as [w|]; simpl in G; auto. destruct G as (Ew & _ & T). destruct data; [|discriminate]. destruct w; [simpl in T; lra|discriminate]. }
    split; now apply round_to_mono.
  Qed.
  Lemma ci_nested data c c' weights digits r r' : good_ci data weights -> percent c -> percent c' -> c <= c' ->
    get_median_and_ci argsort data c weights digits = Ok r -> get_median_and_ci argsort data c' weights digits = Ok r' ->
    md_low r' <= md_low r /\ md_high r <= md_high r' /\ md_median r == md_median r'.
  Proof.
    intros G C C' L E E'.
    destruct (median_ci_run data c weights digits G C) as (x & Ex & A & B & D).
    destruct (median_ci_run data c' weights digits G C') as (y & Ey & A' & B' & D').
    rewrite E in Ex. rewrite E' in Ey. inversion Ex; inversion Ey; subst x y. rewrite A, B, D, A', B', D'.
    destruct (lowp_percent c C) as (P1 & P2 & _), (lowp_percent c' C') as (Q1 & Q2 & _).
    assert (T : forall x, (100 - x) / 2 == 50 - x * (1#2)) by (intros; unfold Qdiv; change (/ 2) with (1#2); ring).
    split; [|split; [|reflexivity]]; apply round_to_mono, pct_mono_ci; auto; unfold lowp, highp; rewrite !T; lra.
  Qed.
End P.

(* ------------------------------------------------- extremes *)
Lemma filter_none {A} (f : A -> bool) l : length (filter f l) = 0%nat -> forall x, In x l -> f x = false.
Proof.
  intros H x I. destruct (f x) eqn:E; auto. exfalso. assert (J : In x (filter f l)) by (apply filter_In; auto).
  destruct (filter f l); [contradiction|discriminate].
Qed.
Lemma filter_len {A} (f : A -> bool) l : (length (filter f l) <= length l)%nat.
Proof. induction l as [|y l IH]; simpl; [lia|]. destruct (f y); simpl; lia. Qed.
Lemma filter_whole {A} (f : A -> bool) l : (length l <= length (filter f l))%nat -> forall x, In x l -> f x = true.
Proof.
  induction l as [|y l IH]; simpl; intros H x I; [contradiction|]. pose proof (filter_len f l).
  destruct (f y) eqn:E; simpl in H; [|lia]. destruct I as [->|I]; auto. apply IH; auto. lia.
Qed.
Lemma percentile_zero data r m : percentile_of data 0 r -> smallest data m -> r == m.
Proof.
  intros (i & a & b & V1 & V2 & [A C] & B & E) [M S]. cbv zeta in *.
  assert (Ev : inject_Z (Z.of_nat (length data - 1)) * (0 / 100) == 0) by (unfold Qdiv; ring).
  rewrite Ev in *. assert (i = 0%nat). { assert (i < 1)%nat; [|lia]. apply inject_nat_lt. change (inject_Z (Z.of_nat 1)) with 1. lra. }
  subst i. change (inject_Z (Z.of_nat 0)) with 0 in *. rewrite E.
  assert (F : forall x, In x data -> a <= x).
  { intros x I. assert (H : Qlt_bool x a = false) by (apply (filter_none (fun y => Qlt_bool y a) data); auto; unfold count_below in C; lia).
    unfold Qlt_bool in H. apply negb_false_iff, Qle_bool_iff in H. exact H. }
  specialize (F m M). specialize (S a A). assert (a == m) by (apply Qle_antisym; auto). lra.
Qed.
Lemma percentile_hundred data r m : percentile_of data 100 r -> largest data m -> r == m.
Proof.
  intros (i & a & b & V1 & V2 & [A C] & B & E) [M S]. cbv zeta in *.
  assert (Ev : inject_Z (Z.of_nat (length data - 1)) * (100 / 100) == inject_Z (Z.of_nat (length data - 1))).
  { change (100/100) with (100 * (1#100)). ring. }
  rewrite Ev in *. assert (i = (length data - 1)%nat).
  { assert (i <= length data - 1)%nat by (now apply inject_nat_le). assert (length data - 1 < Datatypes.S i)%nat; [|lia].
    apply inject_nat_lt. rewrite inject_S. lra. }
  assert (F : forall x, In x data -> x <= a).
  { intros x I. assert (HH : Qle_bool x a = true); [|now apply Qle_bool_iff].
    apply (filter_whole (fun y => Qle_bool y a) data); auto. unfold count_upto in C. lia. }
  specialize (F m M). specialize (S a A). assert (a == m) by (apply Qle_antisym; auto). rewrite E. subst i.
  rewrite H0. ring.
Qed.

Lemma sum_nonneg l : (forall w, In w l -> 0 <= w) -> 0 <= sum l.
Proof. induction l as [|x l IH]; simpl; intros H; [apply Qle_refl|]. specialize (IH (fun w I => H w (or_intror I))). specialize (H x (or_introl eq_refl)). lra. Qed.
Lemma positive_usable data weights : positive_weights data weights -> usable_weights data weights.
Proof.
  intros (E & N & W). split; auto. split; [intros; now apply Qlt_le_weak; auto|].
  destruct weights as [|w ws]; [congruence|]. simpl. pose proof (W w (or_introl eq_refl)).
  assert (0 <= sum ws) by (apply sum_nonneg; intros; apply Qlt_le_weak, W; now right). lra.
Qed.
Lemma sum_app a b : sum (a ++ b) == sum a + sum b.
Proof. induction a as [|x a IH]; simpl; [ring|]. rewrite IH. ring. Qed.
Lemma point_inside l i : (i < length l)%nat -> (forall w, In w (map snd l) -> 0 < w) -> 0 < point l i /\ point l i < 1.
Proof.
  intros I W. unfold point, weight.
  assert (Sp : sum (map snd l) == sum (map snd (firstn i l)) + snd (nth i l (0, 0)) + sum (map snd (skipn (S i) l))).
  { rewrite <- (firstn_skipn i l) at 1. rewrite map_app, sum_app.
    assert (skipn i l = nth i l (0, 0) :: skipn (S i) l) as ->.
    { clear W. revert l I. induction i as [|i IH]; intros [|x l] I; simpl in *; try lia; auto. apply IH. lia. }
    simpl. ring. }
  assert (W0 : 0 < snd (nth i l (0, 0))) by (apply W, in_map, nth_In; auto).
  assert (A : 0 <= sum (map snd (firstn i l))).
  { apply sum_nonneg. intros w J. apply Qlt_le_weak, W. apply in_map_iff in J as (x & <- & J). apply in_map.
    rewrite <- (firstn_skipn i l). apply in_or_app. now left. }
  assert (B : 0 <= sum (map snd (skipn (S i) l))).
  { apply sum_nonneg. intros w J. apply Qlt_le_weak, W. apply in_map_iff in J as (x & <- & J). apply in_map.
    rewrite <- (firstn_skipn (S i) l). apply in_or_app. now right. }
  set (t := sum (map snd l)) in *. set (a := sum (map snd (firstn i l))) in *. set (b := sum (map snd (skipn (S i) l))) in *.
  set (w := snd (nth i l (0, 0))) in *. assert (E2 : w / 2 == w * (1#2)) by reflexivity.
  assert (T : 0 < t) by lra. split.
  - apply Qlt_shift_div_l; auto. rewrite E2. lra.
  - apply Qlt_shift_div_r; auto. rewrite E2. lra.
Qed.
Lemma pairs_in (data weights : list Q) : length weights = length data -> forall x, In x data <-> In x (map fst (combine data weights)).
Proof.
  intros E x. assert (map fst (combine data weights) = data) as ->; [|tauto].
  revert weights E. induction data as [|d data IH]; intros [|w ws] E; simpl in *; try discriminate; auto. f_equal. auto.
Qed.
Lemma weighted_zero data weights r m : positive_weights data weights -> weighted_percentile_of data weights 0 r ->
  smallest data m -> r == m.
Proof.
  intros (E & N & W) (l & P & Sd & I) [M Sm].
  assert (Wl : forall w, In w (map snd l) -> 0 < w).
  { intros w J. apply in_map_iff in J as ([d v] & <- & J). eapply Permutation_in in J; [|exact P]. apply in_combine_r in J. now apply W. }
  assert (Z0 : 0 / 100 == 0) by reflexivity.
  assert (L : (0 < length l)%nat).
  { rewrite (Permutation_length P), combine_length, E, Nat.min_id. destruct data; simpl; [|lia]. destruct weights; [congruence|discriminate]. }
  assert (Er : r == datum l 0).
  { destruct I as [[_ I]|[[I _]|(i & I1 & I2 & _)]]; auto; exfalso.
    - destruct (point_inside l (length l - 1) ltac:(lia) Wl). lra.
    - destruct (point_inside l i ltac:(lia) Wl). lra. }
  rewrite Er. apply Qle_antisym.
  - apply (pairs_in data weights E) in M. apply in_map_iff in M as (dw & Em & M).
    eapply Permutation_in in M; [|symmetry; exact P]. apply In_nth with (d := (0, 0)) in M as (j & Lj & Ej).
    rewrite <- Em, <- Ej. apply (Sd 0%nat j). lia.
  - apply Sm. apply (pairs_in data weights E). unfold datum. apply in_map. eapply Permutation_in; [exact P|]. now apply nth_In.
Qed.
Lemma weighted_hundred data weights r m : positive_weights data weights -> weighted_percentile_of data weights 100 r ->
  largest data m -> r == m.
Proof.
  intros (E & N & W) (l & P & Sd & I) [M Sm].
  assert (Wl : forall w, In w (map snd l) -> 0 < w).
  { intros w J. apply in_map_iff in J as ([d v] & <- & J). eapply Permutation_in in J; [|exact P]. apply in_combine_r in J. now apply W. }
  assert (Z0 : 100 / 100 == 1) by reflexivity.
  assert (L : (0 < length l)%nat).
  { rewrite (Permutation_length P), combine_length, E, Nat.min_id. destruct data; simpl; [|lia]. destruct weights; [congruence|discriminate]. }
  assert (Er : r == datum l (length l - 1)).
  { destruct I as [[I _]|[[_ I]|(i & I1 & _ & I2 & _)]]; auto; exfalso.
    - destruct (point_inside l 0 ltac:(lia) Wl). lra.
    - destruct (point_inside l (S i) ltac:(lia) Wl). lra. }
  rewrite Er. apply Qle_antisym.
  - apply Sm. apply (pairs_in data weights E). unfold datum. apply in_map. eapply Permutation_in; [exact P|]. apply nth_In. lia.
  - apply (pairs_in data weights E) in M. apply in_map_iff in M as (dw & Em & M).
    eapply Permutation_in in M; [|symmetry; exact P]. apply In_nth with (d := (0, 0)) in M as (j & Lj & Ej).
    rewrite <- Em, <- Ej. apply (Sd j (length l - 1)%nat). lia.
Qed.
