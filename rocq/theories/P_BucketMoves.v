(** Lemmas for [Props_BucketMoves]. *)
From Coq Require Import Lqa Setoid Permutation.
From Verif Require Import Base M_Percentiles M_Buckets SpecBuckets SpecBucketMoves P_Support P_Ctor P_Buckets P_Buckets2.
Open Scope Q_scope.

(* ------------------------------------------------------------ names *)
Lemma edge_eqb_refl a : edge_eqb a a = true.
Proof. destruct a; simpl; auto. apply Qeq_bool_iff. reflexivity. Qed.
Lemma edge_eqb_sym a b : edge_eqb a b = edge_eqb b a.
Proof.
  destruct a, b; simpl; auto. apply Bool.eq_iff_eq_true. rewrite !Qeq_bool_iff. split; intros; now symmetry.
Qed.
Lemma edge_eqb_left a b x : edge_eqb a b = true -> edge_eqb a x = edge_eqb b x.
Proof.
  destruct a, b, x; simpl; auto; try discriminate. intros E. apply Qeq_bool_iff in E. apply Bool.eq_iff_eq_true.
  rewrite !Qeq_bool_iff. now rewrite E.
Qed.
Lemma label_eqb_left a b x : label_eqb a b = true -> label_eqb a x = label_eqb b x.
Proof.
  destruct a, b, x; simpl; auto; try discriminate.
  - intros E. apply andb_prop in E as [E E3]. apply andb_prop in E as [E1 E2]. apply Bool.eqb_prop in E1. subst.
    now rewrite (edge_eqb_left _ _ _ E2), (edge_eqb_left _ _ _ E3).
  - intros E. apply String.eqb_eq in E. now subst.
Qed.
Lemma label_eqb_sym a b : label_eqb a b = label_eqb b a.
Proof.
  destruct a, b; simpl; auto.
  - rewrite (edge_eqb_sym lo), (edge_eqb_sym hi). do 2 f_equal. now destruct left_open, left_open0.
  - apply String.eqb_sym.
Qed.

(** Names matched by [f] where [f] keeps names apart. *)
Section Names.
  Variable f : label -> label.
  Hypothesis inj : forall a b, label_eqb (f a) (f b) = label_eqb a b.
  Let matched (l l' : label) : Prop := label_eqb (f l) l' = true.
  Lemma matched_eqb a a' b b' : matched a a' -> matched b b' -> label_eqb a b = label_eqb a' b'.
  Proof.
    unfold matched. intros A B. rewrite <- inj, (label_eqb_left _ _ _ A), label_eqb_sym, (label_eqb_left _ _ _ B).
    apply label_eqb_sym.
  Qed.
  Lemma bset_matched d d' k k' v v' : same_report f d d' -> matched k k' -> v == v' -> same_report f (bset d k v) (bset d' k' v').
  Proof.
    intros F K V. induction F as [|[a x] [b y] d d' [E1 E2] F IH]; simpl in *.
    - repeat constructor; auto.
    - rewrite (matched_eqb a b k k' E1 K). destruct (label_eqb b k'); constructor; auto.
  Qed.
  Lemma bdict_matched ls ls' vs vs' : Forall2 matched ls ls' -> Forall2 Qeq vs vs' ->
    same_report f (bdict (combine ls vs)) (bdict (combine ls' vs')).
  Proof.
    intros L V. unfold bdict. assert (S0 : same_report f [] []) by constructor. revert S0. generalize (@nil (label * Q)) at 1 3.
    generalize (@nil (label * Q)). revert vs vs' V.
    induction L as [|l l' ls ls' E L IH]; intros vs vs' V d' d S0; simpl; auto. destruct V as [|v v' vs vs' EV V]; simpl; auto.
    apply IH; auto. now apply bset_matched.
  Qed.
End Names.

(** The part of the call after counting. *)
Definition tail_of (data : list Q) (nm pc : bool) (labels : option (list string)) (ce : list Z * list edge) : res (list (label * Q)) :=
  let (counts, edges) := ce in
  let bin_count := (Z.of_nat (length edges) - 1)%Z in
  do values <- (if nm then match data, counts with
                    | [], _ :: _ => Err Unmodelled
                    | _, _ => Ok (map (share_of data pc) counts)
                    end
               else Ok (map inject_Z counts));
  let labels := match labels with None => auto_labels edges | Some l => map Given l end in
  if negb (Z.of_nat (length labels) =? bin_count)%Z
  then Err (ValueError "Number of labels must match number of bins")
  else Ok (bdict (combine labels values)).
Definition head_of (data : list Q) (bins : bins_arg) (cb : option (list (edge * edge))) : res (list Z * list edge) :=
  match cb with
  | Some cb => match rev cb with
               | [] => Err IndexError
               | b :: _ => Ok (map (fun b => count (rangeb b) data) cb, map fst cb ++ [snd b])
               end
  | None => np_histogram data bins
  end.
Lemma bucket_parts data bins cb nm pc labels :
  bucket_percentages data bins cb nm pc labels = bind (head_of data bins cb) (tail_of data nm pc labels).
Proof. reflexivity. Qed.

Definition matched_edges (g : edge -> edge) : list edge -> list edge -> Prop := Forall2 (fun a b => edge_eqb (g a) b = true).
Lemma auto_matched k c e e' : matched_edges (move_edge k c) e e' ->
  Forall2 (fun l l' => label_eqb (move_label k c l) l' = true) (auto_labels e) (auto_labels e').
Proof.
  induction 1 as [|a a' e e' E F IH]; [constructor|]. destruct F as [|b b' e e' E' F]; [constructor|].
  change (auto_labels (a :: b :: e)) with (Auto (edge_eqb a ENeg) a b :: auto_labels (b :: e)).
  change (auto_labels (a' :: b' :: e')) with (Auto (edge_eqb a' ENeg) a' b' :: auto_labels (b' :: e')).
  constructor; [|exact IH]. simpl. rewrite E, E'. destruct a, a'; simpl in *; try discriminate; reflexivity.
Qed.
Lemma tail_matched k c data data' nm pc labels counts e e' : 0 < k -> length data = length data' -> matched_edges (move_edge k c) e e' ->
  same_outcome (move_label k c) (tail_of data nm pc labels (counts, e)) (tail_of data' nm pc labels (counts, e')).
Proof.
  intros K L E. unfold tail_of.
  assert (V : (if nm then match data, counts with [], _ :: _ => Err Unmodelled | _, _ => Ok (map (share_of data pc) counts) end
               else Ok (map inject_Z counts)) =
              (if nm then match data', counts with [], _ :: _ => Err Unmodelled | _, _ => Ok (map (share_of data' pc) counts) end
               else Ok (map inject_Z counts))).
  { assert (S : share_of data = share_of data') by (unfold share_of, qlen; now rewrite L).
    rewrite S. destruct data, data'; try discriminate; reflexivity. }
  rewrite V. clear V.
  generalize (if nm then match data', counts with [], _ :: _ => Err Unmodelled | _, _ => Ok (map (share_of data' pc) counts) end
              else Ok (map inject_Z counts)).
  intros [vs|x]; [|exact eq_refl]. cbn [bind].
  assert (EL : length e = length e') by (clear -E; induction E; simpl; auto). rewrite EL.
  assert (N : Forall2 (fun l l' => label_eqb (move_label k c l) l' = true)
                (match labels with None => auto_labels e | Some l => map Given l end)
                (match labels with None => auto_labels e' | Some l => map Given l end)).
  { destruct labels as [l|]; [|now apply auto_matched]. clear. induction l; simpl; constructor; auto. simpl. apply String.eqb_refl. }
  assert (NL : length (match labels with None => auto_labels e | Some l => map Given l end) =
               length (match labels with None => auto_labels e' | Some l => map Given l end))
    by (clear -N; induction N; simpl; auto).
  rewrite NL. destruct (negb _); [exact eq_refl|]. simpl. apply bdict_matched; auto.
  - intros [o lo hi|s] [o' lo' hi'|s']; simpl; auto.
    assert (M : forall a b, edge_eqb (move_edge k c a) (move_edge k c b) = edge_eqb a b).
    { intros [|p|] [|q|]; simpl; auto. apply Bool.eq_iff_eq_true. rewrite !Qeq_bool_iff. unfold unit_change. split; intros H.
      - assert (X : k * p == k * q) by lra. apply (Qmult_inj_l p q k); auto. intros KZ. rewrite KZ in K. now apply Qlt_irrefl in K.
      - now rewrite H. }
    now rewrite !M.
  - clear. induction vs; constructor; auto. reflexivity.
Qed.

(* ------------------------------------------------------------ counts *)
Lemma count_perm g data data' : Permutation data data' -> count g data = count g data'.
Proof.
  intros P. unfold count. f_equal. induction P; simpl; auto; try congruence.
  - destruct (g x); simpl; auto.
  - destruct (g x), (g y); simpl; auto.
Qed.
Lemma count_ext g h data : (forall x, g x = h x) -> count g data = count h data.
Proof. intros E. unfold count. f_equal. f_equal. induction data as [|x l IH]; simpl; auto. now rewrite E, IH. Qed.
Lemma count_map m g h data : (forall x, g (m x) = h x) -> count g (map m data) = count h data.
Proof. intros E. unfold count. f_equal. induction data as [|x l IH]; simpl; auto. rewrite E. destruct (h x); simpl; auto. Qed.
Lemma count_app g a b : count g (a ++ b) = (count g a + count g b)%Z.
Proof. unfold count. induction a as [|x a IH]; simpl; auto. destruct (g x); cbn [length]; rewrite ?Nat2Z.inj_succ; lia. Qed.
Lemma lt_edge_compat x a b : edge_eqb a b = true -> lt_edge x a = lt_edge x b.
Proof.
  destruct a, b; simpl; auto; try discriminate. intros E. apply Qeq_bool_iff in E. unfold Qlt_bool. f_equal.
  apply Bool.eq_iff_eq_true. rewrite !Qle_bool_iff. now rewrite E.
Qed.
Lemma le_edge_compat x a b : edge_eqb a b = true -> le_edge x a = le_edge x b.
Proof.
  destruct a, b; simpl; auto; try discriminate. intros E. apply Qeq_bool_iff in E.
  apply Bool.eq_iff_eq_true. rewrite !Qle_bool_iff. now rewrite E.
Qed.
Lemma unit_le k c x y : 0 < k -> Qle_bool (unit_change k c x) (unit_change k c y) = Qle_bool x y.
Proof.
  intros K. apply Bool.eq_iff_eq_true. rewrite !Qle_bool_iff. unfold unit_change. split; intros H.
  - apply (Qmult_lt_0_le_reg_r x y k); auto. rewrite (Qmult_comm x), (Qmult_comm y). lra.
  - pose proof (Qmult_le_0_compat k (y - x)). lra.
Qed.
Lemma lt_edge_move k c x e : 0 < k -> lt_edge (unit_change k c x) (move_edge k c e) = lt_edge x e.
Proof. intros K. destruct e; simpl; auto. unfold Qlt_bool. f_equal. now apply unit_le. Qed.
Lemma le_edge_move k c x e : 0 < k -> le_edge (unit_change k c x) (move_edge k c e) = le_edge x e.
Proof. intros K. destruct e; simpl; auto. now apply unit_le. Qed.
Lemma cumulative_perm data data' e : Permutation data data' -> cumulative data e = cumulative data' e.
Proof.
  intros P. induction e as [|a e IH]; auto. destruct e as [|b e].
  - simpl. f_equal. now apply count_perm.
  - change (cumulative data (a :: b :: e)) with (count (fun x => lt_edge x a) data :: cumulative data (b :: e)).
    change (cumulative data' (a :: b :: e)) with (count (fun x => lt_edge x a) data' :: cumulative data' (b :: e)).
    rewrite IH. f_equal. now apply count_perm.
Qed.
Lemma cumulative_compat data e e' : Forall2 (fun a b => edge_eqb a b = true) e e' -> cumulative data e = cumulative data e'.
Proof.
  induction 1 as [|a a' e e' E F IH]; auto. destruct F as [|b b' e e' E' F].
  - simpl. f_equal. apply count_ext. intros. now apply le_edge_compat.
  - change (cumulative data (a :: b :: e)) with (count (fun x => lt_edge x a) data :: cumulative data (b :: e)).
    change (cumulative data (a' :: b' :: e')) with (count (fun x => lt_edge x a') data :: cumulative data (b' :: e')).
    rewrite IH. f_equal. apply count_ext. intros. now apply lt_edge_compat.
Qed.
Lemma cumulative_move k c data e : 0 < k -> cumulative (map (unit_change k c) data) (map (move_edge k c) e) = cumulative data e.
Proof.
  intros K. induction e as [|a e IH]; auto. destruct e as [|b e].
  - simpl. f_equal. apply count_map. intros. now apply le_edge_move.
  - change (cumulative data (a :: b :: e)) with (count (fun x => lt_edge x a) data :: cumulative data (b :: e)). rewrite <- IH.
    change (map (move_edge k c) (a :: b :: e)) with (move_edge k c a :: move_edge k c b :: map (move_edge k c) e).
    change (cumulative (map (unit_change k c) data) (move_edge k c a :: move_edge k c b :: map (move_edge k c) e)) with
      (count (fun x => lt_edge x (move_edge k c a)) (map (unit_change k c) data) :: cumulative (map (unit_change k c) data) (map (move_edge k c) (b :: e))).
    f_equal. apply count_map. intros. now apply lt_edge_move.
Qed.

(* ------------------------------------------------------------ equal bins *)
Lemma fold_min_in l : forall x, fold_left qmin l x = x \/ In (fold_left qmin l x) l.
Proof.
  induction l as [|a l IH]; intros x; simpl; auto. destruct (IH (qmin x a)) as [E|I]; auto. rewrite E. unfold qmin.
  destruct (Qle_bool x a); auto.
Qed.
Lemma fold_max_in l : forall x, fold_left qmax l x = x \/ In (fold_left qmax l x) l.
Proof.
  induction l as [|a l IH]; intros x; simpl; auto. destruct (IH (qmax x a)) as [E|I]; auto. rewrite E. unfold qmax.
  destruct (Qle_bool x a); auto.
Qed.
Definition low_end (data : list Q) : Q := match data with [] => 0 | x :: r => fold_left qmin r x end.
Definition high_end (data : list Q) : Q := match data with [] => 1 | x :: r => fold_left qmax r x end.
Lemma ends data : data <> [] -> (In (low_end data) data /\ forall x, In x data -> low_end data <= x) /\
  (In (high_end data) data /\ forall x, In x data -> x <= high_end data).
Proof.
  destruct data as [|a l]; [congruence|]. intros _. simpl. destruct (fold_min l a) as [A1 A2], (fold_max l a) as [B1 B2]. split; split.
  - destruct (fold_min_in l a) as [->|]; auto.
  - intros x [<-|I]; auto.
  - destruct (fold_max_in l a) as [->|]; auto.
  - intros x [<-|I]; auto.
Qed.
Lemma bounds_unique (data data' : list Q) (lo lo' hi hi' : Q) (m : Q -> Q) :
  (forall x y, x <= y -> m x <= m y) -> data' = map m data ->
  (In lo data /\ forall x, In x data -> lo <= x) -> (In lo' data' /\ forall x, In x data' -> lo' <= x) ->
  (In hi data /\ forall x, In x data -> x <= hi) -> (In hi' data' /\ forall x, In x data' -> x <= hi') ->
  m lo == lo' /\ m hi == hi'.
Proof.
  intros M -> [L1 L2] [L3 L4] [H1 H2] [H3 H4]. split; apply Qle_antisym.
  - apply in_map_iff in L3 as (x & <- & I). auto.
  - apply L4. now apply in_map.
  - apply H4. now apply in_map.
  - apply in_map_iff in H3 as (x & <- & I). auto.
Qed.
Lemma equal_edges_ends data n : equal_edges data n =
  (let (lo, hi) := if Qeq_bool (low_end data) (high_end data) then (low_end data - (1#2), high_end data + (1#2)) else (low_end data, high_end data) in
   map (fun i => EFin (lo + (hi - lo) * (inject_Z (Z.of_nat i) / inject_Z n))) (seq 0 (S (Z.to_nat n)))).
Proof. reflexivity. Qed.
Lemma matched_grid k c lo hi lo' hi' n l : unit_change k c lo == lo' -> unit_change k c hi == hi' ->
  matched_edges (move_edge k c) (map (fun i => EFin (lo + (hi - lo) * (inject_Z (Z.of_nat i) / inject_Z n))) l)
    (map (fun i => EFin (lo' + (hi' - lo') * (inject_Z (Z.of_nat i) / inject_Z n))) l).
Proof.
  intros L H. unfold matched_edges. induction l as [|i l IH]; simpl; constructor; auto. simpl. apply Qeq_bool_iff.
  rewrite <- L, <- H. unfold unit_change. ring.
Qed.
Lemma unit_mono k c x y : 0 < k -> x <= y -> unit_change k c x <= unit_change k c y.
Proof. intros K L. apply Qle_bool_iff. rewrite unit_le by auto. now apply Qle_bool_iff. Qed.
Lemma equal_edges_move k c data n : 0 < k -> (exists x y, In x data /\ In y data /\ ~ x == y) ->
  matched_edges (move_edge k c) (equal_edges data n) (equal_edges (map (unit_change k c) data) n).
Proof.
  intros K (x & y & X & Y & XY). assert (NE : data <> []) by (intros ->; contradiction).
  assert (NE' : map (unit_change k c) data <> []) by (destruct data; [congruence|discriminate]).
  destruct (ends data NE) as [A B]. destruct (ends _ NE') as [A' B'].
  destruct (bounds_unique _ _ _ _ _ _ (unit_change k c) (fun x y => unit_mono k c x y K) eq_refl A A' B B') as [L H].
  rewrite !equal_edges_ends.
  assert (D : ~ low_end data == high_end data).
  { intros E. apply XY. destruct A as [_ A], B as [_ B]. pose proof (A x X). pose proof (A y Y). pose proof (B x X). pose proof (B y Y).
    apply Qle_antisym; lra. }
  destruct (Qeq_bool (low_end data) _) eqn:E1; [apply Qeq_bool_iff in E1; contradiction|].
  destruct (Qeq_bool (low_end (map _ _)) _) eqn:E2.
  { apply Qeq_bool_iff in E2. exfalso. apply D. rewrite <- L, <- H in E2. unfold unit_change in E2.
    assert (Z : k * low_end data == k * high_end data) by lra. apply (Qmult_inj_l (low_end data) (high_end data) k); auto.
    intros KZ. rewrite KZ in K. now apply Qlt_irrefl in K. }
  now apply matched_grid.
Qed.
Lemma equal_edges_perm data data' n : Permutation data data' -> matched_edges (fun e => e) (equal_edges data n) (equal_edges data' n).
Proof.
  intros P. destruct data as [|a l].
  { apply Permutation_nil in P. subst. unfold matched_edges. induction (equal_edges [] n); constructor; auto. apply edge_eqb_refl. }
  set (data := a :: l) in *. assert (NE : data <> []) by discriminate.
  assert (NE' : data' <> []) by (intros ->; apply Permutation_sym, Permutation_nil in P; congruence).
  destruct (ends data NE) as [[A1 A2] [B1 B2]]. destruct (ends _ NE') as [[A1' A2'] [B1' B2']].
  assert (L : low_end data == low_end data').
  { apply Qle_antisym; [apply A2; eapply Permutation_in; [symmetry|]; eauto|apply A2'; eapply Permutation_in; eauto]. }
  assert (H : high_end data == high_end data').
  { apply Qle_antisym; [apply B2'; eapply Permutation_in; eauto|apply B2; eapply Permutation_in; [symmetry|]; eauto]. }
  rewrite !equal_edges_ends.
  assert (G : forall lo hi lo' hi', lo == lo' -> hi == hi' -> matched_edges (fun e => e)
     (map (fun i => EFin (lo + (hi - lo) * (inject_Z (Z.of_nat i) / inject_Z n))) (seq 0 (S (Z.to_nat n))))
     (map (fun i => EFin (lo' + (hi' - lo') * (inject_Z (Z.of_nat i) / inject_Z n))) (seq 0 (S (Z.to_nat n))))).
  { intros lo hi lo' hi' E1 E2. unfold matched_edges. induction (seq 0 (S (Z.to_nat n))) as [|i r IH]; simpl; constructor; auto.
    simpl. apply Qeq_bool_iff. now rewrite E1, E2. }
  assert (E : Qeq_bool (low_end data) (high_end data) = Qeq_bool (low_end data') (high_end data')).
  { apply Bool.eq_iff_eq_true. rewrite !Qeq_bool_iff. now rewrite L, H. }
  rewrite E. clear E. destruct (Qeq_bool (low_end data') (high_end data')); apply G; now rewrite ?L, ?H.
Qed.

(* ------------------------------------------------------------ reordering *)
Lemma matched_id e e' : matched_edges (fun e => e) e e' -> matched_edges (move_edge 1 0) e e'.
Proof.
  intros F. induction F as [|a b e e' E F IH]; constructor; auto.
  destruct a, b; simpl in *; auto. apply Qeq_bool_iff in E. apply Qeq_bool_iff. rewrite <- E. unfold unit_change. ring.
Qed.
Lemma matched_refl e : matched_edges (fun e => e) e e.
Proof. induction e; constructor; auto. apply edge_eqb_refl. Qed.
Lemma outcome_id a b : same_outcome (move_label 1 0) a b -> same_outcome (fun l => l) a b.
Proof.
  destruct a as [d|], b as [d'|]; simpl; auto. intros F. induction F as [|[l v] [l' v'] d d' [E1 E2] F IH]; constructor; auto.
  split; auto. simpl in *. destruct l as [o lo hi|s]; auto.
  rewrite <- E1. apply label_eqb_left. simpl. rewrite Bool.eqb_reflx.
  assert (M : forall e, edge_eqb e (move_edge 1 0 e) = true).
  { intros [|q|]; auto. simpl. apply Qeq_bool_iff. unfold unit_change. ring. }
  now rewrite !M.
Qed.
Lemma bucket_reorder data data' bins cb nm pc labels : Permutation data data' ->
  same_outcome (fun l => l) (bucket_percentages data bins cb nm pc labels) (bucket_percentages data' bins cb nm pc labels).
Proof.
  intros P. apply outcome_id. rewrite !bucket_parts. pose proof (Permutation_length P) as L.
  assert (T : forall counts e e', matched_edges (fun e => e) e e' ->
    same_outcome (move_label 1 0) (tail_of data nm pc labels (counts, e)) (tail_of data' nm pc labels (counts, e'))).
  { intros. apply tail_matched; auto; [reflexivity|now apply matched_id]. }
  unfold head_of. destruct cb as [cb|].
  - destruct (rev cb) as [|b r]; [exact eq_refl|]. cbn [bind].
    assert (C : map (fun b => count (rangeb b) data) cb = map (fun b => count (rangeb b) data') cb)
      by (apply map_ext; intros; now apply count_perm).
    rewrite C. apply T, matched_refl.
  - destruct bins as [|k|e]; simpl; [exact eq_refl| |].
    + destruct (k <? 1)%Z; [exact eq_refl|]. cbn [bind]. pose proof (equal_edges_perm data data' k P) as E.
      assert (C : cumulative data (equal_edges data k) = cumulative data' (equal_edges data' k)).
      { rewrite (cumulative_perm data data' _ P). now apply cumulative_compat. }
      rewrite C. now apply T.
    + destruct (falls e); [exact eq_refl|]. cbn [bind]. rewrite (cumulative_perm data data' e P). apply T, matched_refl.
Qed.

(* ------------------------------------------------------------ units *)
Lemma falls_move k c e : 0 < k -> falls (map (move_edge k c) e) = falls e.
Proof.
  intros K. induction e as [|a e IH]; auto. destruct e as [|b e]; auto.
  change (falls (a :: b :: e)) with (edge_gt a b || falls (b :: e)). rewrite <- IH.
  change (falls (map (move_edge k c) (a :: b :: e))) with (edge_gt (move_edge k c a) (move_edge k c b) || falls (map (move_edge k c) (b :: e))).
  f_equal. destruct a, b; simpl; auto. unfold Qlt_bool. f_equal. now apply unit_le.
Qed.
Lemma matched_map k c e : matched_edges (move_edge k c) e (map (move_edge k c) e).
Proof. induction e; constructor; auto. apply edge_eqb_refl. Qed.
Lemma bucket_units k c data bins cb nm pc labels : 0 < k ->
  (cb = None -> (exists n, bins = BinCount n) -> exists x y, In x data /\ In y data /\ ~ x == y) ->
  same_outcome (move_label k c) (bucket_percentages data bins cb nm pc labels)
    (bucket_percentages (map (unit_change k c) data) (move_bins k c bins) (option_map (map (move_range k c)) cb) nm pc labels).
Proof.
  intros K D. rewrite !bucket_parts.
  assert (T : forall counts e e', matched_edges (move_edge k c) e e' ->
    same_outcome (move_label k c) (tail_of data nm pc labels (counts, e)) (tail_of (map (unit_change k c) data) nm pc labels (counts, e'))).
  { intros. apply tail_matched; auto. now rewrite map_length. }
  unfold head_of. destruct cb as [cb|]; simpl option_map; cbv iota.
  - rewrite <- map_rev. destruct (rev cb) as [|b r]; [exact eq_refl|]. cbn [bind map].
    assert (C : map (fun b => count (rangeb b) (map (unit_change k c) data)) (map (move_range k c) cb) = map (fun b => count (rangeb b) data) cb).
    { rewrite map_map. apply map_ext. intros r0. apply count_map. intros x. unfold rangeb. simpl. now rewrite !lt_edge_move. }
    rewrite C. apply T.
    assert (E : map fst (map (move_range k c) cb) ++ [snd (move_range k c b)] = map (move_edge k c) (map fst cb ++ [snd b])).
    { rewrite map_app, !map_map. reflexivity. }
    rewrite E. apply matched_map.
  - destruct bins as [|n|e]; simpl; [exact eq_refl| |].
    + destruct (n <? 1)%Z; [exact eq_refl|]. cbn [bind]. specialize (D eq_refl (ex_intro _ n eq_refl)).
      pose proof (equal_edges_move k c data n K D) as E.
      assert (C : cumulative (map (unit_change k c) data) (equal_edges (map (unit_change k c) data) n) = cumulative data (equal_edges data n)).
      { rewrite <- (cumulative_move k c data (equal_edges data n) K). symmetry. apply cumulative_compat.
        clear -E. induction E; simpl; constructor; auto. }
      rewrite C. now apply T.
    + rewrite falls_move by auto. destruct (falls e); [exact eq_refl|]. cbn [bind]. rewrite cumulative_move by auto.
      apply T, matched_map.
Qed.

(* ------------------------------------------------------------ pooling *)
Lemma diff_add l : forall m s, Forall2 (fun (p : Z * Z) z => z = (fst p + snd p)%Z) (combine l m) s -> length l = length m ->
  Forall2 (fun (p : Z * Z) z => z = (fst p + snd p)%Z) (combine (diff l) (diff m)) (diff s).
Proof.
  induction l as [|a l IH]; intros [|b m] s F L; simpl in L; try discriminate; inversion F as [|? c ? s' E F']; subst; [constructor|].
  destruct l as [|a' l], m as [|b' m]; simpl in L; try discriminate; inversion F' as [|? c' ? s'' E' F'']; subst; [constructor|].
  change (diff (a :: a' :: l)) with ((a' - a)%Z :: diff (a' :: l)). change (diff (b :: b' :: m)) with ((b' - b)%Z :: diff (b' :: m)).
  change (diff ((fst (a, b) + snd (a, b))%Z :: (fst (a', b') + snd (a', b'))%Z :: s'')) with
    (((a' + b') - (a + b))%Z :: diff ((a' + b')%Z :: s'')).
  constructor; [simpl; lia|]. apply IH; auto.
Qed.
Lemma cumulative_add a b e : Forall2 (fun (p : Z * Z) z => z = (fst p + snd p)%Z) (combine (cumulative a e) (cumulative b e)) (cumulative (a ++ b) e).
Proof.
  induction e as [|x e IH]; [constructor|]. destruct e as [|y e].
  - simpl. repeat constructor. simpl. apply count_app.
  - change (cumulative a (x :: y :: e)) with (count (fun z => lt_edge z x) a :: cumulative a (y :: e)).
    change (cumulative b (x :: y :: e)) with (count (fun z => lt_edge z x) b :: cumulative b (y :: e)).
    change (cumulative (a ++ b) (x :: y :: e)) with (count (fun z => lt_edge z x) (a ++ b) :: cumulative (a ++ b) (y :: e)).
    cbn [combine]. constructor; [simpl; apply count_app|exact IH].
Qed.
(** Three dicts with the same keys whose values add up with weights. *)
Section Pool.
  Variables s1 s2 s : Q.
  Definition adds (v1 v2 v : Q) : Prop := s1 * v1 + s2 * v2 == s * v.
  Inductive pooled : list (label * Q) -> list (label * Q) -> list (label * Q) -> Prop :=
  | pooled_nil : pooled [] [] []
  | pooled_cons : forall k v1 v2 v d1 d2 d, adds v1 v2 v -> pooled d1 d2 d -> pooled ((k, v1) :: d1) ((k, v2) :: d2) ((k, v) :: d).
  Lemma pooled_bset d1 d2 d k v1 v2 v : pooled d1 d2 d -> adds v1 v2 v -> pooled (bset d1 k v1) (bset d2 k v2) (bset d k v).
  Proof.
    intros P A. induction P as [|k' w1 w2 w d1 d2 d B P IH]; simpl; [repeat constructor; auto|].
    destruct (label_eqb k' k); constructor; auto.
  Qed.
  Lemma pooled_bdict ls : forall v1 v2 v d1 d2 d, pooled d1 d2 d -> length v1 = length v2 ->
    Forall2 (fun p w => adds (fst p) (snd p) w) (combine v1 v2) v ->
    pooled (fold_left (fun d kv => bset d (fst kv) (snd kv)) (combine ls v1) d1)
           (fold_left (fun d kv => bset d (fst kv) (snd kv)) (combine ls v2) d2)
           (fold_left (fun d kv => bset d (fst kv) (snd kv)) (combine ls v) d).
  Proof.
    induction ls as [|l ls IH]; intros v1 v2 v d1 d2 d P L F; simpl; auto.
    destruct v1 as [|x1 v1], v2 as [|x2 v2]; try discriminate; inversion F; subst; simpl; auto.
    apply IH; auto. now apply pooled_bset.
  Qed.
  Lemma pooled_keys d1 d2 d : pooled d1 d2 d -> map fst d1 = map fst d /\ map fst d2 = map fst d /\
    forall i, (i < length d)%nat -> s1 * nth i (map snd d1) 0 + s2 * nth i (map snd d2) 0 == s * nth i (map snd d) 0.
  Proof.
    induction 1 as [|k v1 v2 v d1 d2 d A P (K1 & K2 & V)]; simpl; [repeat split; auto; intros; lia|].
    split; [now f_equal|]. split; [now f_equal|]. intros [|i] I; [exact A|]. apply V. lia.
  Qed.
End Pool.
Lemma values_ok data nm pc counts : (nm = true -> data <> []) ->
  (if nm then match data, counts with [], _ :: _ => Err Unmodelled | _, _ => Ok (map (share_of data pc) counts) end
   else Ok (map inject_Z counts)) = Ok (map (rep data nm pc) counts).
Proof. intros N. unfold rep. destruct nm; auto. specialize (N eq_refl). destruct data; [congruence|reflexivity]. Qed.
Lemma rep_adds a b nm pc x y : (nm = true -> a <> [] /\ b <> []) ->
  adds (size nm a) (size nm b) (size nm (a ++ b)) (rep a nm pc x) (rep b nm pc y) (rep (a ++ b) nm pc (x + y)).
Proof.
  intros N. unfold adds, size, rep, share_of, qlen. destruct nm; [|rewrite inject_Z_plus; ring]. destruct (N eq_refl) as [A B].
  assert (Z : forall l : list Q, l <> [] -> ~ inject_Z (Z.of_nat (length l)) == 0).
  { intros l L E. change 0 with (inject_Z 0) in E. apply (proj1 (inject_Z_injective _ _)) in E. destruct l; [congruence|cbn [length] in E; lia]. }
  pose proof (Z a A) as ZA. pose proof (Z b B) as ZB. assert (AB : a ++ b <> []) by (destruct a; [congruence|discriminate]).
  pose proof (Z _ AB) as ZAB. rewrite inject_Z_plus. destruct pc; field; auto.
Qed.
Lemma bucket_pool a b bins cb nm pc labels d : (nm = true -> a <> [] /\ b <> []) -> (cb = None -> exists e, bins = BinEdges e) ->
  bucket_percentages (a ++ b) bins cb nm pc labels = Ok d ->
  exists d1 d2, bucket_percentages a bins cb nm pc labels = Ok d1 /\ bucket_percentages b bins cb nm pc labels = Ok d2 /\
    map fst d1 = map fst d /\ map fst d2 = map fst d /\
    forall i, (i < length d)%nat ->
      size nm a * nth i (map snd d1) 0 + size nm b * nth i (map snd d2) 0 == size nm (a ++ b) * nth i (map snd d) 0.
Proof.
  intros N B R.
  assert (NA : nm = true -> a <> []) by (intros H; apply N; auto). assert (NB : nm = true -> b <> []) by (intros H; apply N; auto).
  assert (NAB : nm = true -> a ++ b <> []) by (intros H; destruct (N H) as [X _]; destruct a; [congruence|discriminate]).
  assert (T : forall c1 c2 c e, length c1 = length c2 -> Forall2 (fun (p : Z * Z) z => z = (fst p + snd p)%Z) (combine c1 c2) c ->
    tail_of (a ++ b) nm pc labels (c, e) = Ok d ->
    exists d1 d2, tail_of a nm pc labels (c1, e) = Ok d1 /\ tail_of b nm pc labels (c2, e) = Ok d2 /\
      map fst d1 = map fst d /\ map fst d2 = map fst d /\
      forall i, (i < length d)%nat ->
        size nm a * nth i (map snd d1) 0 + size nm b * nth i (map snd d2) 0 == size nm (a ++ b) * nth i (map snd d) 0).
  { intros c1 c2 c e L F. unfold tail_of. rewrite !values_ok by auto. cbn [bind].
    set (ls := match labels with None => auto_labels e | Some l => map Given l end).
    destruct (negb _); [discriminate|]. intros X; injection X as <-. eexists; eexists; split; [reflexivity|]. split; [reflexivity|].
    apply pooled_keys. apply pooled_bdict; [constructor|now rewrite !map_length|].
    clear -F N. revert c2 c F. induction c1 as [|x c1 IH]; intros [|y c2] c F; inversion F; subst; simpl; constructor; auto.
    simpl. now apply rep_adds. }
  rewrite bucket_parts in R |- *. rewrite bucket_parts. unfold head_of in *. destruct cb as [cb|].
  - destruct (rev cb) as [|x r]; [discriminate|]. cbn [bind] in *. apply T with (c := map (fun b0 => count (rangeb b0) (a ++ b)) cb); auto; [now rewrite !map_length|].
    clear. induction cb as [|r cb IH]; simpl; constructor; auto. simpl. apply count_app.
  - destruct (B eq_refl) as [e ->]. simpl in *. destruct (falls e); [discriminate|]. cbn [bind] in *.
    apply T with (c := diff (cumulative (a ++ b) e)); auto.
    + now rewrite !diff_length, !cumulative_length.
    + apply diff_add; [apply cumulative_add|now rewrite !cumulative_length].
Qed.

(* ------------------------------------------------------------ merging *)
Lemma cumulative_app data l r : r <> [] -> cumulative data (l ++ r) = map (fun e => count (fun x => lt_edge x e) data) l ++ cumulative data r.
Proof.
  intros N. induction l as [|a l IH]; auto. simpl app. simpl map. cbn [app]. rewrite <- IH. destruct (l ++ r) eqn:E; [|reflexivity].
  apply app_eq_nil in E as [_ E]. contradiction.
Qed.
Lemma diff_snoc xs p q ys : diff (xs ++ p :: q :: ys) = diff (xs ++ [p]) ++ (q - p)%Z :: diff (q :: ys).
Proof.
  induction xs as [|x xs IH]; [reflexivity|]. destruct xs as [|x' xs]; [reflexivity|].
  change (diff ((x :: x' :: xs) ++ p :: q :: ys)) with ((x' - x)%Z :: diff ((x' :: xs) ++ p :: q :: ys)). rewrite IH. reflexivity.
Qed.
Lemma rising_drop l a r : rising (l ++ a :: r) -> rising (l ++ r).
Proof.
  intros R i L. rewrite app_length in L. unfold edge_at.
  assert (M : forall j k, (j <= k < length (l ++ a :: r))%nat -> edge_le (nth j (l ++ a :: r) ENeg) (nth k (l ++ a :: r) ENeg))
    by (intros; now apply rising_le).
  rewrite app_length in M. simpl in M.
  assert (P : forall j, nth j (l ++ r) ENeg = nth (if (j <? length l)%nat then j else S j) (l ++ a :: r) ENeg).
  { intros j. destruct (j <? length l)%nat eqn:E.
    - apply Nat.ltb_lt in E. now rewrite !app_nth1.
    - apply Nat.ltb_ge in E. rewrite !app_nth2 by lia. replace (S j - length l)%nat with (S (j - length l)) by lia. reflexivity. }
  rewrite !P. apply M. destruct (i <? length l)%nat eqn:E1, (S i <? length l)%nat eqn:E2;
    rewrite ?Nat.ltb_lt, ?Nat.ltb_ge in *; lia.
Qed.
Lemma bucket_merge data l a r nm pc labels labels' : l <> [] -> r <> [] -> rising (l ++ a :: r) -> (nm = true -> data <> []) ->
  length (names (l ++ a :: r) labels) = (length l + length r)%nat -> distinct (names (l ++ a :: r) labels) ->
  length (names (l ++ r) labels') = (length l + length r - 1)%nat -> distinct (names (l ++ r) labels') ->
  exists d d', bucket_percentages data (BinEdges (l ++ a :: r)) None nm pc labels = Ok d /\
    bucket_percentages data (BinEdges (l ++ r)) None nm pc labels' = Ok d' /\
    map fst d = names (l ++ a :: r) labels /\ map fst d' = names (l ++ r) labels' /\
    merged (length l - 1) (map snd d) (map snd d').
Proof.
  intros NL NR R N L1 D1 L2 D2. unfold bucket_percentages. rewrite (edges_hist _ _ R), (edges_hist _ _ (rising_drop _ _ _ R)). cbn [bind].
  assert (LL : (1 <= length l)%nat) by (destruct l; [congruence|simpl; lia]). assert (LR : (1 <= length r)%nat) by (destruct r; [congruence|simpl; lia]).
  assert (E1 : length (l ++ a :: r) = S (length l + length r)) by (rewrite app_length; simpl; lia).
  assert (E2 : length (l ++ r) = (length l + length r)%nat) by apply app_length.
  rewrite finish; auto; [|now rewrite diff_length, cumulative_length|lia|lia].
  rewrite finish; auto; [|now rewrite diff_length, cumulative_length|lia|lia].
  eexists; eexists; split; [reflexivity|]. split; [reflexivity|].
  rewrite !combine_fst, !combine_snd by (rewrite map_length, diff_length, cumulative_length; lia). split; auto. split; auto.
  rewrite !cumulative_app by (auto; discriminate).
  destruct (exists_last NL) as (l' & e & ->). rewrite map_app, <- !app_assoc. cbn [map app].
  set (g := fun e => count (fun x => lt_edge x e) data).
  assert (C : cumulative data (a :: r) = g a :: cumulative data r) by (destruct r; [congruence|reflexivity]). rewrite C.
  destruct (cumulative data r) as [|q ys] eqn:Er.
  { pose proof (cumulative_length data r) as X. rewrite Er in X. simpl in X. lia. }
  rewrite (diff_snoc (map g l') (g e) (g a)), (diff_snoc (map g l') (g e) q).
  change (diff (g a :: q :: ys)) with ((q - g a)%Z :: diff (q :: ys)). rewrite !map_app. cbn [map].
  exists (map (rep data nm pc) (diff (map g l' ++ [g e]))), (rep data nm pc (g a - g e)), (rep data nm pc (q - g a)),
    (rep data nm pc (q - g e)), (map (rep data nm pc) (diff (q :: ys))).
  split; [|split; [reflexivity|split; [reflexivity|]]].
  - rewrite map_length, diff_length, app_length, map_length, app_length. simpl. lia.
  - replace (q - g e)%Z with ((g a - g e) + (q - g a))%Z by lia. unfold rep, share_of. destruct nm; rewrite inject_Z_plus; [unfold Qdiv|]; ring.
Qed.
