(** Pipes, growth rates of distributions, dict mixtures (C116-C119). *)
From Verif Require Import Base M_Weights SpecWeights P_Weights M_Pick M_Values M_Sampler M_Ops M_Str M_Build
  SpecSampler SpecSampler2 SpecOps SpecBuild P_Sampler P_Count P_Clip P_Ops P_Ops2 P_Sampler2 P_Support P_Pure.
From Coq Require Import Lqa.
Open Scope Q_scope.

Lemma qdiv_1_r x : x / 1 == x.
Proof. field. Qed.

(* ------------------------------------------------------------------ C116 *)
Section Pipe.
  Variable Or : oracle.
  Notation St := (state (G Or)).

  (** What [d >> c] samples: [c]'s function on [d] and [c]'s left operand. *)
  Lemma pipe_complex (d : dist (G Or)) l r f n s a b s1 s2 : (1 <= n)%nat -> l <> OLit PNone ->
    smp Or (ODist d) n None None s = (Ok a, s1) -> smp Or l n None None s1 = (Ok b, s2) ->
    exists o, rshift_complex d (DComplex l r f) = Ok o /\
      smp Or o n None None s = match fn_result Or f n a (Some b) s2 with
                               | (Ok u, s') => (Ok (finish_list Or u), s') | (Err e, s') => (Err e, s') end.
  Proof.
    intros N L A B. eexists. split; [reflexivity|]. eapply complex_run; eauto.
  Qed.
  Lemma pipe_unary (d : dist (G Or)) (l : obj (G Or)) n s a b s1 s2 : (1 <= n)%nat -> l <> OLit PNone ->
    smp Or (ODist d) n None None s = (Ok a, s1) -> smp Or l n None None s1 = (Ok b, s2) ->
    exists o, rshift_complex d (DComplex l (OLit PNone) FNeg) = Ok o /\ smp Or o n None None s = (Err TypeError, s2).
  Proof.
    intros N L A B. destruct (pipe_complex d l (OLit PNone) FNeg n s a b s1 s2 N L A B) as (o & E & H).
    exists o. split; auto.
  Qed.

  (* ---------------------------------------------------------------- C117 *)
  Variables (log_ exp_ : Q -> Q) (ln2 e_ : Q).
  Hypothesis LE : log_exp log_ exp_ e_.

  Lemma lit_one (x : pv) (s : St) : smp Or (OLit x) 1 None None s = (Ok (Scalar x), s).
  Proof. reflexivity. Qed.
  Lemma growth_one d s g s1 : smp Or (ODist d) 1 None None s = (Ok (Scalar (PFlt (Fin g))), s1) ->
    0 < 1 + g -> ~ log_ (1 + g) == 0 ->
    exists y, smp Or (ODist (growth_dist log_ ln2 e_ d)) 1 None None s = (Ok (Scalar (PFlt (Fin y))), s1) /\
      y == ln2 / log_ (1 + g).
  Proof.
    intros D P NZ. unfold growth_dist, dist_log, fold_fns, op_refl. cbn [fold_left].
    destruct LE as [E0 E1 E2 E3 _].
    assert (A : smp Or (ODist (DComplex (OLit (PFlt (Fin 1))) (ODist d) (FOp Add))) 1 None None s =
                (Ok (Scalar (PFlt (Fin (1 + g)))), s1)).
    { erewrite complex_run; [|lia|discriminate|apply lit_one|exact D]. reflexivity. }
    assert (B : smp Or (ODist (DComplex (ODist (DComplex (OLit (PFlt (Fin 1))) (ODist d) (FOp Add)))
                  (ODist (DLeaf (LConst (PFlt (Fin e_))) None None))
                  (pure2 (fun a b => do y <- math_log log_ a b; Ok (Scalar y))))) 1 None None s = (Ok (Scalar (PFlt (Fin (log_ (1 + g) / log_ e_)))), s1)).
    { erewrite complex_run; [|lia|discriminate|exact A|apply sample_const; lia].
      cbn [fn_result pure2 user_result].
      change (copies (PFlt (Fin e_)) 1) with (Scalar (PFlt (Fin e_))).
      unfold math_log, math_arg, math_log1. cbn [as_x bind].
      replace (Qle_bool (1 + g) 0) with false.
      2:{ symmetry. apply not_true_is_false. rewrite Qle_bool_iff. lra. }
      replace (Qle_bool e_ 0) with false.
      2:{ symmetry. apply not_true_is_false. rewrite Qle_bool_iff. lra. }
      replace (Qeq_bool e_ 1) with false.
      2:{ symmetry. apply not_true_is_false. rewrite Qeq_bool_iff. auto. }
      replace (Qeq_bool (1 + g) 1) with false.
      2:{ symmetry. apply not_true_is_false. rewrite Qeq_bool_iff. auto. }
      cbn [bind xzero]. replace (Qeq_bool (log_ e_) 0) with false.
      2:{ symmetry. apply not_true_is_false. rewrite Qeq_bool_iff, E2. discriminate. }
      cbn [xdiv bind]. replace (Qeq_bool (log_ e_) 0) with false.
      2:{ symmetry. apply not_true_is_false. rewrite Qeq_bool_iff, E2. discriminate. }
      reflexivity. }
    assert (NZ' : ~ log_ (1 + g) / log_ e_ == 0).
    { intros H. apply NZ. rewrite E2 in H. rewrite qdiv_1_r in H. exact H. }
    erewrite complex_run; [|lia|discriminate|apply lit_one|exact B].
    cbn [fn_result apply_fn lift2 binop as_x fop xzero].
    destruct (Qeq_bool (log_ (1 + g) / log_ e_) 0) eqn:Z; [apply Qeq_bool_iff in Z; contradiction|].
    cbn. rewrite Z. eexists. split; [reflexivity|]. rewrite E2, qdiv_1_r. reflexivity.
  Qed.
  Lemma doubling_one d s t s1 : smp Or (ODist d) 1 None None s = (Ok (Scalar (PFlt (Fin t))), s1) ->
    ~ t == 0 ->
    exists y x, smp Or (ODist (doubling_dist exp_ ln2 d)) 1 None None s = (Ok (Scalar (PFlt (Fin y))), s1) /\
      x == ln2 / t /\ y == exp_ x - 1.
  Proof.
    intros D NZ. unfold doubling_dist, dist_exp, fold_fns, op_refl. cbn [fold_left].
    assert (A : smp Or (ODist (DComplex (OLit (PFlt (Fin ln2))) (ODist d) (FOp Div))) 1 None None s =
                (Ok (Scalar (PFlt (Fin (ln2 / t)))), s1)).
    { erewrite complex_run; [|lia|discriminate|apply lit_one|exact D].
      cbn [fn_result apply_fn lift2 binop as_x fop xzero].
      destruct (Qeq_bool t 0) eqn:Z; [apply Qeq_bool_iff in Z; contradiction|].
      cbn. rewrite Z. reflexivity. }
    assert (B : smp Or (ODist (DComplex (ODist (DComplex (OLit (PFlt (Fin ln2))) (ODist d) (FOp Div))) (OLit PNone)
                  (pure1 (fun a => do x <- math_arg a; Ok (Scalar (PFlt (math_exp exp_ x))))))) 1 None None s =
                (Ok (Scalar (PFlt (Fin (exp_ (ln2 / t))))), s1)).
    { erewrite complex_run1; [|lia|exact A]. reflexivity. }
    erewrite complex_run; [|lia|discriminate|exact B|apply lit_one].
    do 2 eexists. split; [reflexivity|]. split; reflexivity.
  Qed.
  Lemma round_trip_one d s g s1 : smp Or (ODist d) 1 None None s = (Ok (Scalar (PFlt (Fin g))), s1) ->
    0 < 1 + g -> ~ log_ (1 + g) == 0 -> ~ ln2 == 0 ->
    exists y, smp Or (ODist (doubling_dist exp_ ln2 (growth_dist log_ ln2 e_ d))) 1 None None s =
                (Ok (Scalar (PFlt (Fin y))), s1) /\ y == g.
  Proof.
    intros D P NZ N2. destruct (growth_one d s g s1 D P NZ) as (t & T & Et).
    assert (Nt : ~ t == 0).
    { rewrite Et. intros H. apply N2. apply (Qmult_inj_r _ _ (/ log_ (1 + g))); [|unfold Qdiv in H; rewrite H; ring].
      intros H'. apply NZ. rewrite <- (Qinv_involutive (log_ (1+g))), H'. reflexivity. }
    destruct (doubling_one _ _ _ _ T Nt) as (y & x & Y & Ex & Ey). exists y. split; auto.
    rewrite Ey. destruct LE as [_ _ _ _ X]. rewrite (X (1 + g) x P); [ring|].
    rewrite Ex, Et. field. auto.
  Qed.
  Lemma growth_many d n s a s1 : (2 <= n)%nat -> smp Or (ODist d) n None None s = (Ok a, s1) -> n_samples n a ->
    Forall numeric (elems a) ->
    smp Or (ODist (growth_dist log_ ln2 e_ d)) n None None s = (Err TypeError, s1).
  Proof.
    intros N D NA F. unfold growth_dist.
    destruct (op_pointwise Or (OLit (PFlt (Fin 1))) (ODist d) Add n s (copies (PFlt (Fin 1)) n) a s s1) as [H _];
      try assumption; try lia; try discriminate.
    - apply sample_lit; lia.
    - apply n_simplify, repeat_length.
    - destruct (H (map (fun x => match as_x x with Some y => PFlt (xadd (Fin 1) y) | None => x end) (elems a)))
        as (v & V & Nv & _).
      { unfold copies. rewrite elems_simplify. pose proof (n_elems _ _ NA) as L.
        generalize (arrays n). intros arr. rewrite <- L. clear -F.
        induction F as [|x l (y & Hx) F IH]; simpl; constructor; auto.
        rewrite Hx. destruct x as [| |[]| |]; cbn in Hx; inversion Hx; subst; destruct arr; reflexivity. }
      { left. clear -F. induction F as [|x l (y & Hx) F IH]; simpl; constructor; auto. rewrite Hx. eexists; reflexivity. }
      eapply complex_right_err; [lia|discriminate|apply sample_lit; lia|].
      eapply log_many; eauto.
  Qed.
End Pipe.

(* ------------------------------------------------------------------ C118 *)
Section Dict.
  Context {K V : Type}.
  Variable same : K -> K -> bool.
  Hypothesis same_refl : forall a, same a a = true.
  Hypothesis same_sym : forall a b, same a b = same b a.
  Hypothesis same_trans : forall a b c, same a b = true -> same b c = same a c.

  Lemma dict_set_new k (v : V) d : Forall (fun e => same (fst e) k = false) d -> dict_set same k v d = d ++ [(k, v)].
  Proof. induction 1 as [|[k' v'] d E F IH]; simpl in *; [reflexivity|]. now rewrite E, IH. Qed.
  Lemma py_dict_distinct (l : list (K * V)) : no_two_same same (map fst l) -> py_dict same l = l.
  Proof.
    intros H. unfold py_dict.
    assert (G : forall d, Forall (fun e => Forall (fun f => same (fst e) (fst f) = false) l) d ->
                fold_left (fun d kv => dict_set same (fst kv) (snd kv) d) l d = d ++ l).
    { clear same_refl same_sym same_trans. revert H. induction l as [|[k v] l IH]; simpl; intros H d F.
      - now rewrite app_nil_r.
      - inversion H; subst. rewrite dict_set_new.
        + rewrite IH; auto.
          * now rewrite <- app_assoc.
          * apply Forall_app. split.
            -- eapply Forall_impl; [|exact F]. intros e He. now inversion He.
            -- constructor; [|constructor]. simpl. rewrite Forall_map in H2. exact H2.
        + eapply Forall_impl; [|exact F]. intros e He. now inversion He. }
    rewrite G; [reflexivity|constructor].
  Qed.

  (** The keys and values of a dict in general. *)
  Lemma dict_set_keys k (v : V) d : map fst (dict_set same k v d) =
    if existsb (fun k' => same k' k) (map fst d) then map fst d else map fst d ++ [k].
  Proof.
    induction d as [|[k' v'] d IH]; simpl; [reflexivity|]. destruct (same k' k); simpl; [reflexivity|].
    rewrite IH. destruct (existsb _ _); reflexivity.
  Qed.
  Lemma filter_app_rev (f : K -> bool) l x : filter f (l ++ [x]) = filter f l ++ (if f x then [x] else []).
  Proof. rewrite filter_app. simpl. destruct (f x); reflexivity. Qed.
  Lemma first_keys_snoc l k : first_keys same (l ++ [k]) =
    if existsb (fun k' => same k' k) l then first_keys same l else first_keys same l ++ [k].
  Proof.
    induction l as [|a l IH]; simpl; [reflexivity|]. rewrite IH. destruct (same a k) eqn:E; simpl.
    - destruct (existsb _ l); [reflexivity|]. f_equal. rewrite filter_app_rev, E. simpl. now rewrite app_nil_r.
    - destruct (existsb _ l); [reflexivity|]. rewrite filter_app_rev, E. reflexivity.
  Qed.
  Lemma in_first_keys l k : existsb (fun k' => same k' k) (first_keys same l) = existsb (fun k' => same k' k) l.
  Proof.
    induction l as [|a l IH]; simpl; [reflexivity|]. destruct (same a k) eqn:E; simpl; [reflexivity|].
    rewrite <- IH. clear IH. induction (first_keys same l) as [|b m IH]; simpl; [reflexivity|].
    destruct (same a b) eqn:E2; simpl.
    - rewrite IH. rewrite (same_trans a b k) by auto. now rewrite E.
    - now rewrite IH.
  Qed.
  Lemma py_dict_keys (l : list (K * V)) : map fst (py_dict same l) = first_keys same (map fst l).
  Proof.
    unfold py_dict. induction l as [|[k v] l IH] using rev_ind; [reflexivity|].
    rewrite fold_left_app, map_app. cbn [fold_left map fst snd]. rewrite dict_set_keys, IH, first_keys_snoc, in_first_keys.
    reflexivity.
  Qed.
  Lemma dict_set_value k v k' v' (d : list (K * V)) : no_two_same same (map fst d) -> In (k', v') (dict_set same k v d) ->
    (same k' k = true /\ v' = v) \/ (same k' k = false /\ In (k', v') d).
  Proof.
    induction d as [|[a b] d IH]; simpl; intros N H.
    - destruct H as [E|[]]. inversion E; subst. left. auto.
    - inversion N; subst. destruct (same a k) eqn:E; simpl in H.
      + destruct H as [X|H].
        * inversion X; subst. left. auto.
        * right. split; [|right; exact H]. rewrite Forall_forall in H2.
          specialize (H2 k' (in_map fst _ _ H)). simpl in H2.
          apply not_true_is_false. intros C.
          rewrite same_sym in C. rewrite (same_sym a k') in H2. rewrite same_sym in E.
          rewrite <- (same_trans k k' a C) in E. congruence.
      + destruct H as [X|H].
        * inversion X; subst. right. split; auto.
        * destruct (IH H3 H) as [L|[L R]]; auto.
  Qed.
  Lemma no_two_filter (f : K -> bool) l : no_two_same same l -> no_two_same same (filter f l).
  Proof.
    induction 1 as [|a l F N IH]; simpl; [constructor|]. destruct (f a); auto. constructor; auto.
    rewrite Forall_forall in *. intros x Hx. apply filter_In in Hx as [Hx _]. auto.
  Qed.
  Lemma first_keys_different l : no_two_same same (first_keys same l).
  Proof.
    induction l; simpl; constructor.
    - apply Forall_forall. intros x Hx. apply filter_In in Hx as [_ Hx]. now destruct (same a x).
    - now apply no_two_filter.
  Qed.
  Lemma py_dict_values (l : list (K * V)) k v : In (k, v) (py_dict same l) -> last_value same k l = Some v.
  Proof.
    unfold last_value. revert k v. induction l as [|[a b] l IH] using rev_ind; [intros k v []|].
    intros k v H. unfold py_dict in H. rewrite fold_left_app in H. cbn [fold_left fst snd] in H.
    rewrite rev_app_distr. cbn [rev app find fst].
    apply dict_set_value in H.
    - destruct H as [[E ->]|[E H]]; rewrite E; [reflexivity|]. apply IH. exact H.
    - change (no_two_same same (map fst (py_dict same l))). rewrite py_dict_keys. apply first_keys_different.
  Qed.
End Dict.

(* ------------------------------------------------------------------ C119 *)
Section Notations.
  Context {T : Type}.
  Lemma mapM_pairs (ws : list cell) (os : list (obj T)) :
    mapM (fun v => match mitem_pair T v with Some wx => Ok wx | None => Err TypeError end)
      (map (fun p => MPair (fst p) (snd p)) (combine ws os)) =
    Ok (map (fun p => (fst p, MPlain (snd p))) (combine ws os)).
  Proof. induction (combine ws os) as [|[w o] l IH]; simpl; [reflexivity|]. now rewrite IH. Qed.

  Lemma finish_prov (ws : list cell) p p' (vs : list (mitem T)) : length ws = length vs ->
    fst (finish false ws p vs) = fst (finish false ws p' vs).
  Proof.
    intros L. unfold finish. destruct (any_na ws) as [[]|]; try reflexivity.
    replace (Nat.eqb (S (length (map cell_q ws))) (length vs)) with false; [reflexivity|].
    symmetry. apply Nat.eqb_neq. rewrite map_length. lia.
  Qed.
  Lemma map_fst_combine {X Y} (a : list X) (b : list Y) : length a = length b -> map fst (combine a b) = a.
  Proof. revert b; induction a; destruct b; simpl; intros; try discriminate; f_equal; auto. Qed.
  Lemma map_snd_combine {X Y} (a : list X) (b : list Y) : length a = length b -> map snd (combine a b) = b.
  Proof. revert b; induction a; destruct b; simpl; intros; try discriminate; f_equal; auto. Qed.

  Lemma pairs_notation (ws : list cell) (os : list (obj T)) lc rc : length ws = length os -> os <> [] ->
    mixture (VList (map (fun p => MPair (fst p) (snd p)) (combine ws os))) WNone WNone lc rc =
    mixture (VList (map MPlain os)) (WList ws) WNone lc rc.
  Proof.
    intros L N. unfold mixture, pwv.
    destruct ws as [|w ws], os as [|o os]; try discriminate; [congruence|]. cbn [wnone negb andb values_missing map combine weights_of_warg].
    cbn [fill_weights mitem_pair fst snd].
    change (MPair w o :: map (fun p => MPair (fst p) (snd p)) (combine ws os))
      with (map (fun p => MPair (T := T) (fst p) (snd p)) (combine (w :: ws) (o :: os))).
    rewrite mapM_pairs. cbn [andb fst snd].
    rewrite !map_map. cbn [fst snd]. change (fun x : cell * obj T => fst x) with (@fst cell (obj T)).
    rewrite map_fst_combine by auto.
    rewrite <- (map_map snd MPlain), map_snd_combine by auto.
    rewrite (finish_prov (w :: ws) PFresh PCaller) by (simpl in *; rewrite map_length; lia). reflexivity.
  Qed.
  Lemma dict_notation (ws : list cell) (os : list (obj T)) lc rc : length ws = length os -> os <> [] ->
    mixture (VDict (map (fun p => (MPlain (snd p), fst p)) (combine ws os))) WNone WNone lc rc =
    mixture (VList (map MPlain os)) (WList ws) WNone lc rc.
  Proof.
    intros L N. unfold mixture, pwv.
    destruct ws as [|w ws], os as [|o os]; try discriminate; [congruence|].
    cbn [wnone negb andb values_missing weights_of_warg]. rewrite !map_map. cbn [fst snd].
    change (fun x : cell * obj T => fst x) with (@fst cell (obj T)).
    rewrite map_fst_combine by auto.
    rewrite <- (map_map snd MPlain), map_snd_combine by auto.
    cbn [fill_weights andb map fst snd].
    rewrite (finish_prov (w :: ws) PFresh PCaller) by (simpl in *; rewrite map_length; lia). reflexivity.
  Qed.
  Lemma dict_mixture fmt h ver (es : list (pexp T)) (ws : list cell) lc rc : length ws = length es -> es <> [] ->
    no_two_same (same_key fmt h ver) es ->
    mixture_dict fmt h ver (combine es ws) lc rc = mixture (VList (map (fun e => MPlain (built e)) es)) (WList ws) WNone lc rc.
  Proof.
    intros L N D. unfold mixture_dict. rewrite py_dict_distinct by (now rewrite map_fst_combine by auto).
    rewrite <- (map_map built MPlain). rewrite <- dict_notation; [|now rewrite map_length|].
    - f_equal. f_equal. revert es L N D. induction ws as [|w ws IH]; destruct es; simpl; intros; try discriminate; auto.
      f_equal. destruct es; destruct ws; try discriminate; [reflexivity|]. apply IH; auto; [discriminate|now inversion D].
    - destruct es; [congruence|discriminate].
  Qed.
End Notations.
