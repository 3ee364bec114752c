(** The text of a constructor call is that call (C124). *)
From Coq Require Import Ascii String.
From Verif Require Import Base M_Values M_Sampler M_Str M_Ctor SpecStr SpecCall.
Open Scope string_scope.

Lemma sapp_assoc (a b c : string) : (a ++ b) ++ c = a ++ b ++ c.
Proof. induction a; simpl; congruence. Qed.
Lemma sapp_nil (a : string) : a ++ "" = a.
Proof. induction a; simpl; congruence. Qed.

(** Keyword arguments for the clips that are set. *)
Definition clip_args (lc rc : option num) : list (option string * pv) :=
  ((match lc with Some a => [(Some "lclip", num_pv a)] | None => [] end) ++
   (match rc with Some a => [(Some "rclip", num_pv a)] | None => [] end))%list.
Definition the_call (k : pleaf) : pycall :=
  let n := fun x => (@None string, num_pv x) in
  let kw := fun s x => (Some s, num_pv x) in
  let tt_ := fun x y t c lc rc =>
    ((match x with Some a => [kw "x" a; (Some "y", match y with Some b => num_pv b | None => PNone end)] | None => [] end) ++
     [kw "t" t] ++ (if Qeq_bool (num_q c) 90 then [] else [kw "credibility" c]) ++ clip_args lc rc)%list in
  match k with
  | KConst x => mkPy "const" [(None, x)]
  | KUniform x y => mkPy "uniform" [n x; n y]
  | KNorm m s lc rc => mkPy "norm" ([kw "mean" (round2 m); kw "sd" (round2 s)] ++ clip_args lc rc)
  | KBinomial m p => mkPy "binomial" [(Some "n", PInt m); kw "p" p]
  | KBeta a b => mkPy "beta" [kw "a" a; kw "b" b]
  | KBernoulli p => mkPy "bernoulli" [kw "p" p]
  | KT x y t c lc rc => mkPy "tdist" (tt_ x y t c lc rc)
  | KLogT x y t c lc rc => mkPy "log_tdist" (tt_ x y t c lc rc)
  | KTri l m r => mkPy "triangular" [n l; n m; n r]
  | KPert l m r a lc rc => mkPy "PERT" ([n l; n m; n r; kw "lam" a] ++ clip_args lc rc)
  | KPoisson a lc rc => mkPy "poisson" (n a :: clip_args lc rc)
  | KChi d => mkPy "chisquare" [n d]
  | KExp s lc rc => mkPy "exponential" (n s :: clip_args lc rc)
  | KGamma a b lc rc => mkPy "gamma" ([kw "shape" a; kw "scale" b] ++ clip_args lc rc)
  | KPareto a => mkPy "pareto" [n a]
  | KGeom p => mkPy "geometric" [kw "p" p]
  | KDie _ _ | KCoin | KCat _ | KCatDict _ => mkPy "" []
  | KLognorm a b c d lc rc =>
      mkPy "lognorm" ([kw "lognorm_mean" (round2 a); kw "lognorm_sd" (round2 b); kw "norm_mean" (round2 c); kw "norm_sd" (round2 d)] ++ clip_args lc rc)
  | KInvLognorm a b c d lc rc =>
      mkPy "invlognorm" ([kw "lognorm_mean" (round2 a); kw "lognorm_sd" (round2 b); kw "norm_mean" (round2 c); kw "norm_sd" (round2 d)] ++ clip_args lc rc)
  end.

Lemma text_is_call fmt k : call_form k -> leaf_text fmt k = head_mark ++ render fmt (the_call k).
Proof.
  intros CF. unfold render, the_call, leaf_text, lognorm_text, t_text, clip_text, clip_args, num_text.
  destruct k; try destruct CF; try destruct lc as [lc|]; try destruct rc as [rc|]; try destruct x as [x|]; try destruct y as [y|];
    try (destruct (Qeq_bool (num_q cred) 90)); cbn [app map p_name p_args commas render_arg];
    rewrite ?sapp_nil; rewrite ?sapp_assoc; cbn [append]; rewrite ?sapp_assoc; cbn [append]; rewrite ?sapp_nil; try reflexivity.
Qed.

Lemma exact_form k : prints_exactly k -> call_form k.
Proof. destruct k; simpl; auto. Qed.
Lemma the_num_pv x : the_num (num_pv x) = Some x.
Proof. now destruct x. Qed.
Lemma num_or_none_pv x : num_or_none (num_pv x) = Some (Some x).
Proof. now destruct x. Qed.
Lemma call_builds k c : prints_exactly k -> ctor_of k = Some c -> eval_call (the_call k) = Some c.
Proof.
  intros P H. unfold eval_call, the_call, clip_args, bind_args.
  destruct k; simpl in P; try contradiction; cbn [ctor_of] in H; inversion H; subst; clear H;
    try match type of P with
        | round2 _ = _ /\ _ => destruct P as [P1 P2]; rewrite P1, P2
        | (_ -> _) /\ _ => destruct P as [P1 P2]
        end;
    try destruct lc as [lc|]; try destruct rc as [rc|]; try destruct x as [x|]; try destruct y as [y|];
    try (destruct (Qeq_bool (num_q cred) 90) eqn:E; [apply Qeq_bool_iff in E; specialize (P2 E)|]);
    try (specialize (P1 eq_refl); discriminate);
    cbn; rewrite ?the_num_pv, ?num_or_none_pv; cbn; first [reflexivity|rewrite P2; reflexivity].
Qed.
