(** The text of an operator expression tells everything but its grouping (C28). *)
From Coq Require Import Ascii String.
From Verif Require Import Base M_Values M_Sampler M_SampleApi M_Str M_Ctor SpecStr SpecCall SpecCache SpecCacheText SpecOpText
  P_Str P_Call P_Cache P_CacheText.
Open Scope string_scope.

Lemma pure_strip s : pure s -> strip s = s.
Proof.
  induction 1; [reflexivity| |].
  - rewrite strip_char by assumption. congruence.
  - rewrite strip_lt by assumption. congruence.
Qed.
Lemma has_no_pure s : has "<" s = false -> pure s.
Proof. intros H. apply no_angle_pure. intros O. exact (has_not _ _ H O). Qed.
Lemma infix_text_inj i j : infix_text i = infix_text j -> i = j.
Proof. destruct i as [[]| |], j as [[]| |]; intros E; try discriminate; reflexivity. Qed.
Lemma infix_no_space i : has " " (infix_text i) = false.
Proof. destruct i as [[]| |]; reflexivity. Qed.

Section Words.
  Variable fmt : pv -> string.
  Hypothesis RD : readable fmt.
  Hypothesis UB : unbracketed fmt.

  (** A printed leaf without its mark. *)
  Definition leaf_body (b : string) : Prop :=
    b = "Coin" \/ exists c n, b = String c n ++ ")" /\ has ")" (String c n) = false /\ c <> "C"%char /\ c <> "-"%char.

  Lemma fmt_ub v : lowest_terms v -> has ")" (fmt v) = false /\ has "<" (fmt v) = false.
  Proof. intros L. destruct (UB v L). split; now apply not_occurs. Qed.
  Lemma commas_has c l : has c ", " = false -> Forall (fun s => has c s = false) l -> has c (commas l) = false.
  Proof.
    intros N. induction 1 as [|x l H F IH]; [reflexivity|]. cbn [commas]. destruct l; auto.
    rewrite !has_app, H, N, IH. reflexivity.
  Qed.
  Definition tidy (a : option string * pv) : Prop :=
    lowest_terms (snd a) /\ match fst a with Some k => has ")" k = false /\ has "<" k = false | None => True end.
  Lemma arg_ub a : tidy a -> has ")" (render_arg fmt a) = false /\ has "<" (render_arg fmt a) = false.
  Proof.
    destruct a as [[k|] v]; intros [L K]; simpl in *; destruct (fmt_ub v L) as [A B]; auto.
    destruct K as [K1 K2]. rewrite !has_app, K1, K2. simpl. auto.
  Qed.
  Lemma call_tidy k : prints_exactly k -> reduced_leaf k -> Forall tidy (p_args (the_call k)).
  Proof.
    assert (forall n, reduced_opt (Some n) -> lowest_terms (num_pv n)) as RO by (intros n H; exact (H n eq_refl)).
    intros P R. unfold the_call, clip_args.
    destruct k; simpl in P; try contradiction; cbn [reduced_leaf] in R; unfold reduced in R;
      repeat match goal with H : _ /\ _ |- _ => destruct H end;
      try match goal with H : round2 ?a = ?a, H' : round2 ?b = ?b |- _ => rewrite H, ?H' end;
      try destruct lc as [lc|]; try destruct rc as [rc|]; try destruct x as [x|]; try destruct y as [y|];
      try (destruct (Qeq_bool (num_q cred) 90)); cbn [p_args app];
      repeat (apply Forall_cons; [split; cbn [fst snd]; auto; exact I|]); apply Forall_nil.
  Qed.
  Lemma call_first k : prints_exactly k -> exists c n, p_name (the_call k) = String c n /\ has ")" (String c n) = false /\
    has "<" (String c n) = false /\ c <> "C"%char /\ c <> "-"%char.
  Proof.
    destruct k; intros P; simpl in P; try contradiction; cbn [the_call p_name]; do 2 eexists; (split; [reflexivity|]);
      (split; [reflexivity|]); (split; [reflexivity|]); split; discriminate.
  Qed.
  Lemma told_body T k (d : dist T) : told_by k d -> exists b, leaf_text fmt k = head_mark ++ b /\ leaf_body b /\ has "<" b = false.
  Proof.
    intros [k' c d' P R C D|n e|].
    - rewrite text_is_call by auto using exact_form. exists (render fmt (the_call k')). split; [reflexivity|].
      destruct (call_first k' P) as (a & n & En & H1 & H2 & N1 & N2). unfold render. rewrite En.
      pose proof (call_tidy k' P R) as TD.
      assert (has ")" (commas (map (render_arg fmt) (p_args (the_call k')))) = false) as X1
        by (apply commas_has; [reflexivity|]; apply Forall_map; eapply Forall_impl; [|exact TD]; intros; now apply arg_ub).
      assert (has "<" (commas (map (render_arg fmt) (p_args (the_call k')))) = false) as X2
        by (apply commas_has; [reflexivity|]; apply Forall_map; eapply Forall_impl; [|exact TD]; intros; now apply arg_ub).
      split.
      + right. exists a, (n ++ "(" ++ commas (map (render_arg fmt) (p_args (the_call k')))). split.
        { change (String a (n ++ "(" ++ ?c)) with (String a n ++ "(" ++ c). cbn [append]. rewrite !sapp_assoc. reflexivity. }
        split; [|auto].
        change (String a (n ++ ?x)) with (String a n ++ x). rewrite !has_app, H1, X1. reflexivity.
      + rewrite !has_app, H2, X2. reflexivity.
    - rewrite die_text. eexists. split; [reflexivity|].
      assert (forall c, has c ", " = false -> has c "explodes on [" = false -> has c "]" = false -> (forall z, has c (fmt (PInt z)) = false) ->
              has c (fmt (PInt n) ++ explode_text fmt e) = false) as X.
      { intros c A A2 A3 F. rewrite has_app, F. destruct e as [l|]; [|reflexivity]. unfold explode_text.
        change (", explodes on [" ++ ?x) with (", " ++ "explodes on [" ++ x). rewrite !has_app, A, A2, A3, joined_commas.
        rewrite commas_has; auto. apply Forall_map, Forall_forall. auto. }
      split.
      + right. exists "D"%char, ("ie(" ++ (fmt (PInt n) ++ explode_text fmt e)). split.
        { cbn [append]. rewrite !sapp_assoc. reflexivity. }
        split; [|split; discriminate]. change (has ")" (String "D" ("ie(" ++ ?x))) with (has ")" x). apply X; try reflexivity.
        intros z. now apply fmt_ub.
      + rewrite !has_app, <- has_app. rewrite X; try reflexivity. intros z. now apply fmt_ub.
    - exists "Coin". split; [reflexivity|]. split; [now left|reflexivity].
  Qed.

  (** What the words of an expression are printed as: [true] where an operand is due. *)
  Inductive prints {T} : bool -> list (word T) -> string -> Prop :=
  | pr_neg a s : prints true a s -> prints true (WNeg :: a) ("-" ++ s)
  | pr_dist k d b a s : told_by k d -> leaf_text fmt k = head_mark ++ b -> leaf_body b -> prints false a s -> prints true (WDist d :: a) (b ++ s)
  | pr_end : prints false [] ""
  | pr_op i a s : prints true a s -> prints false (WOp i :: a) (" " ++ infix_text i ++ " " ++ s).

  Lemma prints_app T m (a : list (word T)) s : prints m a s -> forall b t, prints false b t -> prints m (a ++ b)%list (s ++ t).
  Proof.
    induction 1; intros b' t Hb; cbn [app]; rewrite ?sapp_assoc; auto.
    - apply (pr_neg (a ++ b')%list (s ++ t)). auto.
    - eapply pr_dist; eauto.
    - apply (pr_op i (a ++ b')%list (s ++ t)). auto.
  Qed.
  Lemma body_cut b1 b2 r1 r2 : leaf_body b1 -> leaf_body b2 -> b1 ++ r1 = b2 ++ r2 -> b1 = b2 /\ r1 = r2.
  Proof.
    intros [-> |(c1 & n1 & -> & P1 & N1 & _)] [-> |(c2 & n2 & -> & P2 & N2 & _)] E.
    - split; [reflexivity|]. now inversion E.
    - exfalso. simpl in E. injection E as E _. congruence.
    - exfalso. simpl in E. injection E as E _. congruence.
    - rewrite !sapp_assoc in E. apply split_at in E as [-> ->]; auto.
  Qed.
  Lemma body_not_minus b r s : leaf_body b -> b ++ r <> "-" ++ s.
  Proof.
    intros [-> |(c & n & -> & _ & _ & N)] E; [discriminate|]. simpl in E. injection E as E _. congruence.
  Qed.
  Lemma operand_due T (a : list (word T)) t : prints true a t ->
    (exists a' s', a = WNeg :: a' /\ t = "-" ++ s' /\ prints true a' s') \/
    (exists k d b a' s', a = WDist d :: a' /\ t = b ++ s' /\ told_by k d /\ leaf_text fmt k = head_mark ++ b /\ leaf_body b /\ prints false a' s').
  Proof. intros H. inversion H; subst; [left|right]; repeat eexists; eauto. Qed.
  Lemma operator_due T (a : list (word T)) t : prints false a t ->
    (a = [] /\ t = "") \/ (exists i a' s', a = WOp i :: a' /\ t = " " ++ infix_text i ++ " " ++ s' /\ prints true a' s').
  Proof. intros H. inversion H; subst; [left|right]; repeat eexists; eauto. Qed.
  Lemma prints_inj T m (a : list (word T)) s : prints m a s -> forall b, prints m b s -> a = b.
  Proof.
    induction 1 as [a s H IH|k d b0 a s TD E LB H IH| |i a s H IH]; intros bb Hb.
    - apply operand_due in Hb as [(a' & s' & -> & Et & H')|(k' & d' & b' & a' & s' & -> & Et & TD' & E' & LB' & H')].
      + f_equal. apply IH. injection Et as ->. exact H'.
      + exfalso. symmetry in Et. now apply body_not_minus in Et.
    - apply operand_due in Hb as [(a' & s' & -> & Et & H')|(k' & d' & b' & a' & s' & -> & Et & TD' & E' & LB' & H')].
      + exfalso. now apply body_not_minus in Et.
      + destruct (body_cut _ _ _ _ LB LB' Et) as [-> ->]. f_equal; [|now apply IH].
        f_equal. eapply (exact_text fmt RD); eauto. congruence.
    - apply operator_due in Hb as [[-> _]|(i' & a' & s' & -> & Et & H')]; auto. discriminate.
    - apply operator_due in Hb as [[_ Et]|(i' & a' & s' & -> & Et & H')]; [discriminate|].
      cbn [append] in Et. injection Et as Es.
      apply split_at in Es as [Ei ->]; auto using infix_no_space. apply infix_text_inj in Ei. rewrite Ei. f_equal. now apply IH.
  Qed.

  Lemma words_text T (e : pexp T) a : words e a -> exists s, text fmt e = head_mark ++ s /\ prints true a s /\ pure s.
  Proof.
    induction 1 as [k d D|i l r a b Hl (s & Es & Ps & Us) Hr (t & Et & Pt & Ut)|l a Hl (s & Es & Ps & Us)].
    - destruct (told_body _ _ _ D) as (b & Eb & LB & NB). exists b. split; [exact Eb|]. split; [|now apply has_no_pure].
      rewrite <- (sapp_nil b). eapply pr_dist; eauto. constructor.
    - cbn [text]. rewrite Es, Et, !strip_head, !pure_strip by assumption. eexists. split; [reflexivity|]. split.
      + apply prints_app; auto. now constructor.
      + apply pure_app; auto. rewrite <- !app_ass. apply pure_app; auto. rewrite app_ass. apply infix_pure.
    - cbn [text]. rewrite Es, !strip_head, !pure_strip by assumption. eexists. split; [reflexivity|]. split.
      + now constructor.
      + apply p_char; auto. discriminate.
  Qed.
  Lemma words_inj T (e1 e2 : pexp T) a1 a2 : words e1 a1 -> words e2 a2 -> text fmt e1 = text fmt e2 -> a1 = a2.
  Proof.
    intros H1 H2 E. destruct (words_text _ _ _ H1) as (s1 & E1 & P1 & _), (words_text _ _ _ H2) as (s2 & E2 & P2 & _).
    rewrite E1, E2 in E. apply head_cancel in E. subst s2. eapply prints_inj; eauto.
  Qed.
  Lemma words_provenance Or h w e a v : reaches Or h w -> Forall (words_told fmt Or) h -> words e a -> mem Or w (text fmt e) = Some v ->
    exists h1 w1 c h2 e', h = (h1 ++ Call Or c :: h2)%list /\ reaches Or h1 w1 /\ words e' a /\ c_obj Or c = built e' /\
      fst (sample_call Or c w1) = Ok v.
  Proof.
    intros R F D M. destruct (provenance Or h w R _ _ M) as (h1 & w1 & c & h2 & -> & R1 & K & Mc & V).
    apply Forall_app in F as [_ F]. inversion F as [|? ? T _]; subst.
    destruct (T Mc) as (e' & a' & D' & Ob & K'). exists h1, w1, c, h2, e'. repeat split; auto.
    replace a with a'; auto. eapply words_inj; eauto. congruence.
  Qed.
End Words.

Lemma told_built T k (d : dist T) : told_by k d -> built (XLeaf k) = ODist d.
Proof. intros [k' c d' P R C D|n e|]; try reflexivity. eapply text_constructor; eauto. Qed.
Lemma words_some T (e : pexp T) a : words e a -> a <> []%list.
Proof. intros [| |] E; try discriminate. now apply app_eq_nil in E as [_ E]. Qed.
Lemma words_cases T (e : pexp T) a : words e a ->
  (exists k d, e = XLeaf k /\ a = [WDist d] /\ told_by k d) \/
  (exists i l r x y, e = XInfix i l r /\ a = (x ++ WOp i :: y)%list /\ words l x /\ words r y) \/
  (exists l x, e = XNeg l /\ a = WNeg :: x /\ words l x).
Proof. intros [k d D|i l r x y Hl Hr|l x Hl]; [left|right; left|right; right]; repeat eexists; eauto. Qed.
Lemma words_one T (e : pexp T) d : words e [WDist d] -> built e = ODist d.
Proof.
  intros H. apply words_cases in H as [(k & d' & -> & E & D)|[(i & l & r & x & y & -> & E & Hl & Hr)|(l & x & -> & E & Hl)]].
  - injection E as ->. now apply told_built.
  - exfalso. apply words_some in Hl. destruct x as [|u [|v x]]; [congruence|discriminate|discriminate].
  - discriminate.
Qed.
Lemma words_two T (e : pexp T) d1 i d2 : words e [WDist d1; WOp i; WDist d2] -> built e = ODist (DComplex (ODist d1) (ODist d2) (infix_fn i)).
Proof.
  intros H. apply words_cases in H as [(k & d' & -> & E & D)|[(j & l & r & x & y & -> & E & Hl & Hr)|(l & x & -> & E & Hl)]]; try discriminate.
  destruct x as [|u [|v [|w x]]]; cbn [app] in E.
  - now apply words_some in Hl.
  - injection E as <- <- <-. cbn [built]. now rewrite (words_one _ _ _ Hl), (words_one _ _ _ Hr).
  - discriminate.
  - exfalso. injection E as _ _ _ E. destruct x; discriminate.
Qed.
Lemma words_minus T (e : pexp T) d : words e [WNeg; WDist d] -> built e = ODist (DComplex (ODist d) (OLit PNone) FNeg).
Proof.
  intros H. apply words_cases in H as [(k & d' & -> & E & D)|[(j & l & r & x & y & -> & E & Hl & Hr)|(l & x & -> & E & Hl)]]; try discriminate.
  - exfalso. destruct x as [|u [|v x]]; try discriminate. injection E as _ _ E. destruct x; discriminate.
  - injection E as <-. cbn [built]. now rewrite (words_one _ _ _ Hl).
Qed.
Lemma one_operation_built T (e1 e2 : pexp T) a : one_operation e1 -> words e1 a -> words e2 a -> built e1 = built e2.
Proof.
  intros O H1 H2. pose proof H1 as H.
  apply words_cases in H as [(k & d' & -> & -> & D)|[(j & l & r & x & y & -> & -> & Hl & Hr)|(l & x & -> & -> & Hl)]].
  - rewrite (words_one _ _ _ H1), (words_one _ _ _ H2). reflexivity.
  - destruct l, r; try contradiction. inversion Hl; subst. inversion Hr; subst.
    cbn [app] in H1, H2. rewrite (words_two _ _ _ _ _ H1), (words_two _ _ _ _ _ H2). reflexivity.
  - destruct l; try contradiction. inversion Hl; subst.
    rewrite (words_minus _ _ _ H1), (words_minus _ _ _ H2). reflexivity.
Qed.
Lemma one_operation_inj fmt : readable fmt -> unbracketed fmt -> forall T (e1 e2 : pexp T) a1 a2, words e1 a1 -> words e2 a2 ->
  one_operation e1 -> text fmt e1 = text fmt e2 -> built e1 = built e2.
Proof.
  intros RD UB T e1 e2 a1 a2 H1 H2 O E. assert (a1 = a2) as <- by (eapply words_inj; eauto). eapply one_operation_built; eauto.
Qed.

Section Grouping.
  Variable fmt : pv -> string.
  Hypothesis FM : forall x, no_angle (fmt x).
  Lemma strip_infix T i (l r : pexp T) : plain_names l -> plain_names r ->
    strip (text fmt (XInfix i l r)) = strip (text fmt l) ++ " " ++ infix_text i ++ " " ++ strip (text fmt r).
  Proof.
    intros Hl Hr. cbn [text]. rewrite strip_head, pure_strip; auto.
    apply pure_app; [apply strip_pure, text_good; auto|]. rewrite <- !app_ass.
    apply pure_app; [rewrite app_ass; apply infix_pure|apply strip_pure, text_good; auto].
  Qed.
  Lemma strip_neg T (l : pexp T) : plain_names l -> strip (text fmt (XNeg l)) = "-" ++ strip (text fmt l).
  Proof.
    intros Hl. cbn [text]. rewrite strip_head, pure_strip; auto. apply p_char; [discriminate|]. apply strip_pure, text_good; auto.
  Qed.
  Lemma grouping T i j (a b c : pexp T) : plain_names a -> plain_names b -> plain_names c ->
    text fmt (XInfix j (XInfix i a b) c) = text fmt (XInfix i a (XInfix j b c)).
  Proof.
    intros A B C. change (text fmt (XInfix j (XInfix i a b) c)) with
      (head_mark ++ strip (text fmt (XInfix i a b)) ++ " " ++ infix_text j ++ " " ++ strip (text fmt c)).
    change (text fmt (XInfix i a (XInfix j b c))) with
      (head_mark ++ strip (text fmt a) ++ " " ++ infix_text i ++ " " ++ strip (text fmt (XInfix j b c))).
    rewrite !strip_infix by auto. rewrite !app_ass. reflexivity.
  Qed.
  Lemma neg_grouping T i (a b : pexp T) : plain_names a -> plain_names b ->
    text fmt (XInfix i (XNeg a) b) = text fmt (XNeg (XInfix i a b)).
  Proof.
    intros A B. change (text fmt (XInfix i (XNeg a) b)) with
      (head_mark ++ strip (text fmt (XNeg a)) ++ " " ++ infix_text i ++ " " ++ strip (text fmt b)).
    change (text fmt (XNeg (XInfix i a b))) with (head_mark ++ "-" ++ strip (text fmt (XInfix i a b))).
    rewrite strip_neg, strip_infix by auto. rewrite !app_ass. reflexivity.
  Qed.
End Grouping.

Lemma unary_unbracketed : unbracketed unary.
Proof.
  intros v L. destruct v as [z|[q| | |]|[|]|s|]; simpl in L; try contradiction; split; apply has_not;
    try reflexivity; cbn [unary]; rewrite ?has_app, ?ztext_has, ?bars_has by discriminate; reflexivity.
Qed.
