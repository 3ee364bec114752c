(** Distributions whose text tells everything have different texts if they differ
    (C28). *)
From Coq Require Import Ascii String.
From Verif Require Import Base M_Values M_Sampler M_SampleApi M_Str M_Ctor SpecStr SpecCall SpecCache SpecCacheText P_Str P_Call P_Cache.
Open Scope string_scope.

Fixpoint has (c : ascii) (s : string) : bool :=
  match s with EmptyString => false | String d s' => Ascii.eqb c d || has c s' end.
Lemma has_app c a b : has c (a ++ b) = has c a || has c b.
Proof. induction a; simpl; auto. rewrite IHa. apply orb_assoc. Qed.
Lemma has_occurs c s : has c s = true -> occurs_in (String c "") s.
Proof.
  induction s as [|d s IH]; simpl; [discriminate|]. intros H. apply orb_true_iff in H as [H|H].
  - apply Ascii.eqb_eq in H. subst d. exists "", s. reflexivity.
  - destruct (IH H) as (a & b & ->). exists (String d a), b. reflexivity.
Qed.
Lemma not_occurs c s : ~ occurs_in (String c "") s -> has c s = false.
Proof. intros N. destruct (has c s) eqn:E; auto. exfalso. now apply N, has_occurs. Qed.

Lemma split_at c : forall a b x y, has c a = false -> has c b = false -> a ++ String c x = b ++ String c y -> a = b /\ x = y.
Proof.
  induction a as [|d a IH]; intros [|e b] x y Ha Hb E; simpl in *.
  - injection E; auto.
  - injection E as E1 E2. subst e. rewrite Ascii.eqb_refl in Hb. discriminate.
  - injection E as E1 E2. subst d. rewrite Ascii.eqb_refl in Ha. discriminate.
  - injection E as E1 E2. subst e. apply orb_false_iff in Ha as [_ Ha], Hb as [_ Hb].
    destruct (IH b x y Ha Hb E2). split; congruence.
Qed.
Lemma cancel_right c : forall a b, a ++ String c "" = b ++ String c "" -> a = b.
Proof.
  induction a as [|d a IH]; intros [|e b] E; simpl in *; auto.
  - injection E as E1 E2. destruct b; discriminate.
  - injection E as E1 E2. destruct a; discriminate.
  - injection E as E1 E2. f_equal; auto.
Qed.

Lemma commas_inj : forall l m, Forall (fun s => s <> "" /\ has "," s = false) l -> Forall (fun s => s <> "" /\ has "," s = false) m ->
  commas l = commas m -> l = m.
Proof.
  induction l as [|x l IH]; intros [|y m] Hl Hm E; auto.
  - exfalso. inversion Hm as [|? ? [N _] _]; subst. destruct m; simpl in E; [congruence|]. destruct y; [congruence|discriminate].
  - exfalso. inversion Hl as [|? ? [N _] _]; subst. destruct l; simpl in E; [congruence|]. destruct x; [congruence|discriminate].
  - inversion Hl as [|? ? [_ Fx] Hl']; subst. inversion Hm as [|? ? [_ Fy] Hm']; subst.
    destruct l as [|x' l], m as [|y' m].
    + simpl in E. congruence.
    + exfalso. cbn [commas] in E. assert (has "," x = true) by (rewrite E, has_app; simpl; apply orb_true_r). congruence.
    + exfalso. cbn [commas] in E. assert (has "," y = true) by (rewrite <- E, has_app; simpl; apply orb_true_r). congruence.
    + change (x ++ String "," (String " " (commas (x' :: l))) = y ++ String "," (String " " (commas (y' :: m)))) in E.
      destruct (split_at _ _ _ _ _ Fx Fy E) as [-> E']. f_equal. apply IH; auto. congruence.
Qed.

Section Calls.
  Variable fmt : pv -> string.
  Hypothesis RD : readable fmt.
  (** Arguments as they occur in texts. *)
  Definition neat (a : option string * pv) : Prop :=
    lowest_terms (snd a) /\ match fst a with Some k => has "," k = false /\ has "=" k = false | None => True end.

  Lemma fmt_plain v : lowest_terms v -> fmt v <> "" /\ has "," (fmt v) = false /\ has "=" (fmt v) = false.
  Proof. intros L. destruct (proj2 RD v L) as (A & B & C). repeat split; auto using not_occurs. Qed.
  Lemma arg_plain a : neat a -> render_arg fmt a <> "" /\ has "," (render_arg fmt a) = false.
  Proof.
    destruct a as [[k|] v]; intros [L K]; simpl in *; destruct (fmt_plain v L) as (A & B & C); auto.
    destruct K as [K1 K2]. split; [destruct k; discriminate|]. rewrite has_app, K1. simpl. exact B.
  Qed.
  Lemma arg_inj a b : neat a -> neat b -> render_arg fmt a = render_arg fmt b -> a = b.
  Proof.
    destruct a as [[k|] v], b as [[j|] w]; intros [L K] [L' K']; simpl in *; intros E;
      destruct (fmt_plain v L) as (_ & _ & C), (fmt_plain w L') as (_ & _ & C').
    - destruct K as [_ K], K' as [_ K']. destruct (split_at "=" k j (fmt v) (fmt w) K K' E) as [-> E2].
      apply (proj1 RD) in E2; auto. congruence.
    - exfalso. rewrite <- E, has_app in C'. simpl in C'. rewrite orb_true_r in C'. discriminate.
    - exfalso. rewrite E, has_app in C. simpl in C. rewrite orb_true_r in C. discriminate.
    - apply (proj1 RD) in E; auto. congruence.
  Qed.
  Lemma args_inj : forall l m, Forall neat l -> Forall neat m -> map (render_arg fmt) l = map (render_arg fmt) m -> l = m.
  Proof.
    induction l as [|a l IH]; intros [|b m] Hl Hm E; try discriminate; auto. simpl in E. injection E as E1 E2.
    inversion Hl; inversion Hm; subst. f_equal; [apply arg_inj|apply IH]; auto.
  Qed.
  Lemma render_inj c d : has "(" (p_name c) = false -> has "(" (p_name d) = false -> Forall neat (p_args c) -> Forall neat (p_args d) ->
    render fmt c = render fmt d -> c = d.
  Proof.
    intros Nc Nd Hc Hd E. destruct c as [nc ac], d as [nd ad]. simpl in *. unfold render in E. simpl in E.
    destruct (split_at "(" _ _ _ _ Nc Nd E) as [-> E1]. apply cancel_right in E1. f_equal.
    apply args_inj; auto. apply commas_inj; auto; apply Forall_map; eapply Forall_impl; eauto; intros; now apply arg_plain.
  Qed.

  Lemma call_name k : has "(" (p_name (the_call k)) = false.
  Proof. destruct k; reflexivity. Qed.
  Lemma call_neat k : prints_exactly k -> reduced_leaf k -> Forall neat (p_args (the_call k)).
  Proof.
    assert (forall n, reduced_opt (Some n) -> lowest_terms (num_pv n)) as RO by (intros n H; exact (H n eq_refl)).
    intros P R. unfold the_call, clip_args.
    destruct k; simpl in P; try contradiction; cbn [reduced_leaf] in R; unfold reduced in R;
      repeat match goal with H : _ /\ _ |- _ => destruct H end;
      try match goal with H : round2 ?a = ?a, H' : round2 ?b = ?b |- _ => rewrite H, ?H' end;
      try destruct lc as [lc|]; try destruct rc as [rc|]; try destruct x as [x|]; try destruct y as [y|];
      try (destruct (Qeq_bool (num_q cred) 90)); cbn [p_args app];
      repeat (apply Forall_cons; [split; cbn [fst snd]; auto; exact I|]); apply Forall_nil.
  Qed.

  Lemma joined_commas l : joined l = commas l.
  Proof. reflexivity. Qed.
  Lemma ints_inj : forall l m, map (fun z => fmt (PInt z)) l = map (fun z => fmt (PInt z)) m -> l = m.
  Proof.
    induction l as [|a l IH]; intros [|b m] E; simpl in E; try discriminate; auto. injection E as E1 E2.
    apply (proj1 RD) in E1; try exact I. injection E1 as ->. f_equal. auto.
  Qed.
  Lemma ints_plain l : Forall (fun s => s <> "" /\ has "," s = false) (map (fun z => fmt (PInt z)) l).
  Proof. apply Forall_map, Forall_forall. intros z _. destruct (fmt_plain (PInt z) I) as (A & B & _). auto. Qed.
  Definition explode_text (e : option (list Z)) : string :=
    match e with Some l => ", explodes on [" ++ joined (map (fun z => fmt (PInt z)) l) ++ "]" | None => "" end.
  Lemma die_inj n m e1 e2 : fmt (PInt n) ++ explode_text e1 = fmt (PInt m) ++ explode_text e2 -> n = m /\ e1 = e2.
  Proof.
    intros E. destruct (fmt_plain (PInt n) I) as (_ & A & _), (fmt_plain (PInt m) I) as (_ & B & _).
    assert (forall a b, fmt (PInt a) = fmt (PInt b) -> a = b) as FI
      by (intros a b H; apply (proj1 RD) in H; try exact I; now injection H).
    destruct e1 as [l1|], e2 as [l2|]; unfold explode_text in E.
    - apply (split_at ",") in E as [E1 E2]; auto. injection E2 as E2. apply cancel_right in E2. rewrite !joined_commas in E2.
      apply commas_inj in E2; auto using ints_plain. apply ints_inj in E2. split; [auto|congruence].
    - exfalso. rewrite sapp_nil in E. rewrite <- E, has_app in B. simpl in B. rewrite orb_true_r in B. discriminate.
    - exfalso. rewrite sapp_nil in E. rewrite E, has_app in A. simpl in A. rewrite orb_true_r in A. discriminate.
    - rewrite !sapp_nil in E. auto.
  Qed.
  Lemma die_text n e : leaf_text fmt (KDie n e) = head_mark ++ "Die(" ++ (fmt (PInt n) ++ explode_text e) ++ ")".
  Proof. cbn [leaf_text]. unfold explode_text. now rewrite sapp_assoc. Qed.
  Lemma call_not_die k : prints_exactly k -> p_name (the_call k) <> "Die".
  Proof. destruct k; intros P; try discriminate. Qed.
  Lemma head_cancel a b : head_mark ++ a = head_mark ++ b -> a = b.
  Proof. intros E. now inversion E. Qed.
  Lemma call_or_die k n e : prints_exactly k -> leaf_text fmt k <> leaf_text fmt (KDie n e).
  Proof.
    intros P E. rewrite text_is_call in E by auto using exact_form. rewrite die_text in E. apply head_cancel in E. unfold render in E.
    apply (split_at "(" _ "Die") in E as [E _]; auto using call_name. now apply call_not_die in E.
  Qed.
  Lemma call_or_coin k : prints_exactly k -> leaf_text fmt k <> leaf_text fmt KCoin.
  Proof.
    intros P E. rewrite text_is_call in E by auto using exact_form. change (leaf_text fmt KCoin) with (head_mark ++ "Coin") in E. apply head_cancel in E.
    apply (f_equal (has "(")) in E. unfold render in E. rewrite has_app in E. cbn [append has Ascii.eqb Bool.eqb] in E. rewrite orb_true_r in E. discriminate.
  Qed.
  Lemma die_or_coin n e : leaf_text fmt (KDie n e) <> leaf_text fmt KCoin.
  Proof. intros E. rewrite die_text in E. discriminate. Qed.

  Lemma exact_text T k1 k2 (d1 d2 : dist T) : told_by k1 d1 -> told_by k2 d2 -> leaf_text fmt k1 = leaf_text fmt k2 -> d1 = d2.
  Proof.
    intros [k1' c1 d1' P1 R1 C1 D1|n1 e1|] [k2' c2 d2' P2 R2 C2 D2|n2 e2|] E; auto.
    - rewrite !text_is_call in E by auto using exact_form. apply head_cancel in E.
      apply render_inj in E; auto using call_name, call_neat.
      pose proof (call_builds k1' c1 P1 C1) as B1. pose proof (call_builds k2' c2 P2 C2) as B2. rewrite E, B2 in B1.
      injection B1 as <-. rewrite D1 in D2. now injection D2.
    - now apply call_or_die in E.
    - now apply call_or_coin in E.
    - symmetry in E. now apply call_or_die in E.
    - rewrite !die_text in E. apply head_cancel in E. injection E as E. apply cancel_right, die_inj in E as [-> ->]. reflexivity.
    - now apply die_or_coin in E.
    - symmetry in E. now apply call_or_coin in E.
    - symmetry in E. now apply die_or_coin in E.
  Qed.

  Lemma told_provenance Or h w k (d : dist (G Or)) v : reaches Or h w -> Forall (tells fmt Or) h -> told_by k d -> mem Or w (leaf_text fmt k) = Some v ->
    exists h1 w1 c h2, h = (h1 ++ Call Or c :: h2)%list /\ reaches Or h1 w1 /\ c_obj Or c = ODist d /\ fst (sample_call Or c w1) = Ok v.
  Proof.
    intros R F D M. destruct (provenance Or h w R _ _ M) as (h1 & w1 & c & h2 & -> & R1 & K & Mc & V).
    apply Forall_app in F as [_ F]. inversion F as [|? ? T _]; subst.
    destruct (T Mc) as (k' & d' & D' & Ob & K'). exists h1, w1, c, h2. repeat split; auto.
    rewrite Ob. f_equal. symmetry. eapply exact_text; eauto. congruence.
  Qed.
End Calls.

(** A readable way of printing scalars: in unary. *)
Fixpoint bars (n : nat) : string := match n with 0%nat => "" | S k => String "1" (bars k) end.
Definition ztext (z : Z) : string := (if (z <? 0)%Z then "-" else "+") ++ bars (Z.abs_nat z).
Definition unary (v : pv) : string :=
  match v with
  | PInt z => "i" ++ ztext z
  | PFlt (Fin q) => "f" ++ ztext (Qnum q) ++ "/" ++ bars (Pos.to_nat (Qden q))
  | PFlt PInf => "Inf" | PFlt NInf => "-inf" | PFlt NaN => "nan"
  | PBool b => if b then "True" else "False"
  | PStr s => s | PNone => "None"
  end.
Lemma bars_has c n : c <> "1"%char -> has c (bars n) = false.
Proof. intros N. induction n; simpl; auto. rewrite IHn. apply Ascii.eqb_neq in N. now rewrite N. Qed.
Lemma bars_inj : forall n m, bars n = bars m -> n = m.
Proof. induction n; intros [|m] E; simpl in *; try discriminate; auto. injection E as E. auto. Qed.
Lemma ztext_has c z : c <> "1"%char -> c <> "-"%char -> c <> "+"%char -> has c (ztext z) = false.
Proof.
  intros A B C. unfold ztext. rewrite has_app, bars_has by auto.
  apply Ascii.eqb_neq in B, C. destruct (z <? 0)%Z; simpl; rewrite ?B, ?C; reflexivity.
Qed.
Lemma ztext_inj y z : ztext y = ztext z -> y = z.
Proof.
  unfold ztext. destruct (y <? 0)%Z eqn:A, (z <? 0)%Z eqn:B; simpl; intros E; try discriminate; injection E as E; apply bars_inj in E; lia.
Qed.
Lemma has_not c s : has c s = false -> ~ occurs_in (String c "") s.
Proof.
  intros H (a & b & ->). rewrite !has_app in H. simpl in H. rewrite Ascii.eqb_refl in H. simpl in H. rewrite orb_true_r in H. discriminate.
Qed.
Lemma unary_readable : readable unary.
Proof.
  split.
  - intros v w L L' E. destruct v as [z|[q| | |]|[|]|s|], w as [y|[r| | |]|[|]|t|]; simpl in L, L', E; try contradiction; try discriminate; auto.
    + injection E as E. f_equal. now apply ztext_inj.
    + injection E as E. apply (split_at "/") in E as [E1 E2]; try (apply ztext_has; discriminate).
      apply ztext_inj in E1. apply bars_inj in E2. apply Pos2Nat.inj in E2. destruct q, r. simpl in *. congruence.
  - intros v L. destruct v as [z|[q| | |]|[|]|s|]; simpl in L; try contradiction; (split; [discriminate|]); split; apply has_not;
      try reflexivity; cbn [unary]; rewrite ?has_app, ?ztext_has, ?bars_has by discriminate; reflexivity.
Qed.
