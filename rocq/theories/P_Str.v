(** Lemmas about the text form of distributions. *)
From Coq Require Import Ascii String.
From Verif Require Import Base M_Values M_Sampler M_Str M_Ctor SpecStr.
Open Scope string_scope.

Definition lt_char : ascii := "<"%char.
Definition soft (s : string) : Prop := match s with String c _ => c = " "%char \/ c = "="%char | "" => False end.

Inductive good : string -> Prop :=
| g_nil : good ""
| g_char c s : c <> lt_char -> good s -> good (String c s)
| g_lt s : soft s -> good s -> good (String lt_char s)
| g_head s : good s -> good (head_mark ++ s).
Inductive pure : string -> Prop :=
| p_nil : pure ""
| p_char c s : c <> lt_char -> pure s -> pure (String c s)
| p_lt s : soft s -> pure s -> pure (String lt_char s).

Lemma app_ass (a b c : string) : (a ++ b) ++ c = a ++ b ++ c.
Proof. induction a; simpl; auto. now rewrite IHa. Qed.
Lemma soft_app s t : soft s -> soft (s ++ t).
Proof. destruct s; simpl; tauto. Qed.

Lemma good_app s t : good s -> good t -> good (s ++ t).
Proof.
  induction 1; intros Ht; simpl; auto; try (constructor; auto using soft_app; fail).
Qed.
Lemma pure_good s : pure s -> good s.
Proof. induction 1; [apply g_nil|apply g_char; auto|apply g_lt; auto]. Qed.
Lemma no_angle_char c s : no_angle (String c s) -> c <> lt_char /\ no_angle s.
Proof.
  intros H. split.
  - intros ->. apply H. exists "", s. reflexivity.
  - intros (a & b & E). apply H. exists (String c a), b. simpl. now rewrite E.
Qed.
Lemma no_angle_good s : no_angle s -> good s.
Proof.
  induction s as [|c s IH]; intros H; constructor; apply no_angle_char in H as [A B]; auto.
Qed.

Lemma prefix_other c s : c <> lt_char -> String.prefix head_mark (String c s) = false.
Proof. intros H. unfold head_mark. cbn [String.prefix]. destruct (ascii_dec "<" c) as [E|E]; auto. now elim H. Qed.
Lemma prefix_soft s : soft s -> String.prefix head_mark (String lt_char s) = false.
Proof.
  intros H. destruct s as [|c s]; [reflexivity|]. unfold head_mark. cbn [String.prefix].
  destruct (ascii_dec "<" lt_char); auto.
  destruct (ascii_dec "D" c); auto. subst. destruct H; discriminate.
Qed.
Lemma strip_char c s : c <> lt_char -> strip (String c s) = String c (strip s).
Proof. intros H. unfold strip. cbn [strip_from]. now rewrite prefix_other. Qed.
Lemma strip_lt s : soft s -> strip (String lt_char s) = String lt_char (strip s).
Proof. intros H. unfold strip. cbn [strip_from]. now rewrite prefix_soft. Qed.
Lemma strip_head s : strip (head_mark ++ s) = strip s.
Proof.
  unfold strip. replace (head_mark ++ s) with (String lt_char ("Distribution> " ++ s)) by reflexivity.
  cbn [strip_from].
  assert (String.prefix head_mark (String lt_char ("Distribution> " ++ s)) = true) as -> by (simpl; destruct s; reflexivity).
  reflexivity.
Qed.
Lemma strip_soft s : soft s -> soft (strip s).
Proof.
  destruct s as [|c s]; simpl; [tauto|]. intros H. rewrite strip_char; [exact H|].
  destruct H as [-> | ->]; discriminate.
Qed.
Lemma strip_pure s : good s -> pure (strip s).
Proof.
  induction 1.
  - constructor.
  - rewrite strip_char by assumption. now constructor.
  - rewrite strip_lt by assumption. apply p_lt; auto using strip_soft.
  - rewrite strip_head. assumption.
Qed.
Lemma pure_app s t : pure s -> pure t -> pure (s ++ t).
Proof. induction 1; intros Ht; simpl; auto; [apply p_char|apply p_lt]; auto using soft_app. Qed.
Lemma pure_no_mark s : pure s -> ~ occurs_in head_mark s.
Proof.
  induction 1 as [|c s N P IH|s S P IH]; intros (a & b & E).
  - destruct a; discriminate.
  - destruct a as [|d a]; simpl in E; injection E as E1 E2; [now elim N|]. apply IH. exists a, b. exact E2.
  - destruct a as [|d a]; simpl in E.
    + injection E as E2. rewrite E2 in S. destruct S; discriminate.
    + injection E as E1 E2. apply IH. exists a, b. exact E2.
Qed.
Lemma no_angle_pure s : no_angle s -> pure s.
Proof.
  induction s as [|c s IH]; intros H; constructor; apply no_angle_char in H as [A B]; auto.
Qed.

Section Text.
  Variable fmt : pv -> string.
  Hypothesis FM : forall x, no_angle (fmt x).
  Hint Resolve good_app pure_app no_angle_good no_angle_pure pure_good strip_pure : str.

  Ltac lit := match goal with |- good ?s => let s' := eval cbv in s in
    change (good s'); repeat first [apply g_nil | apply g_char; [discriminate|]] end.
  Ltac goodt :=
    repeat first
      [ apply good_app | apply g_head
      | match goal with |- good (num_text _ _) => apply no_angle_good; apply FM end
      | match goal with |- good (fmt _) => apply no_angle_good; apply FM end
      | assumption ]; try (lit; fail).
  Lemma clip_good lc rc : good (clip_text fmt lc rc).
  Proof. unfold clip_text. destruct lc, rc; goodt. Qed.
  Lemma head_good : good head_mark.
  Proof. change (good (head_mark ++ "")). apply g_head, g_nil. Qed.
  Lemma quoted_good v : good (quoted fmt v).
  Proof. unfold quoted. destruct v; goodt. Qed.
  Lemma joined_good l : Forall good l -> good (joined l).
  Proof.
    induction l as [|x [|y r] IH]; intros H; inversion H; subst; auto; [constructor|].
    change (good (x ++ ", " ++ joined (y :: r))). apply good_app; auto. apply good_app; [lit|auto].
  Qed.
  Lemma map_good {A} (f : A -> string) l : (forall a, good (f a)) -> Forall good (map f l).
  Proof. intros H. apply Forall_map, Forall_forall. auto. Qed.
  Lemma leaf_good k : good (leaf_text fmt k).
  Proof.
    pose proof clip_good as CG. pose proof head_good as HG. pose proof quoted_good as QG.
    destruct k; unfold leaf_text, lognorm_text, t_text;
      repeat match goal with |- context [match ?x with Some _ => _ | None => _ end] => destruct x end;
      repeat match goal with |- context [if ?x then _ else _] => destruct x end;
      repeat first [apply CG | apply HG | apply QG | apply good_app
        | (apply joined_good, map_good; intros) | match goal with |- good (match ?i with CPlain _ => _ | CPair _ _ => _ end) => destruct i end
        | (apply no_angle_good; apply FM) | (lit; fail) | progress lit ].
  Qed.

  Lemma infix_pure i : pure (" " ++ infix_text i ++ " ").
  Proof.
    destruct i as [[]| |]; simpl; repeat first [apply p_nil | apply p_char; [discriminate|]
      | (apply p_lt; [simpl; auto|])].
  Qed.

  Lemma text_good {T} : forall e : pexp T, plain_names e -> good (text fmt e).
  Proof.
    fix IH 1. intros [x|k|i l r|l|name f l [r|]|ps lc rc] H; cbn [plain_names] in H; cbn [text].
    - apply no_angle_good, FM.
    - apply leaf_good.
    - destruct H as [Hl Hr]. pose proof (IH l Hl). pose proof (IH r Hr). apply g_head.
      apply good_app; [auto with str|]. rewrite <- !app_ass. apply good_app; auto with str.
      rewrite app_ass. apply pure_good, infix_pure.
    - pose proof (IH l H). apply g_head. apply good_app; [|auto with str]. repeat constructor; discriminate.
    - destruct H as (N & Hl & Hr). pose proof (IH l Hl). pose proof (IH r Hr). apply g_head.
      repeat (apply good_app; auto with str); repeat constructor; discriminate.
    - destruct H as (N & Hl). pose proof (IH l Hl). apply g_head.
      repeat (apply good_app; auto with str); repeat constructor; discriminate.
    - apply g_head. apply good_app; [lit|].
      induction ps as [|[w e] ps IHp]; [constructor|]. destruct H as [He Hp].
      pose proof (IH e He). specialize (IHp Hp).
      apply good_app; [lit|]. apply good_app; [lit|]. apply good_app; [apply no_angle_good, FM|].
      apply good_app; [lit|]. apply good_app; assumption.
  Qed.

  Lemma nested_text {T} (e : pexp T) : plain_names e -> is_operation e ->
    exists t, text fmt e = head_mark ++ t /\ ~ occurs_in head_mark t.
  Proof.
    destruct e as [x|k|i l r|l|name f l [r|]|ps lc rc]; intros H O; cbn [is_operation] in O; try contradiction;
      cbn [plain_names] in H; cbn [text]; eexists; (split; [reflexivity|]); apply pure_no_mark.
    - destruct H as [Hl Hr]. apply pure_app; [apply strip_pure, text_good; auto|].
      rewrite <- !app_ass. apply pure_app; [rewrite app_ass; apply infix_pure|apply strip_pure, text_good; auto].
    - apply pure_app; [repeat constructor; discriminate|apply strip_pure, text_good; auto].
    - destruct H as (N & Hl & Hr). repeat (apply pure_app; [try apply strip_pure, text_good; auto with str|]);
        repeat constructor; try discriminate.
    - destruct H as (N & Hl). repeat (apply pure_app; [try apply strip_pure, text_good; auto with str|]);
        repeat constructor; try discriminate.
  Qed.
End Text.

Lemma text_constructor T k c (d : dist T) : ctor_of k = Some c -> construct c = Ok d -> built (XLeaf k) = ODist d.
Proof.
  destruct k; simpl; intros H; inversion H; subst; clear H; simpl; intros H;
    repeat match type of H with
           | (if ?b then _ else _) = _ => destruct b
           | bind ?x _ = _ => destruct x; simpl in H
           end; try discriminate; inversion H; reflexivity.
Qed.
