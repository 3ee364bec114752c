(** [n] samples of an expression are [n] independent copies: exact laws (C193). *)
From Coq Require Import Qabs ZArith Lia Lqa.
From Verif Require Import Base M_Weights M_Values M_Sampler M_Ops SpecWeights SpecSampler SpecOps SpecShare P_Program P_Program2 P_Large P_Indep.
From Verif Require Import SpecProgram SpecLarge SpecIndep SpecColumns.
Open Scope Q_scope.

Lemma weigh_swap {A} (q : prog A) (l : list (Q * pv)) (f : A -> pv -> Q) : expect q (fun b => weigh l (f b)) == weigh l (fun v => expect q (fun b => f b v)).
Proof.
  induction l as [|[w v] l IH]; cbn [weigh].
  - rewrite (expect_ext q _ (fun _ => 0 * 0)) by (intros; ring). rewrite expect_scale. ring.
  - rewrite (expect_ext q _ (fun b => w * f b v + 1 * weigh l (f b))) by (intros; ring). rewrite expect_linear, IH. ring.
Qed.
Lemma swap {A B} (p : prog A) (q : prog B) (f : A -> B -> Q) : expect p (fun a => expect q (fun b => f a b)) == expect q (fun b => expect p (fun a => f a b)).
Proof.
  induction p as [a|c next IH]; cbn [expect]; [reflexivity|]. rewrite weigh_swap. apply weigh_ext. intros w v _. apply IH.
Qed.
Lemma expect_repeated {A} (p : prog A) n F : expect (repeated (S n) p) F == expect p (fun a => expect (repeated n p) (fun l => F (a :: l))).
Proof. cbn [repeated]. rewrite expect_after. apply expect_ext. intros a. rewrite expect_after. reflexivity. Qed.
Lemma expect_collect {A} (p : prog A) ps F : expect (collect (p :: ps)) F == expect p (fun a => expect (collect ps) (fun l => F (a :: l))).
Proof. cbn [collect]. rewrite expect_after. apply expect_ext. intros a. rewrite expect_after. reflexivity. Qed.
Lemma zip_law (p q : prog Q) h n : forall F,
  expect (repeated n (after p (fun x => after q (fun y => Return (h x y))))) F == expect (repeated n p) (fun xs => expect (repeated n q) (fun ys => F (zip h xs ys))).
Proof.
  induction n as [|n IH]; intros F; [reflexivity|]. rewrite !expect_repeated, expect_after. apply expect_ext. intros x. rewrite expect_after. cbn [expect].
  rewrite (expect_ext (repeated n p) _ (fun xs => expect q (fun y => expect (repeated n q) (fun ys => F (zip h (x :: xs) (y :: ys)))))).
  - rewrite (swap (repeated n p) q). apply expect_ext. intros y. rewrite IH. reflexivity.
  - intros xs. rewrite expect_repeated. reflexivity.
Qed.
Lemma constant_law (x : Q) n : forall F, expect (repeated n (Return x)) F == F (repeat x n).
Proof. induction n as [|n IH]; intros F; [reflexivity|]. rewrite expect_repeated. cbn [expect]. rewrite IH. reflexivity. Qed.
(** Rows and columns of independent draws. *)
Fixpoint onto {A} (row : list A) (cols : list (list A)) : list (list A) :=
  match row, cols with x :: r, c :: cs => (x :: c) :: onto r cs | _, _ => [] end.
Lemma rows_columns {A} n (ps : list (prog A)) : forall F,
  expect (collect (map (repeated (S n)) ps)) F == expect (collect ps) (fun row => expect (collect (map (repeated n) ps)) (fun cols => F (onto row cols))).
Proof.
  induction ps as [|p ps IH]; intros F; cbn [map]; [reflexivity|]. rewrite !expect_collect, expect_repeated. apply expect_ext. intros a.
  rewrite (expect_ext (repeated n p) _ (fun l => expect (collect ps) (fun row => expect (collect (map (repeated n) ps)) (fun cols => F ((a :: l) :: onto row cols))))).
  - rewrite (swap (repeated n p) (collect ps)). apply expect_ext. intros row. rewrite expect_collect. reflexivity.
  - intros l. apply (IH (fun cols => F ((a :: l) :: cols))).
Qed.
Lemma collect_fits {A} (ps : list (prog A)) L c : Forall (fun p => fits p L c) ps -> fits (collect ps) (length ps * L) (length ps * c).
Proof.
  induction 1 as [|p ps F _ IH]; cbn [collect]; [exact I|]. cbn [length Nat.mul]. apply fits_after; [|exact F]. intros a.
  rewrite <- (Nat.add_0_r (length ps * L)), <- (Nat.add_0_r (length ps * c)). apply fits_after; [|exact IH]. intros; exact I.
Qed.
Lemma others_out (ps : list (prog Q)) L c : Forall (fun p => fits p L c) ps -> forall i, (i < length ps)%nat -> forall f,
  expect (collect ps) (fun row => f (nth i row 0)) == expect (nth i ps (Return 0)) f.
Proof.
  induction 1 as [|p ps Fp Fs IH]; intros i Hi f; [cbn in Hi; lia|]. rewrite expect_collect. destruct i as [|i]; cbn [nth].
  - apply expect_ext. intros a. apply (expect_const (collect ps) (f a) _ _ (collect_fits ps L c Fs)).
  - rewrite (expect_ext p _ (fun _ => expect (nth i ps (Return 0)) f)) by (intros a; apply IH; cbn in Hi; lia). apply (expect_const p _ L c Fp).
Qed.
Lemma collect_length {A} (ps : list (prog A)) : returns (collect ps) (fun row => length row = length ps).
Proof.
  induction ps as [|p ps IH]; cbn [collect]; [reflexivity|]. eapply returns_after; [apply (returns_all p (fun _ => True)); auto|]. intros a _.
  eapply returns_after; [exact IH|]. intros l Hl. cbn. congruence.
Qed.
Lemma expect_same {A} (p : prog A) S f g : returns p S -> (forall a, S a -> f a == g a) -> expect p f == expect p g.
Proof.
  intros H E. induction p as [a|c next IH]; cbn [expect returns] in *; [now apply E|]. apply weigh_ext. intros w v I. apply IH. eapply H, I.
Qed.
Lemma onto_nth (row : list Q) : forall cols i, length row = length cols -> (i < length row)%nat -> hd 0 (nth i (onto row cols) []) = nth i row 0.
Proof. induction row as [|x r IH]; intros [|c cs] i L H; cbn in *; try lia. destruct i; cbn; [reflexivity|]. apply IH; lia. Qed.
Lemma onto_tl (row : list Q) : forall cols, length row = length cols -> map (@tl Q) (onto row cols) = cols.
Proof. induction row as [|x r IH]; intros [|c cs] L; cbn in *; try discriminate; auto. f_equal. apply IH. congruence. Qed.
(** Drawing all columns and then picking is as good as picking and then drawing. *)
Lemma pick_law (ps : list (prog Q)) (r : prog nat) L c : Forall (fun p => fits p L c) ps -> returns r (fun i => (i < length ps)%nat) -> forall n F,
  expect (collect (map (repeated n) ps)) (fun cols => expect (repeated n r) (fun picks => F (chosen picks cols))) ==
  expect (repeated n (after r (fun i => nth i ps (Return 0)))) F.
Proof.
  intros Fs Hr. induction n as [|n IH]; intros F.
  - cbn [repeated expect chosen]. assert (FF : Forall (fun p => fits p 0 0) (map (repeated 0) ps)) by (apply Forall_forall; intros p Hp; apply in_map_iff in Hp as (q & <- & _); exact I).
    apply (expect_const _ (F []) _ _ (collect_fits _ _ _ FF)).
  - rewrite rows_columns, expect_repeated, expect_after.
    assert (LC : returns (collect (map (repeated n) ps)) (fun cols => length cols = length ps)) by (pose proof (collect_length (map (repeated n) ps)) as X; now rewrite map_length in X).
    transitivity (expect (collect ps) (fun row => expect r (fun i => expect (repeated n (after r (fun i => nth i ps (Return 0)))) (fun l => F (nth i row 0 :: l))))).
    + apply (expect_same (collect ps) _ _ _ (collect_length ps)). intros row Hrow.
      transitivity (expect (collect (map (repeated n) ps)) (fun cols => expect r (fun i => expect (repeated n r) (fun picks => F (nth i row 0 :: chosen picks cols))))).
      * apply (expect_same _ _ _ _ LC). intros cols Hc. rewrite expect_repeated. apply (expect_same r _ _ _ Hr). intros i Hi. apply expect_ext. intros picks.
        cbn [chosen]. rewrite onto_nth, onto_tl by lia. reflexivity.
      * rewrite swap. apply expect_ext. intros i. apply (IH (fun l => F (nth i row 0 :: l))).
    + rewrite swap. apply (expect_same r _ _ _ Hr). intros i Hi.
      apply (others_out ps L c Fs i Hi (fun x => expect (repeated n (after r (fun i => nth i ps (Return 0)))) (fun l => F (x :: l)))).
Qed.
Lemma collect_same (ps qs : list (prog (list Q))) : Forall2 (fun p q => forall F, expect p F == expect q F) ps qs -> forall F, expect (collect ps) F == expect (collect qs) F.
Proof.
  induction 1 as [|p q ps qs H _ IH]; intros F; [reflexivity|]. rewrite !expect_collect, H. apply expect_ext. intros a. apply IH.
Qed.
Lemma repeated_same {A} (p q : prog A) : (forall F, expect p F == expect q F) -> forall n F, expect (repeated n p) F == expect (repeated n q) F.
Proof. intros H. induction n as [|n IH]; intros F; [reflexivity|]. rewrite !expect_repeated, H. apply expect_ext. intros a. apply IH. Qed.
Lemma pick_returns l : returns (pick_branch l) (fun i => (i < length l)%nat).
Proof. cbn [pick_branch returns]. intros w v I. apply branches_in in I as (i & Hi & ->). now rewrite Nat2Z.id. Qed.
Lemma columns_law e : sound e -> forall n F, expect (columns n e) F == expect (repeated n (prog_of e)) F.
Proof.
  induction e as [x|c|o a b IHa IHb|l IH] using dexp_rect'; intros S n F.
  - cbn [columns prog_of]. rewrite constant_law. reflexivity.
  - reflexivity.
  - destruct S as [Sa Sb]. cbn [columns prog_of]. rewrite zip_law, expect_after, (IHa Sa). apply expect_ext. intros xs. rewrite expect_after, (IHb Sb). apply expect_ext. reflexivity.
  - cbn [columns]. destruct (Nat.leb n 100); [reflexivity|]. destruct S as (H2 & P & T & S). apply sound_parts in S. rewrite expect_after.
    set (ps := map (fun e => prog_of (snd e)) l).
    transitivity (expect (collect (map (repeated n) ps)) (fun cols => expect (repeated n (pick_branch l)) (fun picks => F (chosen picks cols)))).
    + rewrite (collect_same (map (fun e => columns n (snd e)) l) (map (repeated n) ps)).
      * apply expect_ext. intros cols. rewrite expect_after. reflexivity.
      * unfold ps. rewrite map_map. clear -IH S. induction l as [|e l IHl]; cbn; constructor; inversion IH; inversion S; subst; [intros; auto|auto].
    + set (L := fold_right (fun e m => Nat.max (draws (snd e)) m) 0%nat l). set (c := fold_right (fun e m => Nat.max (outcomes (snd e)) m) 0%nat l).
      rewrite (pick_law ps (pick_branch l) L c).
      * apply repeated_same. intros G. rewrite expect_after. cbn [pick_branch prog_of expect]. apply weigh_ext. intros w v I. apply branches_in in I as (i & Hi & ->). reflexivity.
      * apply Forall_forall. intros p Hp. apply in_map_iff in Hp as (e & <- & Ie). rewrite Forall_forall in S. eapply fits_more; [apply fits_prog, (S e Ie)|now apply max_part|now apply (max_part outcomes)].
      * unfold ps. rewrite map_length. apply pick_returns.
Qed.
(** The size of these programs. *)
Lemma draws_work e : (draws e <= work e)%nat /\ (outcomes e <= spread e)%nat.
Proof.
  induction e as [x|c|o a b IHa IHb|l IH] using dexp_rect'; cbn [draws work outcomes spread]; try lia.
  assert (fold_right (fun e m => Nat.max (draws (snd e)) m) 0 l <= fold_right (fun e m => work (snd e) + m) 0 l /\
          fold_right (fun e m => Nat.max (outcomes (snd e)) m) 0 l <= fold_right (fun e m => spread (snd e) + m) 0 l)%nat; [|lia].
  induction IH; cbn [fold_right]; lia.
Qed.
Lemma fits_columns e : sound e -> forall n, fits (columns n e) (n * work e) (n * spread e).
Proof.
  assert (RP : forall e, sound e -> forall n, fits (repeated n (prog_of e)) (n * work e) (n * spread e)).
  { intros e0 S n. destruct (draws_work e0). eapply fits_more; [apply fits_repeated, fits_prog, S| |]; apply Nat.mul_le_mono_l; auto. }
  induction e as [x|c|o a b IHa IHb|l IH] using dexp_rect'; intros S n.
  - exact I.
  - now apply RP.
  - destruct S as [Sa Sb]. cbn [columns work spread]. rewrite !Nat.mul_add_distr_l. apply fits_after; [|auto]. intros xs.
    rewrite <- (Nat.add_0_r (n * work b)), <- (Nat.add_0_r (n * spread b)). apply fits_after; [|auto]. intros; exact I.
  - pose proof S as S0. cbn [columns]. destruct (Nat.leb n 100); [now apply RP|]. destruct S as (H2 & P & T & S). apply sound_parts in S.
    assert (FC : fits (collect (map (fun e => columns n (snd e)) l)) (n * fold_right (fun e m => work (snd e) + m)%nat 0%nat l)%nat (n * fold_right (fun e m => spread (snd e) + m)%nat 0%nat l)%nat).
    { clear -IH S. induction l as [|e l IHl]; cbn [map collect]; [exact I|]. inversion IH; inversion S; subst. cbn [fold_right]. rewrite !Nat.mul_add_distr_l. apply fits_after; [|auto]. intros xs.
      rewrite <- (Nat.add_0_r (n * fold_right (fun e m => work (snd e) + m)%nat 0%nat l)%nat), <- (Nat.add_0_r (n * fold_right (fun e m => spread (snd e) + m)%nat 0%nat l)%nat). apply fits_after; [|auto]. intros; exact I. }
    assert (FP : fits (repeated n (pick_branch l)) (n * 1) (n * length l)).
    { apply fits_repeated. split; [now apply branches_proper|]. exists 0%nat, 0%nat. split; [reflexivity|]. split; [rewrite branches_length; lia|]. intros; exact I. }
    assert (FQ : forall cols, fits (after (repeated n (pick_branch l)) (fun picks => Return (chosen picks cols))) (n * 1 + 0) (n * length l + 0)).
    { intros cols. apply fits_after; [|exact FP]. intros; exact I. }
    cbn [work spread]. eapply fits_more; [apply (fits_after _ _ _ _ FQ _ _ FC)|rewrite Nat.mul_succ_r; lia|rewrite Nat.mul_add_distr_l; lia].
Qed.
