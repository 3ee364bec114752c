(** Lemmas about the sampler: induction principle, unfolding equations and the
    number of samples. *)
From Verif Require Import Base M_Weights P_Weights M_Pick M_Values M_Sampler SpecSampler.
Open Scope Q_scope.

(* ------------------------------------------------------------------ *)
(** * Induction over objects *)
Section Ind.
  Context {T : Type}.
  Variable P : obj T -> Prop.
  Variable R : dist T -> Prop.
  Definition fn_all (f : fn T) : Prop :=
    match f with
    | FUser1 h => forall a s o' s', h a s = (Ok (inr o'), s') -> P o'
    | FUser2 h => forall a b s o' s', h a b s = (Ok (inr o'), s') -> P o'
    | _ => True
    end.
  Hypothesis H_lit : forall v, P (OLit v).
  Hypothesis H_call : forall f, (forall s o' s', f s = (Ok o', s') -> P o') -> P (OCall f).
  Hypothesis H_dist : forall d, R d -> P (ODist d).
  Hypothesis H_other : P OOther.
  Hypothesis H_leaf : forall k lc rc, R (DLeaf k lc rc).
  Hypothesis H_mix : forall ws ds lc rc, Forall P ds -> R (DMixture ws ds lc rc).
  Hypothesis H_complex : forall l r f, P l -> P r -> fn_all f -> R (DComplex l r f).
  Hypothesis H_corr : forall g i ms, Forall R ms -> R (DCorr g i ms).

  Fixpoint obj_ind' (o : obj T) : P o :=
    match o with
    | OLit v => H_lit v
    | OOther => H_other
    | ODist d => H_dist d (dist_ind' d)
    | OCall f => H_call f (fun s =>
        match f s as r return (forall o' s', r = (Ok o', s') -> P o') with
        | (Ok o1, s1) => fun o' s' e =>
            match e in _ = y return match y with (Ok o2, _) => P o2 | _ => True end with
            | eq_refl => obj_ind' o1
            end
        | (Err x, s1) => fun o' s' e =>
            match e in _ = y return match y with (Ok o2, _) => P o2 | _ => True end with
            | eq_refl => I
            end
        end)
    end
  with dist_ind' (d : dist T) : R d :=
    match d with
    | DLeaf k lc rc => H_leaf k lc rc
    | DMixture ws ds lc rc =>
        H_mix ws ds lc rc
          ((fix go l : Forall P l :=
              match l with [] => Forall_nil _ | x :: xs => Forall_cons x (obj_ind' x) (go xs) end) ds)
    | DCorr g i ms =>
        H_corr g i ms
          ((fix go l : Forall R l :=
              match l with [] => Forall_nil _ | x :: xs => Forall_cons x (dist_ind' x) (go xs) end) ms)
    | DComplex l r f =>
        H_complex l r f (obj_ind' l) (obj_ind' r)
          (match f as f0 return fn_all f0 with
           | FUser1 h => fun a s =>
              match h a s as q return (forall o' s', q = (Ok (inr o'), s') -> P o') with
              | (Ok (inr o1), s1) => fun o' s' e =>
                  match e in _ = y return match y with (Ok (inr o2), _) => P o2 | _ => True end with
                  | eq_refl => obj_ind' o1
                  end
              | (Ok (inl x), s1) => fun o' s' e =>
                  match e in _ = y return match y with (Ok (inr o2), _) => P o2 | _ => True end with
                  | eq_refl => I
                  end
              | (Err x, s1) => fun o' s' e =>
                  match e in _ = y return match y with (Ok (inr o2), _) => P o2 | _ => True end with
                  | eq_refl => I
                  end
              end
           | FUser2 h => fun a b s =>
              match h a b s as q return (forall o' s', q = (Ok (inr o'), s') -> P o') with
              | (Ok (inr o1), s1) => fun o' s' e =>
                  match e in _ = y return match y with (Ok (inr o2), _) => P o2 | _ => True end with
                  | eq_refl => obj_ind' o1
                  end
              | (Ok (inl x), s1) => fun o' s' e =>
                  match e in _ = y return match y with (Ok (inr o2), _) => P o2 | _ => True end with
                  | eq_refl => I
                  end
              | (Err x, s1) => fun o' s' e =>
                  match e in _ = y return match y with (Ok (inr o2), _) => P o2 | _ => True end with
                  | eq_refl => I
                  end
              end
           | FOp _ => I | FNeg => I | FLclip => I | FRclip => I
           end)
    end.
End Ind.

(* ------------------------------------------------------------------ *)
(** * Monad lemmas *)
Section MonadFacts.
  Context {St : Type}.
  Lemma bindS_ok {A B} (m : M St A) (f : A -> M St B) s b s' :
    bindS m f s = (Ok b, s') -> exists a s1, m s = (Ok a, s1) /\ f a s1 = (Ok b, s').
  Proof.
    unfold bindS. destruct (m s) as [[a|e] s1]; intros H; [|discriminate]. eauto.
  Qed.
  Lemma bindS_run {A B} (m : M St A) (f : A -> M St B) s a s1 :
    m s = (Ok a, s1) -> bindS m f s = f a s1.
  Proof. unfold bindS. now intros ->. Qed.
  Lemma bindS_err {A B} (m : M St A) (f : A -> M St B) s e s1 :
    m s = (Err e, s1) -> bindS m f s = (Err e, s1).
  Proof. unfold bindS. now intros ->. Qed.
  Lemma bindS_ext {A B} (m m' : M St A) (f f' : A -> M St B) s :
    m s = m' s -> (forall a s1, f a s1 = f' a s1) -> bindS m f s = bindS m' f' s.
  Proof. unfold bindS. intros <- H. destruct (m s) as [[a|e] s1]; auto. Qed.
  Lemma ret_ok {A} (a b : A) (s s' : St) : ret a s = (Ok b, s') -> a = b /\ s = s'.
  Proof. unfold ret. intros H. now inversion H. Qed.
  Lemma lift_ok {A} (r : res A) (b : A) (s s' : St) : lift r s = (Ok b, s') -> r = Ok b /\ s = s'.
  Proof. unfold lift. intros H. now inversion H. Qed.
  Lemma raise_ok {A} e (b : A) (s s' : St) : raise e s = (Ok b, s') -> False.
  Proof. unfold raise. discriminate. Qed.
  Lemma replicateS_length {A} (m : M St A) n : forall s l s',
    replicateS n m s = (Ok l, s') -> length l = n.
  Proof.
    induction n; simpl; intros s l s' H.
    - apply ret_ok in H as [<- _]. reflexivity.
    - apply bindS_ok in H as (a & s1 & _ & H). apply bindS_ok in H as (l1 & s2 & H & H').
      apply ret_ok in H' as [<- _]. simpl. f_equal. eauto.
  Qed.
  Lemma seqS_length {A} (ms : list (M St A)) : forall s l s',
    seqS ms s = (Ok l, s') -> length l = length ms.
  Proof.
    induction ms; simpl; intros s l s' H.
    - apply ret_ok in H as [<- _]. reflexivity.
    - apply bindS_ok in H as (x & s1 & _ & H). apply bindS_ok in H as (l1 & s2 & H & H').
      apply ret_ok in H' as [<- _]. simpl. f_equal. eauto.
  Qed.
End MonadFacts.

Ltac inv_ok H :=
  cbv beta in H;
  match type of H with
  | bindS _ _ _ = (Ok _, _) =>
      let a := fresh "a" in let s1 := fresh "s1" in let Ha := fresh "Ha" in
      apply bindS_ok in H as (a & s1 & Ha & H); inv_ok Ha; inv_ok H
  | ret _ _ = (Ok _, _) =>
      let E := fresh "E" in let E' := fresh "E'" in
      apply ret_ok in H as [E E']; subst
  | lift _ _ = (Ok _, _) =>
      let E := fresh "E" in
      apply lift_ok in H as [H E]; subst
  | raise _ _ = (Ok _, _) => destruct (raise_ok _ _ _ _ H)
  | _ => idtac
  end.

Lemma bind_ok {A B} (x : res A) (f : A -> res B) b :
  bind x f = Ok b -> exists a, x = Ok a /\ f a = Ok b.
Proof. destruct x; simpl; [eauto|discriminate]. Qed.

Lemma mapM_length {A B} (f : A -> res B) l : forall r, mapM f l = Ok r -> length r = length l.
Proof.
  induction l; simpl; intros r H.
  - now inversion H.
  - apply bind_ok in H as (y & _ & H). apply bind_ok in H as (ys & H & E). inversion E. simpl. f_equal. auto.
Qed.
Lemma mapM_forall2 {A B} (f : A -> res B) l : forall r,
  mapM f l = Ok r -> Forall2 (fun x y => f x = Ok y) l r.
Proof.
  induction l; simpl; intros r H.
  - inversion H. constructor.
  - apply bind_ok in H as (y & Hy & H). apply bind_ok in H as (ys & H & E). inversion E. constructor; auto.
Qed.
Lemma mapM_of_forall2 {A B} (f : A -> res B) l r :
  Forall2 (fun x y => f x = Ok y) l r -> mapM f l = Ok r.
Proof. induction 1; simpl; auto. rewrite H, IHForall2. reflexivity. Qed.
Lemma zipM_length {A B C} (f : A -> B -> res C) a : forall b r,
  zipM f a b = Ok r -> length r = length a /\ length b = length a.
Proof.
  induction a; intros [|y b] r H; simpl in H; try discriminate.
  - inversion H; auto.
  - apply bind_ok in H as (c & Hc & H). apply bind_ok in H as (cs & H & E). inversion E; simpl.
    destruct (IHa _ _ H). split; f_equal; auto.
Qed.

Section Facts.
  Variable Or : oracle.
  Notation St := (state (G Or)).

  (* ---------------------------------------------------------------- *)
  (** * Unfolding equations *)

  (** Sampling of what one call of a model function returned. *)
  Definition resolve (o : obj (G Or)) : M St pv :=
    match o with
    | OLit v => ret v
    | OOther => raise Unmodelled
    | OCall _ | ODist _ => let! v := smp Or o 1%nat None None in as_scalar Or v
    end.

  Lemma smp_lit v n lc rc : smp Or (OLit v) n lc rc =
    wrap Or (None, None) (fun n => ret (lit_sample v n)) n lc rc.
  Proof. reflexivity. Qed.
  Lemma smp_other n lc rc : smp Or OOther n lc rc =
    wrap Or (None, None) (fun _ => raise (ValueError "input to sample is malformed")) n lc rc.
  Proof. reflexivity. Qed.
  Lemma smp_odist d : smp Or (ODist d) = smp_dist Or true d.
  Proof. reflexivity. Qed.
  Lemma smp_leaf b k l r : smp_dist Or b (DLeaf k l r) = wrap Or (l, r) (leaf_sample Or k).
  Proof. reflexivity. Qed.
  Lemma smp_mix b ws ds l r : smp_dist Or b (DMixture ws ds l r) =
    wrap Or (l, r) (fun n => mixture_sample Or (map (fun o (k : nat) => smp Or o k None None) ds) ws n).
  Proof. reflexivity. Qed.

  (** The second operand of a complex distribution. *)
  Definition right_sample (r : obj (G Or)) (n : nat) : M St (option val) :=
    match r with
    | OLit PNone => ret None
    | _ => let! y := smp Or r n None None in ret (Some y)
    end.
  (** Result of a user function. *)
  Definition user_result (n : nat) (x : res (val + obj (G Or)) * St) : res val * St :=
    match x with
    | (Err e, s') => (Err e, s')
    | (Ok (inl v), s') => (Ok v, s')
    | (Ok (inr o'), s') => if is_dist_or_callable o' then smp Or o' n None None s' else (Err Unmodelled, s')
    end.
  Definition fn_result (f : fn (G Or)) (n : nat) (a : val) (b : option val) : M St val := fun s =>
    match f, b with
    | FUser1 h, None => user_result n (h a s)
    | FUser2 h, Some y => user_result n (h a y s)
    | FUser1 _, Some _ | FUser2 _, None => (Err TypeError, s)
    | _, _ => (apply_fn Or f a b, s)
    end.
  Lemma smp_complex c l r f n lc rc s : smp_dist Or c (DComplex l r f) n lc rc s =
    wrap Or (None, None) (fun n =>
      let! a := smp Or l n None None in
      let! b := right_sample r n in
      fn_result f n a b) n lc rc s.
  Proof.
    unfold wrap. destruct n as [|n]; [reflexivity|].
    apply bindS_ext; [|reflexivity].
    apply bindS_ext; [reflexivity|]. intros a s1.
    apply bindS_ext; [destruct r as [[]| | |]; reflexivity|].
    intros b s2. destruct f, b; reflexivity.
  Qed.


  Definition calls (f : St -> res (obj (G Or)) * St) : nat -> M St (list (M St pv)) :=
    fix call_all (k : nat) : M St (list (M St pv)) :=
    match k with
    | O => ret []
    | S k' => fun s0 =>
        match f s0 with
        | (Err e, s1) => (Err e, s1)
        | (Ok o', s1) =>
            match call_all k' s1 with
            | (Err e, s2) => (Err e, s2)
            | (Ok rest, s2) => (Ok (resolve o' :: rest), s2)
            end
        end
    end.
  Lemma calls_eq f m : forall s0,
    calls f m s0 = bindS (replicateS m f) (fun os => ret (map resolve os)) s0.
  Proof.
    induction m; intros s0; [reflexivity|].
    change (calls f (S m) s0) with
      (match f s0 with
       | (Err e, s1) => (Err e, s1)
       | (Ok o', s1) =>
           match calls f m s1 with
           | (Err e, s2) => (Err e, s2)
           | (Ok rest, s2) => (Ok (resolve o' :: rest), s2)
           end
       end).
    cbn [replicateS]. unfold bindS at 1. unfold bindS at 1.
    destruct (f s0) as [[o'|e] s1]; [|reflexivity].
    rewrite IHm. unfold bindS at 1 2.
    destruct (replicateS m f s1) as [[os|e] s2]; reflexivity.
  Qed.
  Lemma smp_call f n lc rc s : smp Or (OCall f) n lc rc s =
    wrap Or (None, None) (fun n =>
      let! os := replicateS n f in
      let! l := seqS (map resolve os) in
      ret (simplify (np_array (fmt Or) l))) n lc rc s.
  Proof.
    destruct n as [|n]; [reflexivity|].
    change (smp Or (OCall f) (S n) lc rc s) with
      (wrap Or (None, None) (fun n s =>
        (let! rs := calls f n in
         let! l := seqS rs in
         ret (simplify (np_array (fmt Or) l))) s) (S n) lc rc s).
    unfold wrap.
    apply bindS_ext; [|reflexivity].
    unfold bindS at 1. rewrite calls_eq.
    unfold bindS. destruct (replicateS (S n) f s) as [[os|e] s1]; reflexivity.
  Qed.
End Facts.
