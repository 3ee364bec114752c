(** [n] samples of an expression at once. *)
From Verif Require Import Base M_Weights M_Values M_Sampler M_Ops SpecWeights SpecSampler SpecOps SpecShare SpecProgram SpecLarge SpecIndep.
Open Scope Q_scope.

(** Programs one after the other, results collected. *)
Fixpoint collect {A} (ps : list (prog A)) : prog (list A) :=
  match ps with
  | [] => Return []
  | p :: ps' => after p (fun a => after (collect ps') (fun l => Return (a :: l)))
  end.
Fixpoint zip (f : Q -> Q -> Q) (xs ys : list Q) : list Q :=
  match xs, ys with x :: xs', y :: ys' => f x y :: zip f xs' ys' | _, _ => [] end.
(** The first entry of the column picked first, the second entry of the column picked second, ... *)
Fixpoint chosen (picks : list nat) (cols : list (list Q)) : list Q :=
  match picks with
  | [] => []
  | i :: picks' => hd 0 (nth i cols []) :: chosen picks' (map (@tl Q) cols)
  end.
Definition pick_branch (l : list (Q * dexp)) : prog nat :=
  Choose (branches l) (fun v => Return (match v with PInt i => Z.to_nat i | _ => 0%nat end)).
(** The order in which [n] samples are drawn: the left operand [n] times, then the right one;
    up to 100 samples of a mixture one by one, more by drawing all components [n] times. *)
Fixpoint columns (n : nat) (e : dexp) : prog (list Q) :=
  match e with
  | XNum x => Return (repeat x n)
  | XChoice c => repeated n (prog_of e)
  | XOp o a b => after (columns n a) (fun xs => after (columns n b) (fun ys => Return (zip (exact o) xs ys)))
  | XMix l => if Nat.leb n 100 then repeated n (prog_of e)
              else after (collect (map (fun e => columns n (snd e)) l)) (fun cols =>
                   after (repeated n (pick_branch l)) (fun picks => Return (chosen picks cols)))
  end.
(** The most choices one sample takes if all components of mixtures are sampled, and the
    number of results they have. *)
Fixpoint work (e : dexp) : nat :=
  match e with
  | XNum _ => 0
  | XChoice _ => 1
  | XOp _ a b => work a + work b
  | XMix l => S (fold_right (fun e m => work (snd e) + m) 0 l)
  end%nat.
Fixpoint spread (e : dexp) : nat :=
  match e with
  | XNum _ => 0
  | XChoice c => length (law c)
  | XOp _ a b => spread a + spread b
  | XMix l => length l + fold_right (fun e m => spread (snd e) + m) 0 l
  end%nat.

(** The generator turns the numbers [ahead g 0], [ahead g 1], ... into draws, also when asked
    for many uniform draws at once. *)
Definition reads_all Or (N : nat) (ahead : G Or -> nat -> nat) : Prop :=
  reads Or N ahead /\
  forall n g, exists us g', drawf Or (RUniform 0 1) n g = (Ok us, g') /\ Forall2 (fun u i => u == grid N (ahead g i)) us (seq 0 n) /\
    forall i, ahead g' i = ahead g (n + i)%nat.

Definition is_number (v : pv) : bool := match v with PInt _ | PFlt (Fin _) => true | _ => false end.
(** The [n] samples in state [s] are [n] numbers with the property [P]. *)
Definition samples_in Or (o : obj (G Or)) (n : nat) (P : list Q -> bool) (s : state (G Or)) : bool :=
  match fst (smp Or o n None None s) with
  | Ok v => Nat.eqb (length (elems v)) n && forallb is_number (elems v) && P (map value (elems v))
  | Err _ => false
  end.
Definition of_number_lists (P : list Q -> bool) : Prop := forall xs ys, Forall2 Qeq xs ys -> P xs = P ys.
(** ... whose mean is within [e] of [y]. *)
Definition mean_near (n : nat) (e y : Q) (xs : list Q) : bool := negb (far e (total xs / qnat n) y).
