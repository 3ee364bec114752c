(** Many runs of a program, and samples that are off. *)
From Coq Require Import Qabs.
From Verif Require Import Base M_Values M_Sampler M_Bayesnet SpecWeights SpecShare SpecProgram.
Open Scope Q_scope.

(** Two programs one after the other; [n] runs whose results are collected. *)
Fixpoint after {A B} (p : prog A) (k : A -> prog B) : prog B :=
  match p with
  | Return a => k a
  | Choose c next => Choose c (fun v => after (next v) k)
  end.
Fixpoint repeated {A} (n : nat) (p : prog A) : prog (list A) :=
  match n with
  | O => Return []
  | S n' => after p (fun a => after (repeated n' p) (fun l => Return (a :: l)))
  end.
(** Every value the program returns has the property [P]. *)
Fixpoint returns {A} (p : prog A) (P : A -> Prop) : Prop :=
  match p with
  | Return a => P a
  | Choose c next => forall w v, In (w, v) (law c) -> returns (next v) P
  end.
(** [x] is further than [e] from [y]. *)
Definition far (e x y : Q) : bool := Qlt_bool e (Qabs (x - y)).
(** The mean of [n] runs from [s]. *)
Definition mean_of_runs Or {A} (p : prog A) (f : A -> Q) (n : nat) (s : state (G Or)) : Q :=
  total (map (result Or p f) (starts Or p n s)) / qnat n.
(** [bayesnet] called in state [s] of the generator does not answer with a number
    within [e] of [y]. *)
Definition answer_off {S E Y} (body : nat -> S -> res E * S) (wire : E -> res E) (q : bcall S E Y) (w : S -> bworld S E) (e y : Q) (s : S) : bool :=
  match fst (bayesnet S E Y body wire q (w s)) with
  | Ok (OMean _ _ (PFlt (Fin x))) => far e x y
  | _ => true
  end.
(** Sampling [o] [n] times in state [s] does not give [n] numbers whose mean is within [e] of [y]. *)
Fixpoint add_up (l : list pv) : option Q :=
  match l with
  | [] => Some 0
  | PFlt (Fin x) :: l' => match add_up l' with Some t => Some (x + t) | None => None end
  | _ => None
  end.
Definition sample_off Or (o : obj (G Or)) (n : nat) (e y : Q) (s : state (G Or)) : bool :=
  match fst (smp Or o n None None s) with
  | Ok (Arr l) => match add_up l with Some t => negb (Nat.eqb (length l) n) || far e (t / qnat n) y | None => true end
  | Ok (Scalar v) => match add_up [v] with Some t => negb (Nat.eqb 1 n) || far e t y | None => true end
  | Err _ => true
  end.
