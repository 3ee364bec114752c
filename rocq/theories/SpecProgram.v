(** Users' programs built from single random choices, and their exact probabilities. *)
From Verif Require Import Base M_Weights M_Values M_Sampler M_Ops M_Bayesnet SpecWeights SpecShare.
Open Scope Q_scope.

(** [sq.event(p)], [~sq.bernoulli(p)], [~sq.coin()], [~sq.die(n)], [~sq.discrete([[w, v], ...])]
    and [~sq.discrete([v, ...])]. *)
Inductive choice : Type :=
| CEvent (p : Q)
| CBernoulli (p : Q)
| CCoin
| CDie (n : nat)
| CDiscrete (l : list (Q * pv))
| CAmong (l : list pv).
(** The results a choice can have, with their probabilities. *)
Definition law (c : choice) : list (Q * pv) :=
  match c with
  | CEvent p => [(p, PBool true); (1 - p, PBool false)]
  | CBernoulli p => [(p, PInt 1); (1 - p, PInt 0)]
  | CCoin => [(1#2, PStr "heads"); (1#2, PStr "tails")]
  | CDie n => map (fun i => (1 / qnat n, PInt (Z.of_nat i))) (seq 1 n)
  | CDiscrete l => l
  | CAmong l => map (fun v => (1 / qnat (length l), v)) l
  end.
Definition proper (c : choice) : Prop :=
  match c with
  | CEvent p | CBernoulli p => 0 <= p /\ p <= 1
  | CCoin => True
  | CDie n => (2 <= n)%nat
  | CDiscrete l => l <> [] /\ positive (map fst l) /\ total (map fst l) == 1
  | CAmong l => l <> [] /\ (length l < 100)%nat
  end.

(** A program makes choices, each depending on the results so far, and returns a value. *)
Inductive prog (A : Type) : Type :=
| Return (a : A)
| Choose (c : choice) (next : pv -> prog A).
Arguments Return {A}. Arguments Choose {A}.
Fixpoint weigh (l : list (Q * pv)) (f : pv -> Q) : Q :=
  match l with [] => 0 | (w, v) :: l' => w * f v + weigh l' f end.
(** The probability that the value has the property [P]. *)
Fixpoint chance {A} (p : prog A) (P : A -> bool) : Q :=
  match p with
  | Return a => if P a then 1 else 0
  | Choose c next => weigh (law c) (fun v => chance (next v) P)
  end.
(** The expected value of [f]. *)
Fixpoint expect {A} (p : prog A) (f : A -> Q) : Q :=
  match p with
  | Return a => f a
  | Choose c next => weigh (law c) (fun v => expect (next v) f)
  end.
(** [a] is reached by results of positive probability. *)
Fixpoint possible {A} (p : prog A) (a : A) : Prop :=
  match p with
  | Return b => b = a
  | Choose c next => exists w v, In (w, v) (law c) /\ 0 < w /\ possible (next v) a
  end.
(** At most [L] choices are made on any path, and they have at most [c] results in all. *)
Fixpoint fits {A} (p : prog A) (L c : nat) : Prop :=
  match p with
  | Return _ => True
  | Choose ch next => proper ch /\ exists L' c', L = S L' /\ c = (length (law ch) + c')%nat /\
                      forall w v, In (w, v) (law ch) -> fits (next v) L' c'
  end.

(** Running a program with the library. *)
Section Run.
  Variable Or : oracle.
  Notation St := (state (G Or)).
  Definition one (k : leaf) : M St pv :=
    let! v := smp Or (ODist (DLeaf k None None)) 1 None None in
    match v with Scalar x => ret x | Arr _ => raise Unmodelled end.
  Definition make (c : choice) : M St pv :=
    match c with
    | CEvent p => let! b := event_occurs Or (OLit (PFlt (Fin p))) in ret (PBool b)
    | CBernoulli p => one (LBernoulli p)
    | CCoin => one LCoin
    | CDie n => one (LDie (Z.of_nat n) None)
    | CDiscrete l => one (LCatList (map (fun e => IPair (Num (fst e)) (snd e)) l))
    | CAmong l => one (LCatList (map IPlain l))
    end.
  Fixpoint run {A} (p : prog A) : M St A :=
    match p with
    | Return a => ret a
    | Choose c next => let! v := make c in run (next v)
    end.

  (** A model function that runs the program and returns a number. *)
  Definition model_of (p : prog Q) : M St (obj (G Or)) := let! x := run p in ret (OLit (PFlt (Fin x))).

  (** The generator turns the numbers [ahead g 0], [ahead g 1], ... below [N] into draws. *)
  Definition reads (N : nat) (ahead : G Or -> nat -> nat) : Prop :=
    (forall g i, (ahead g i < N)%nat) /\
    (forall g, exists u g', drawf Or (RUniform 0 1) 1 g = (Ok [u], g') /\ u == grid N (ahead g 0%nat) /\
       forall i, ahead g' i = ahead g (S i)) /\
    (forall lo hi g, (lo < hi)%Z -> exists g', drawi Or (RInt lo hi) 1 g =
       (Ok [lo + Z.of_nat (ahead g 0%nat) * (hi - lo) / Z.of_nat N]%Z, g') /\ forall i, ahead g' i = ahead g (S i)).
  (** The next [L] of those numbers. *)
  Definition coming (ahead : G Or -> nat -> nat) (L : nat) (s : St) : list nat := map (ahead (rng s)) (seq 0 L).
  (** A run started in [s] returns a value with the property [P]. *)
  Definition ends_in {A} (p : prog A) (P : A -> bool) (s : St) : bool :=
    match fst (run p s) with Ok a => P a | Err _ => false end.
  (** The number [f] of the value that a run started in [s] returns. *)
  Definition result {A} (p : prog A) (f : A -> Q) (s : St) : Q :=
    match fst (run p s) with Ok a => f a | Err _ => 0 end.
  (** The states in which [n] runs in a row begin. *)
  Fixpoint starts {A} (p : prog A) (n : nat) (s : St) : list St :=
    match n with O => [] | S n' => s :: starts p n' (snd (run p s)) end.
End Run.
(** Sequences of [L] numbers below [N]; a list that has each of them once. *)
Definition sequence (N L : nat) (l : list nat) : Prop := length l = L /\ Forall (fun k => (k < N)%nat) l.
Definition each_once (N L : nat) (ls : list (list nat)) : Prop := NoDup ls /\ forall l, In l ls <-> sequence N L l.
(** A call of [bayesnet] for the mean of the number [f] where [given] holds. *)
Definition averages {S E Y} (q : bcall S E Y) (f : E -> Q) (given : E -> bool) : Prop :=
  q_find _ _ _ q = Some (fun e => Ok (PFlt (Fin (f e)))) /\ q_cond _ _ _ q = Some (fun e => Ok (given e)) /\
  q_reduce _ _ _ q = None /\ q_raw _ _ _ q = false.
(** [f] where [given] holds, else 0. *)
Definition only {E} (given : E -> bool) (f : E -> Q) (e : E) : Q := if given e then f e else 0.
