(** Users' programs that sample expressions. *)
From Verif Require Import Base M_Weights M_Values M_Sampler M_Ops M_Bayesnet SpecWeights SpecShare SpecProgram SpecLarge SpecIndep SpecColumns.
Open Scope Q_scope.

(** A script makes single choices and samples expressions, [x = sq.sample(e)] or [x = ~e]; what
    it does next may depend on all results. *)
Inductive script (A : Type) : Type :=
| Done (a : A)
| Ask (c : choice) (next : pv -> script A)
| Sample (e : dexp) (next : Q -> script A).
Arguments Done {A}. Arguments Ask {A}. Arguments Sample {A}.
(** Running it with the library. *)
Definition sample_once Or (e : dexp) : M (state (G Or)) Q :=
  let! v := smp Or (obj_of e) 1 None None in
  match v with Scalar x => if is_number x then ret (Qred (value x)) else raise TypeError | Arr _ => raise Unmodelled end.
Fixpoint run_script Or {A} (p : script A) : M (state (G Or)) A :=
  match p with
  | Done a => ret a
  | Ask c next => let! v := make Or c in run_script Or (next v)
  | Sample e next => let! x := sample_once Or e in run_script Or (next x)
  end.
Definition script_model Or (p : script Q) : M (state (G Or)) (obj (G Or)) := let! x := run_script Or p in ret (OLit (PFlt (Fin x))).
(** Its exact law is that of a program of choices. *)
Fixpoint choices {A} (p : script A) : prog A :=
  match p with
  | Done a => Return a
  | Ask c next => Choose c (fun v => choices (next v))
  | Sample e next => after (prog_of e) (fun x => choices (next (Qred x)))
  end.
(** At most [L] draws on any path, with at most [c] results in all. *)
Fixpoint script_fits {A} (p : script A) (L c : nat) : Prop :=
  match p with
  | Done _ => True
  | Ask ch next => proper ch /\ exists L' c', L = S L' /\ c = (length (law ch) + c')%nat /\ forall v, script_fits (next v) L' c'
  | Sample e next => sound e /\ exists L' c', L = (draws e + L')%nat /\ c = (outcomes e + c')%nat /\ forall x, script_fits (next x) L' c'
  end.
