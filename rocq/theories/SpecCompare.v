(** Comparisons of expressions. *)
From Verif Require Import Base M_Weights M_Values M_Sampler M_Ops SpecWeights SpecSampler SpecOps SpecShare SpecProgram SpecLarge SpecIndep SpecColumns.
Open Scope Q_scope.

Definition comparison (o : opn) : Prop := o = Lt \/ o = Le \/ o = Gt \/ o = Ge.
Definition holds (o : opn) (x y : Q) : bool := match compare o x y with Some c => c | None => false end.
(** [a < b], [a <= b], [a > b], [a >= b]. *)
Definition question {T} (o : opn) (a b : dexp) : obj T := ODist (DComplex (obj_of a) (obj_of b) (FOp o)).
(** Its program: each side makes its own choices. *)
Definition duel (o : opn) (a b : dexp) : prog bool :=
  after (prog_of a) (fun x => after (prog_of b) (fun y => Return (holds o x y))).
(** The chance that it holds. *)
Definition odds_of (o : opn) (a b : dexp) : Q := chance (duel o a b) (fun h => h).
Definition is_bool (v : pv) : bool := match v with PBool _ => true | _ => false end.
Definition truth (v : pv) : bool := match v with PBool h => h | _ => false end.
(** The [n] samples in state [s] are [n] truth values with the property [P]. *)
Definition answers_in Or (o : obj (G Or)) (n : nat) (P : list bool -> bool) (s : state (G Or)) : bool :=
  match fst (smp Or o n None None s) with
  | Ok v => Nat.eqb (length (elems v)) n && forallb is_bool (elems v) && P (map truth (elems v))
  | Err _ => false
  end.
Definition yes (h : bool) : Q := if h then 1 else 0.
(** The share of [True] is within [e] of [y]. *)
Definition share_near (n : nat) (e y : Q) (hs : list bool) : bool := negb (far e (total (map yes hs) / qnat n) y).
Definition opposite (o : opn) : opn := match o with Lt => Ge | Le => Gt | Gt => Le | Ge => Lt | _ => o end.
Definition mirrored (o : opn) : opn := match o with Lt => Gt | Le => Ge | Gt => Lt | Ge => Le | _ => o end.
