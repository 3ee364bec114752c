(** The worked examples of README.md, written as programs of single choices. *)
From Verif Require Import Base M_Weights M_Values M_Sampler M_Ops SpecShare SpecProgram.
Open Scope Q_scope.

(** The probability of [find] when [given] holds. *)
Definition chance_given {A} (p : prog A) (find given : A -> bool) : Q :=
  chance p (fun a => given a && find a) / chance p given.
Definition is_true (v : pv) : bool := match v with PBool b => b | PInt z => negb (z =? 0)%Z | _ => false end.
Definition is_str (t : string) (v : pv) : bool := match v with PStr x => String.eqb x t | _ => false end.

(** README.md:262-280, with any three probabilities: (cancer, mammography). *)
Definition mammography (prior lh lnh : Q) : prog (bool * bool) :=
  Choose (CBernoulli prior) (fun cancer =>
  Choose (CEvent (if is_true cancer then lh else lnh)) (fun m =>
  Return (is_true cancer, is_true m))).

(** README.md:353-384. *)
Record alarm_day : Type := mkDay { burglary : bool; earthquake : bool; alarm : bool; john : bool; mary : bool }.
Definition p_alarm_goes_off (b e : bool) : Q :=
  if b then if e then 95#100 else 94#100 else if e then 29#100 else 1#1000.
Definition p_john_calls (a : bool) : Q := if a then 9#10 else 5#100.
Definition p_mary_calls (a : bool) : Q := if a then 7#10 else 1#100.
Definition alarm_net : prog alarm_day :=
  Choose (CEvent (1#1000)) (fun b =>
  Choose (CEvent (2#1000)) (fun e =>
  Choose (CEvent (p_alarm_goes_off (is_true b) (is_true e))) (fun a =>
  Choose (CEvent (p_john_calls (is_true a))) (fun j =>
  Choose (CEvent (p_mary_calls (is_true a))) (fun m =>
  Return (mkDay (is_true b) (is_true e) (is_true a) (is_true j) (is_true m))))))).

(** README.md:408-431: (won, switched). *)
Definition doors : list string := ["A"; "B"; "C"]%string.
Definition other_doors (x y : pv) : list string := filter (fun d => negb (is_str d x) && negb (is_str d y)) doors.
Definition among (l : list string) : choice := CAmong (map PStr l).
Definition monty_hall : prog (bool * bool) :=
  Choose (among doors) (fun door =>
  Choose (CEvent (1#2)) (fun switch =>
  Choose (among doors) (fun car =>
  Choose (among (other_doors door car)) (fun reveal =>
  let final := if is_true switch then match other_doors door reveal with d :: _ => PStr d | [] => PNone end else door in
  Return (match car with PStr d => is_str d final | _ => false end, is_true switch))))).

(** README.md:458-469. *)
Definition bags : prog Z :=
  let number v := match v with PInt z => z | _ => 0%Z end in
  Choose CCoin (fun c =>
  if is_str "heads" c then Choose (CDie 6) (fun v => Return (number v))
  else Choose (CAmong [PInt 4; PInt 6; PInt 10; PInt 20]) (fun sides =>
       Choose (CDie (Z.to_nat (number sides))) (fun v => Return (number v)))).
