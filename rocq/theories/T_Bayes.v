(** The project's own tests of bayes.py (tests/test_bayes.py), run on the model.
    Updates of normal distributions, whose expected numbers involve the normal
    quantile, are in T_Ctor.v. *)
From Coq Require Import String Reals Lra.
From Verif Require Import Base M_Weights M_Pick M_Values M_Sampler M_Ops M_SampleApi M_Bayesnet M_Average M_Dists.
Open Scope Q_scope.

Example test_simple_bayes :
  match simple_bayes (8#10) (96#1000) (1#100) with Ok p => Qeq_bool (np_round p 2) (8#100) | Err _ => false end = true.
Proof. vm_compute. reflexivity. Qed.

(** Event functions of the tests: 0 and 1 return {"a": 1, "b": 2}, 2 returns
    {"a": 2, "b": 3}, 3 returns {"a": 4, "b": 6}, 4 alternates {"a": 1, "b": 1} and
    {"a": 2, "b": 2} (the tests draw from [discrete([1, 2])]). *)
Definition event : Type := (Z * Z)%type.
Definition fns (f s : nat) : res event * nat :=
  match f with
  | 0%nat | 1%nat => (Ok (1, 2)%Z, s) | 2%nat => (Ok (2, 3)%Z, s) | 3%nat => (Ok (4, 6)%Z, s)
  | _ => (Ok (if Nat.even s then (1, 1)%Z else (2, 2)%Z), S s)
  end.
Definition net := bayesnet nat event Z fns (fun e => Ok e).
Definition blank : bworld nat event := mkB nat event 0%nat (fun _ => None) (fun _ => None) (fun _ => None).
Definition a (e : event) : res pv := Ok (PInt (fst e)).
Definition b (e : event) : res pv := Ok (PInt (snd e)).
Definition a_is z (e : event) : res pv := Ok (PBool (fst e =? z)%Z).
Definition b_is z (e : event) : res bool := Ok (snd e =? z)%Z.
Record extra := mkX { x_cond : option (event -> res bool); x_reduce : option (list event + list pv -> res Z); x_raw : bool; x_mem : bool; x_reload : bool;
  x_dump : option string; x_load : option string; x_primary : bool; x_cores : nat }.
Definition plain := mkX None None false true false None None false 1.
Definition raw_ := mkX None None true true false None None false 1.
Definition ask f n find (x : extra) : bcall nat event Z :=
  mkBC nat event Z (Some f) n (Some find) (x_cond x) (x_reduce x) (x_raw x) (Some (x_mem x)) true true (x_reload x) (x_dump x) (x_load x) (x_primary x) (x_cores x)
    (fun k => k) (seq 0 (x_cores x)).
Definition first (c : bcall nat event Z) := fst (net c blank).
Definition after (c : bcall nat event Z) w := snd (net c w).
Definition mean_is (r : res (out event Z)) (q : Q) : bool := match r with Ok (OMean _ _ (PFlt (Fin x))) => Qeq_bool x q | _ => false end.
Definition found (r : res (out event Z)) (n : nat) (z : Z) : bool :=
  match r with Ok (OFound _ _ l) => Nat.eqb (length l) n && forallb (fun v => match v with PInt y => (y =? z)%Z | _ => false end) l | _ => false end.
Definition cached (w : bworld nat event) f : option nat := option_map snd (b_mem _ _ w (Some f)).
Definition on_file (w : bworld nat event) p : bool := is_some (b_cache _ _ w p).
Definition cond p := mkX (Some p) None false true false None None false 1.
Definition total (l : list event + list pv) : res Z :=
  match l with inr vs => Ok (fold_left (fun s v => match v with PInt z => (s + z)%Z | _ => s end) vs 0%Z) | _ => Err TypeError end.

Example test_bayesnet : mean_is (first (ask 0 100 a (mkX (Some (fun e => Ok (negb (snd e =? 0)%Z))) None false true false None None false 1))) 1 = true.
Proof. vm_compute. reflexivity. Qed.
Example test_bayesnet_noop :
  first (mkBC nat event Z None 1 None None None false (Some true) true true false None None false 1 (fun k => k) []) = Ok (ONone _ _).
Proof. reflexivity. Qed.
Example test_bayesnet_conditional :
  mean_is (first (ask 4 100 (a_is 1) plain)) (1#2) && mean_is (first (ask 4 100 (a_is 1) (cond (b_is 1)))) 1 &&
  mean_is (first (ask 4 100 (a_is 2) (cond (b_is 1)))) 0 && mean_is (first (ask 4 100 (a_is 1) (cond (b_is 2)))) 0 = true.
Proof. vm_compute. reflexivity. Qed.
Example test_bayesnet_reduce_fn_raw :
  first (ask 0 100 a (mkX None (Some total) false true false None None false 1)) = Ok (OReduced _ _ 100%Z) /\ found (first (ask 0 100 a raw_)) 100 1 = true.
Proof. split; vm_compute; reflexivity. Qed.

Example test_bayesnet_cache :
  let w1 := after (ask 0 100 a plain) blank in let w2 := after (ask 0 100 a plain) w1 in let w3 := after (ask 0 100 b plain) w2 in
  let v := after (ask 3 1000 b plain) w2 in let v2 := after (ask 3 100 a plain) v in
  (cached blank 0, cached w1 0, cached w2 0, cached w3 0) = (None, Some 100, Some 100, Some 100)%nat /\
  (cached v 0, cached v 3, cached v2 0, cached v2 3) = (Some 100, Some 1000, Some 100, Some 1000)%nat.
Proof. split; vm_compute; reflexivity. Qed.
Example test_bayesnet_reload_cache :
  cached (after (ask 0 100 b (mkX None None false true true None None false 1)) (after (ask 0 100 a plain) blank)) 0 = Some 100%nat /\
  cached (after (ask 0 100 a (mkX None None false false false None None false 1)) blank) 0 = None.
Proof. split; vm_compute; reflexivity. Qed.
Example test_bayesnet_errors :
  fst (net (ask 0 1000 a plain) (after (ask 0 100 a plain) blank)) = Err (ValueError "insufficient samples") /\
  first (ask 0 100 a (cond (b_is 3))) = Err (ValueError "insufficient samples for condition").
Proof. split; vm_compute; reflexivity. Qed.

Definition file : string := "testcache".
Example test_bayesnet_cachefile :
  let w1 := after (ask 0 100 a (mkX None None false true false (Some file) None false 1)) blank in
  on_file blank file = false /\ on_file w1 file = true /\
  found (fst (net (ask 0 100 a raw_) w1)) 100 1 && found (fst (net (ask 0 100 a (mkX (Some (b_is 2)) None true true false None None false 1)) w1)) 100 1 &&
  found (fst (net (ask 2 100 a (mkX None None true false false None (Some file) false 1)) w1)) 100 1 &&
  found (fst (net (ask 2 100 a (mkX None None true false false None None false 1)) w1)) 100 2 = true /\
  fst (net (ask 0 1000 a (mkX None None false true false None (Some file) false 1)) w1) = Err (ValueError "insufficient samples").
Proof. split; [|split; [|split]]; vm_compute; reflexivity. Qed.
Example test_bayesnet_cachefile_primary :
  let w1 := after (ask 0 100 a plain) blank in
  let w2 := after (ask 2 100 a (mkX None None false false false (Some file) None false 1)) w1 in
  let from p := ask 0 100 a (mkX None None true true false None (Some file) p 1) in
  on_file w1 file = false /\ on_file w2 file = true /\ cached w2 2 = None /\
  found (fst (net (ask 0 100 a raw_) w2)) 100 1 && found (fst (net (from false) w2)) 100 1 && found (fst (net (from true) w2)) 100 2 = true.
Proof. split; [|split; [|split]]; vm_compute; reflexivity. Qed.
Example test_bayesnet_cachefile_will_also_memcache :
  let dump m := ask 0 100 a (mkX None None true m false (Some file) None false 1) in
  let w1 := after (dump false) blank in let w2 := after (dump true) w1 in
  on_file w1 file = true /\ cached w1 0 = None /\ cached w2 0 = Some 100%nat /\ found (fst (net (dump true) w1)) 100 1 = true.
Proof. split; [|split; [|split]]; vm_compute; reflexivity. Qed.
Example test_bayesnet_multicore :
  let c := ask 0 100 a (mkX None None false true false None None false 2) in
  mean_is (first c) 1 = true /\ b_core _ _ (after c blank) 0%nat = None /\ b_core _ _ (after c blank) 1%nat = None.
Proof. split; [|split]; vm_compute; reflexivity. Qed.

Open Scope R_scope.
Example test_update_beta : forall ppf, update ppf (DBeta 1 1) (DBeta 2 2) 1 = Ok (DBeta (1 + 2) (1 + 2)).
Proof. reflexivity. Qed.
Example test_update_gamma : forall ppf, exists shape scale,
  update ppf (DGamma 2 1 None None) (DGamma 3 (3/2) None None) 1 = Ok (DGamma shape scale None None) /\ shape = 5 /\ 1 < scale < 3/2.
Proof.
  intros ppf. unfold update. repeat (destruct (Req_EM_T _ _) as [E|_]; [exfalso; lra|]).
  do 2 eexists. split; [reflexivity|]. split; [lra|]. lra.
Qed.
Example test_update_gamma_evidence_weight : forall ppf, exists shape scale,
  update ppf (DGamma 2 1 None None) (DGamma 3 2 None None) 2 = Ok (DGamma shape scale None None) /\ shape = 8.
Proof.
  intros ppf. unfold update. repeat (destruct (Req_EM_T _ _) as [E|_]; [exfalso; lra|]). do 2 eexists. split; [reflexivity|]. lra.
Qed.
Example test_update_errors : forall ppf n,
  update ppf (DOther 0) (DOther 0) 1 = Err (ValueError "type not supported.") /\
  update ppf (DNorm n) (DBeta 1 2) 1 = Err (ValueError "can only update distributions of the same type.").
Proof. split; reflexivity. Qed.
Example test_average : forall T (d e : obj T),
  average None WNone d e initial_default = (Ok (DMixture [(1#2)%Q; (1#2)%Q] [d; e] None None), initial_default).
Proof. intros. destruct d, e; reflexivity. Qed.
