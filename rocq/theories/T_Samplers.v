(** The project's own tests of samplers (tests/test_samplers.py, tests/test_dice.py),
    run on the model.  The tests replace the generator, or whole samplers, by fixed
    values; so do the oracles here. *)
From Coq Require Import String.
From Verif Require Import Base M_Weights M_Pick M_Values M_Sampler M_SampleApi M_Ops M_Ctor M_Kinds.
Open Scope Q_scope.

(** A generator that keeps a log of its calls.  Normal draws are all [a], lognormal
    draws all [b], uniform draws all [u], other draws 0. *)
Definition fake (a b u : Q) : oracle := {|
  G := list (freq + ireq);
  drawf := fun r n g => (Ok (repeat (match r with RNormal _ _ => a | RLognormal _ _ => b | RUniform _ _ => u | _ => 0 end) n), g ++ [inl r]);
  drawi := fun r n g => (Ok (repeat 0%Z n), g ++ [inr r]);
  ppf := fun _ => 1; sqrt_ := fun x => x; exp_ := fun x => x; log_ := fun x => x; pow_ := fun x _ => x;
  fmt := fun _ => ""%string; induce := fun _ cols => Ok cols; die_fuel := 0
|}.
Definition start (Or : oracle) (g : G Or) : state (G Or) := mkState g (fun _ _ => None).
Definition run_once {Or : oracle} (o : obj (G Or)) (n : nat) (lc rc : option num) (g : G Or) : res val := fst (smp Or o n lc rc (start Or g)).
Definition calls (a b u : Q) (o : obj (G (fake a b u))) : list (freq + ireq) := rng (snd (smp (fake a b u) o 1 None None (start (fake a b u) []))).
Definition got (a b u : Q) (o : obj (list (freq + ireq))) (n : nat) (lc rc : option num) : res val := @run_once (fake a b u) o n lc rc [].

Definition same_pv (x y : pv) : bool :=
  match x, y with
  | PStr s, PStr t => String.eqb s t
  | PNone, PNone => true
  | _, _ => match as_x x, as_x y with Some a, Some b => xeq a b | _, _ => false end
  end.
Definition is_value (r : res val) (x : pv) : bool := match r with Ok (Scalar y) => same_pv y x | _ => false end.
Definition are_values (r : res val) (l : list pv) : bool :=
  match r with Ok (Arr k) => Nat.eqb (length k) (length l) && forallb (fun p => same_pv (fst p) (snd p)) (combine k l) | _ => false end.
Definition is_array (r : res val) (n : nat) : bool := match r with Ok (Arr k) => Nat.eqb (length k) n | _ => false end.
Definition raises {A} (r : res A) (msg : string) : bool := match r with Err (ValueError s) => String.eqb s msg | _ => false end.

Notation dist_t := (dist (list (freq + ireq))).
Notation obj_t := (obj (list (freq + ireq))).
Definition norm (m s : Q) (lc rc : option num) : obj_t := ODist (DLeaf (LNormal m (Some s)) lc rc).
Definition norm1 := norm (3#2) (3#10).          (* norm(1, 2) *)
Definition norm2 := norm (7#2) (3#10).          (* norm(3, 4) *)
Definition lognorm1 : obj_t := ODist (DLeaf (LLognormal (35#100) (21#100)) None None).
Definition made (c : ctor) : obj_t := match construct c with Ok d => ODist d | Err _ => OOther end.

(** What reaches the generator. *)
Example test_parameters :
  map (calls 0 0 0)
    [norm1 None None; lognorm1; made (NewUniform 1 2); made (NewBinomial 10 (1#10)); made (NewBeta 10 1); made (NewTriangular 10 20 30 None None);
     made (NewExponential 10 None None); made (NewChiSquare 9); made (NewPoisson 10 None None); made (NewGamma 10 1 None None);
     made (NewGamma 10 2 None None); made (NewPareto 10); made (NewGeometric (1#10)); made (NewNorm None 2 None None); made (NewLognorm None 2 None None)]
  = [[inl (RNormal (3#2) (3#10))]; [inl (RLognormal (35#100) (21#100))]; [inl (RUniform 1 2)]; [inr (RBinom 10 (1#10))]; [inl (RBeta 10 1)]; [inl (RTri 10 20 30)];
     [inl (RExp 10)]; [inl (RChi 9)]; [inr (RPois 10)]; [inl (RGamma 10 1)]; [inl (RGamma 10 2)]; [inl (RPareto 10)]; [inr (RGeom (1#10))];
     [inl (RNormal 0 2)]; [inl (RLognormal 0 2)]].
Proof. vm_compute. reflexivity. Qed.
(** [sample(bernoulli(0.1)) == 1] when the uniform draw is 0; [pareto] adds one. *)
Example test_bernoulli_pareto :
  is_value (got 0 0 0 (made (NewBernoulli (Some (1#10)))) 1 None None) (PInt 1) && is_value (got 0 0 0 (made (NewPareto 10)) 1 None None) (PInt 1) = true.
Proof. vm_compute. reflexivity. Qed.

Example test_clips :
  forallb (fun b => b)
  [is_value (got (-100) 0 0 (norm1 None None) 1 None None) (PInt (-100));
   is_value (got (-100) 0 0 (norm1 (Some (NI 1)) None) 1 None None) (PInt 1);
   is_value (got 100 0 0 (norm1 None None) 1 None None) (PInt 100);
   is_value (got 100 0 0 (norm1 None (Some (NI 3))) 1 None None) (PInt 3);
   is_value (got 100 0 0 (norm1 (Some (NI 1)) (Some (NI 3))) 1 None None) (PInt 3);
   is_value (got 100 0 0 (norm1 None (Some (NI 3))) 1 None (Some (NI 2))) (PInt 2);
   is_value (got 100 0 0 (norm1 None (Some (NI 2))) 1 None (Some (NI 3))) (PInt 2);
   are_values (got 100 0 0 (norm1 None None) 3 None None) (repeat (PInt 100) 3);
   are_values (got 100 0 0 (norm1 None (Some (NI 3))) 3 None None) (repeat (PInt 3) 3);
   are_values (got 100 0 0 (norm1 None (Some (NI 3))) 3 None (Some (NI 2))) (repeat (PInt 2) 3);
   are_values (got 100 0 0 (norm1 None (Some (NI 2))) 3 None (Some (NI 3))) (repeat (PInt 2) 3)] = true.
Proof. vm_compute. reflexivity. Qed.

Definition const (v : pv) : obj_t := made (NewConst v).
Definition text (s : string) : pv := PStr s.
Example test_const_discrete :
  forallb (fun b => b)
  [is_value (got 0 0 0 (const (PInt 11)) 1 None None) (PInt 11);
   is_value (got 0 0 0 (ODist (DLeaf (LCatList (map (fun z => IPlain (PInt z)) [0; 1; 2]%Z)) None None)) 1 None None) (PInt 0);
   is_value (got 0 0 0 (ODist (DLeaf (LCatList [IPair (Num (9#10)) (text "a"); IPair (Num (1#10)) (text "b")]) None None)) 1 None None) (text "a");
   is_value (got 0 0 0 (ODist (DLeaf (LCatDict [(text "a", Num (9#10)); (text "b", Num (1#10))]) None None)) 1 None None) (text "a")] = true.
Proof. vm_compute. reflexivity. Qed.

Definition mix (items : varg (mitem (list (freq + ireq)))) (w rw : warg) (lc rc : option num) : obj_t :=
  match mixture items w rw lc rc with Ok d => ODist d | Err _ => OOther end.
Definition two (a b : obj_t) := VList [MPlain a; MPlain b].
Definition w28 := WList [Num (2#10); Num (8#10)].
Definition pairs (a b : obj_t) := VList [MPair (Num (2#10)) a; MPair (Num (8#10)) b].
Definition l3 := Some (NI 3).
Definition lit (v : pv) : obj_t := OLit v.
Example test_mixture :
  forallb (fun b => b)
  [is_value (got 100 0 0 (mix (two (norm1 None None) (norm2 None None)) w28 WNone None None) 1 None None) (PInt 100);
   is_value (got 100 0 0 (mix (two (norm1 None l3) (norm2 None None)) w28 WNone None None) 1 None None) (PInt 3);
   is_value (got 100 0 0 (mix (two (norm1 None None) (norm2 None None)) w28 WNone None l3) 1 None None) (PInt 3);
   is_value (got 100 0 0 (mix (two (norm1 None None) (norm2 None None)) w28 WNone None None) 1 None l3) (PInt 3);
   is_value (got 100 0 0 (mix (two (norm1 None (Some (NI 2))) (norm2 None None)) w28 WNone None l3) 1 None None) (PInt 2);
   is_value (got 100 0 0 (mix (two (norm1 None l3) (norm2 None None)) w28 WNone None None) 1 None (Some (NI 2))) (PInt 2);
   is_value (got 1 0 0 (mix (two (norm1 None None) (norm2 None None)) w28 WNone None None) 1 None None) (PInt 1);
   is_value (got 1 0 0 (mix (two (norm1 l3 None) (norm2 None None)) w28 WNone None None) 1 None None) (PInt 3);
   is_value (got 1 0 0 (mix (two (norm1 None None) (norm2 None None)) w28 WNone l3 None) 1 None None) (PInt 3);
   is_value (got 1 0 0 (mix (two (norm1 None None) (norm2 None None)) w28 WNone None None) 1 l3 None) (PInt 3);
   are_values (got 1 0 0 (mix (two (norm1 None None) (norm2 None None)) w28 WNone None None) 3 None None) (repeat (PInt 1) 3);
   are_values (got 1 0 0 (mix (two (norm1 None None) (norm2 None None)) w28 WNone l3 None) 3 None None) (repeat (PInt 3) 3);
   is_value (got 1 0 0 (mix (pairs (norm1 l3 None) (norm2 None None)) WNone WNone None None) 1 None None) (PInt 3);
   are_values (got 1 0 0 (mix (pairs (norm1 l3 None) (norm2 None None)) WNone WNone None None) 3 None None) (repeat (PInt 3) 3);
   is_value (got 1 0 0 (mix (two (lit (PInt 2)) (norm2 None None)) WNone WNone None None) 1 None None) (PInt 2);
   is_value (got 1 0 0 (mix (VList (map (fun z => MPlain (lit (PInt z))) [0; 1; 2]%Z)) WNone WNone None None) 1 None None) (PInt 0);
   is_value (got 1 0 0 (mix (VList [MPair (Num (9#10)) (lit (text "a")); MPair (Num (1#10)) (lit (text "b"))]) WNone WNone None None) 1 None None) (text "a");
   is_value (got 1 0 0 (mix (VDict [(MPlain (lit (text "a")), Num (9#10)); (MPlain (lit (text "b")), Num (1#10))]) WNone WNone None None) 1 None None) (text "a");
   is_value (got 1 0 0 (match zero_inflated (PZNum (6#10)) (norm1 None None) with Ok d => ODist d | Err _ => OOther end) 1 None None) (PInt 0)] = true.
Proof. vm_compute. reflexivity. Qed.
(** The component that is not chosen is not sampled. *)
Example test_mixture_parameters :
  map (calls 0 0 0)
    [mix (two (norm1 None None) (norm2 None None)) w28 WNone None None; mix (two (norm1 None None) (norm2 None None)) WNone (WList [Num 1; Num 1]) None None;
     mix (pairs (norm1 None None) (norm2 None None)) WNone WNone None None; mix (two lognorm1 (norm2 None None)) WNone WNone None None;
     mix (two lognorm1 (mix (two (lit (PInt 1)) (lit (PInt 3))) WNone WNone None None)) WNone WNone None None]
  = [[inl (RUniform 0 1); inl (RNormal (3#2) (3#10))]; [inl (RUniform 0 1); inl (RNormal (3#2) (3#10))]; [inl (RUniform 0 1); inl (RNormal (3#2) (3#10))];
     [inl (RUniform 0 1); inl (RLognormal (35#100) (21#100))]; [inl (RUniform 0 1); inl (RLognormal (35#100) (21#100))]].
Proof. vm_compute. reflexivity. Qed.

(** Many samples are an array of that many. *)
Example test_n_gt_1 :
  forallb (fun o => is_array (got 1 1 (1#2) o 5 None None) 5)
    [norm1 None None; lognorm1; made (NewBinomial 5 (1#10)); made (NewBeta 5 10); made (NewBernoulli (Some (1#10))); made (NewPoisson (1#10) None None);
     made (NewChiSquare 10); made (NewGamma 10 10 None None); made (NewTriangular 1 2 3 None None); made (NewT (Some (NI 1)) (Some (NI 2)) 3 90 None None);
     made (NewT None None 20 90 None None); made (NewLogT (Some (NI 1)) (Some (NI 2)) 3 90 None None); const (PInt 1); made (NewUniform 0 1);
     ODist (DLeaf (LCatList (map (fun z => IPlain (PInt z)) [1; 2; 3]%Z)) None None); mix (two (norm1 None None) (norm2 None None)) WNone WNone None None;
     made (NewGeometric (1#10)); lit (PFlt (Fin (1#10))); lit (PInt 1); lit (text "a");
     dist_ceil (ODist (op_fwd Add (DLeaf (LUniform 0 1) None None) (lit (PInt 5))));
     OCall (fun s => (Ok (ODist (DComplex (norm1 None None) (norm2 None None) (FOp Add))), s))] = true.
Proof. vm_compute. reflexivity. Qed.

Definition matmul_n (n : pv) : res val := fst (matmul (fake 0 0 0) (DLeaf (LNormal 1 (Some 2)) None None) n (start (fake 0 0 0) [])).
Example test_n :
  forallb (fun b => b)
  [is_array (matmul_n (PInt 5)) 5; is_array (matmul_n (PFlt (Fin 7))) 7; raises (matmul_n (PInt 0)) "n must be >= 1";
   is_value (got 0 0 0 (lit (PInt 4)) 1 None None) (PInt 4); is_value (got 0 0 0 (lit (PFlt (Fin (314#100)))) 1 None None) (PFlt (Fin (314#100)));
   is_value (got 0 0 0 (lit (text "a")) 1 None None) (text "a"); is_value (got 0 0 0 (lit PNone) 1 None None) PNone;
   raises (fst (sample_any (fake 0 0 0) AContainer 1 (start (fake 0 0 0) []))) "input to sample is malformed"] = true.
Proof. vm_compute. reflexivity. Qed.

Definition plus (a b : obj_t) : obj_t := ODist (DComplex a b (FOp Add)).
Example test_callables :
  forallb (fun b => b)
  [is_value (got 1 4 0 (OCall (fun s => (Ok (lit (PInt 1)), s))) 1 None None) (PInt 1);
   is_value (got 1 4 0 (OCall (fun s => (Ok (plus (norm1 None None) lognorm1), s))) 1 None None) (PInt 5);
   is_value (got 1 4 0 (OCall (fun s => (Ok (OCall (fun s => (Ok (plus (plus (norm1 None None) lognorm1) (lit (PInt 1))), s))), s))) 1 None None) (PInt 6)] = true.
Proof. vm_compute. reflexivity. Qed.

(** Arithmetic, functions and pipes. *)
Definition nrm : dist_t := DLeaf (LNormal (1#2) (Some (3#10))) None None.
Definition of_res (r : res obj_t) : obj_t := match r with Ok o => o | Err _ => OOther end.
Definition of_fn (r : res (dres (list (freq + ireq)))) : obj_t := match r with Ok (RDist o) => o | _ => OOther end.
Definition scalar1 (h : pv -> res pv) : fn (list (freq + ireq)) := pure1 (fun v => match v with Scalar x => do y <- h x; Ok (Scalar y) | Arr _ => Err TypeError end).
Definition scalar2 (h : pv -> pv -> res pv) : fn (list (freq + ireq)) :=
  pure2 (fun a b => match a, b with Scalar x, Scalar y => do z <- h x y; Ok (Scalar z) | _, _ => Err TypeError end).
Definition op (o : opn) (a b : pv) : res pv := binop (fun x _ => x) false o a b.
(** [1 - x if x > 0.5 else x], [1 + x if x > 0.5 else x], [1 - x if x > y else x] *)
Definition mirror (x : pv) : res pv := do b <- op Gt x (PFlt (Fin (1#2))); if truthy b then op Sub (PInt 1) x else Ok x.
Definition mirror2 (x : pv) : res pv := do b <- op Gt x (PFlt (Fin (1#2))); if truthy b then op Add (PInt 1) x else Ok x.
Definition mirror_xy (x y : pv) : res pv := do b <- op Gt x y; if truthy b then op Sub (PInt 1) x else Ok x.
Example test_math :
  forallb (fun b => b)
  [is_value (got 100 0 0 (plus (ODist nrm) (norm1 None None)) 1 None None) (PInt 200);
   is_value (got 10 100 0
     (plus (plus (plus (ODist (DComplex (ODist (op_refl Pow (lit (PInt 2)) nrm)) (lit (PInt 48)) (FOp Sub))) (lit (PInt 2)))
             (ODist (DComplex lognorm1 (lit (PInt 11)) (FOp Div)))) (lit (PInt 8))) 1 None None)
     (PFlt (Fin (1024 - 48 + 2 + (100 # 11) + 8)));
   is_value (got 100 0 0 (ODist (op_eq nrm (norm1 None None))) 1 None None) (PBool true);
   is_value (got 10 0 0 (rclip_d (ODist nrm) (Some (NI 2))) 1 None None) (PInt 2);
   is_value (got 10 0 0 (lclip_d (ODist nrm) (Some (NI 2))) 1 None None) (PInt 10);
   is_value (got (16#10) 0 0 (dist_round (rclip_d (ODist nrm) (Some (NI 10))) 0) 1 None None) (PInt 2);
   is_value (got 10 0 0 (of_fn (dist_fn (AObj (ODist nrm)) (AFun (scalar1 mirror)) ANone)) 1 None None) (PInt (-9));
   is_value (got 10 0 0 (of_fn (dist_fn (AObj (ODist nrm)) (AObj (norm1 None None)) (AFun (scalar2 mirror_xy)))) 1 None None) (PInt 10);
   is_value (got 10 0 0 (of_fn (dist_fn (AObj (ODist nrm)) (AFuns [scalar1 mirror; scalar1 mirror2]) ANone)) 1 None None) (PInt (-9));
   is_value (got 10 20 0 (dist_max2 (ODist nrm) lognorm1) 1 None None) (PInt 20);
   is_value (got 10 20 0 (dist_min2 (ODist nrm) lognorm1) 1 None None) (PInt 10);
   is_value (got (31415#10000) 0 0 (dist_round (ODist nrm) 0) 1 None None) (PInt 3);
   is_value (got (31415#10000) 0 0 (dist_round (ODist nrm) 2) 1 None None) (PFlt (Fin (314#100)));
   is_value (got (31415#10000) 0 0 (dist_ceil (ODist nrm)) 1 None None) (PInt 4);
   is_value (got (31415#10000) 0 0 (dist_floor (ODist nrm)) 1 None None) (PInt 3);
   is_value (got 10 0 0 (lclip_d (ODist nrm) (Some (NF (1#2)))) 1 None None) (PInt 10);
   is_value (got 10 0 0 (rclip_d (ODist nrm) (Some (NF (1#2)))) 1 None None) (PFlt (Fin (1#2)));
   is_value (got 10 0 0 (clip_d (ODist nrm) (Some (NF (1#2))) (Some (NF (9#10)))) 1 None None) (PFlt (Fin (9#10)))] = true.
Proof. vm_compute. reflexivity. Qed.

(** ** Caches.  A generator whose draws are 1, 2, 3, ... *)
Definition counting : oracle := {|
  G := nat;
  drawf := fun _ n g => (Ok (map (fun i => inject_Z (Z.of_nat i)) (seq (S g) n)), (g + n)%nat);
  drawi := fun _ n g => (Ok (map Z.of_nat (seq (S g) n)), (g + n)%nat);
  ppf := fun _ => 1; sqrt_ := fun x => x; exp_ := fun x => x; log_ := fun x => x; pow_ := fun x _ => x;
  fmt := fun _ => ""%string; induce := fun _ cols => Ok cols; die_fuel := 0
|}.
Definition ask (key : string) (mem reload : bool) (dump load : option string) (primary : bool) : call counting :=
  mkCall counting (ODist (DLeaf (LNormal 1 (Some 2)) None None)) key 1 None None mem reload dump load primary 1 (fun _ => start counting 0%nat) [].
Definition ask_none (load : option string) : call counting :=
  mkCall counting (OLit PNone) "None" 1 None None false false None load false 1 (fun _ => start counting 0%nat) [].
Definition w0 : world counting := mkWorld counting (start counting 0%nat) (fun _ => None) (fun _ => None).
(** Results of a list of calls one after another. *)
Fixpoint answers (l : list (call counting)) (w : world counting) : list (res val) :=
  match l with [] => [] | c :: l' => let (r, w') := sample_call counting c w in r :: answers l' w' end.
Definition answers_are (l : list (call counting)) (k : list pv) : bool :=
  Nat.eqb (length l) (length k) && forallb (fun p => is_value (fst p) (snd p)) (combine (answers l w0) k).
Definition plain key mem reload := ask key mem reload None None false.
Example test_caches :
  forallb (fun b => b)
  [(* memcache, memcache again, without, another distribution *)
   answers_are [plain "a" true false; plain "a" true false; plain "a" false false; plain "b" true false] [PInt 1; PInt 1; PInt 2; PInt 3];
   (* reload_cache *)
   answers_are [plain "a" true false; plain "a" true false; plain "a" true true; plain "a" true false] [PInt 1; PInt 1; PInt 2; PInt 2];
   (* cache files *)
   answers_are [ask "a" true false (Some "f"%string) None false; ask "a" true false None (Some "f"%string) true; ask "a" true false None (Some "f"%string) false]
     [PInt 1; PInt 1; PInt 1];
   answers_are [ask "a" true false (Some "f"%string) None false; ask_none (Some "f"%string)] [PInt 1; PInt 1];
   answers_are [ask_none (Some "f"%string)] [PNone]] = true.
Proof. vm_compute. reflexivity. Qed.

(** ** Dice *)
Example test_dice :
  forallb (fun b => b)
  [raises (die_of (PInt 1) ExNone) "cannot roll less than a 2-sided die."; raises (die_of (PFlt (Fin (25#10))) ExNone) "can only roll an integer number of sides";
   raises (die_of (PInt 6) (ExList (map PInt [1; 2; 3; 4; 5; 6]%Z))) "cannot explode on every value";
   raises (die_of (PInt 6) (ExOne (PInt 7))) "explode_on values must be integers"] = true /\
  die_of (PInt 6) (ExOne (PInt 6)) = Ok (LDie 6 (Some [6%Z])) /\ die_of (PInt 6) (ExList [PInt 5; PInt 6]) = Ok (LDie 6 (Some [5; 6]%Z)).
Proof. split; [|split]; vm_compute; reflexivity. Qed.
