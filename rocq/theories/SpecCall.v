(** Python calls of the constructors: how a call is written and what it builds. *)
From Coq Require Import Ascii String.
From Verif Require Import Base M_Values M_Sampler M_Str M_Ctor SpecStr.
Open Scope string_scope.

(** A call with positional and keyword arguments. *)
Record pycall : Type := mkPy { p_name : string; p_args : list (option string * pv) }.

Section Render.
  Variable fmt : pv -> string.
  Definition render_arg (a : option string * pv) : string :=
    match a with (None, v) => fmt v | (Some k, v) => k ++ "=" ++ fmt v end.
  Fixpoint commas (l : list string) : string :=
    match l with [] => "" | [x] => x | x :: r => x ++ ", " ++ commas r end.
  Definition render (c : pycall) : string := p_name c ++ "(" ++ commas (map render_arg (p_args c)) ++ ")".
End Render.

(** Parameters with their defaults, from the [def] lines of distributions.py (629,
    663, 723, 1132, 1165, 1203, 1298, 1374, 1432, 1488, 1536, 1572, 1613, 1656,
    1692, 1849).  No default: required. *)
Definition required (n : string) : string * option pv := (n, None).
Definition optional (n : string) : string * option pv := (n, Some PNone).
Definition clips : list (string * option pv) := [optional "lclip"; optional "rclip"].
Definition signature (name : string) : option (list (string * option pv)) :=
  match name with
  | "const" => Some [required "x"]
  | "uniform" => Some [required "x"; required "y"]
  | "norm" => Some ([optional "x"; optional "y"; ("credibility", Some (PInt 90)); optional "mean"; optional "sd"] ++ clips)%list
  | "binomial" => Some [required "n"; required "p"]
  | "beta" => Some [required "a"; required "b"]
  | "bernoulli" => Some [required "p"]
  | "tdist" => Some ([optional "x"; optional "y"; ("t", Some (PInt 20)); ("credibility", Some (PInt 90))] ++ clips)%list
  | "log_tdist" => Some ([optional "x"; optional "y"; ("t", Some (PInt 1)); ("credibility", Some (PInt 90))] ++ clips)%list
  | "triangular" => Some ([required "left"; required "mode"; required "right"] ++ clips)%list
  | "pert" => Some ([required "left"; required "mode"; required "right"; ("lam", Some (PInt 4))] ++ clips)%list
  | "poisson" => Some (required "lam" :: clips)
  | "chisquare" => Some [required "df"]
  | "exponential" => Some (required "scale" :: clips)
  | "gamma" => Some ([required "shape"; ("scale", Some (PInt 1))] ++ clips)%list
  | "pareto" => Some [required "shape"]
  | "geometric" => Some [required "p"]
  | _ => None
  end.

(** Binding arguments to parameters: positional first, then keywords, each
    parameter once. *)
Fixpoint assign (names : list string) (args : list (option string * pv)) : option (list (string * pv)) :=
  match args with
  | [] => Some []
  | (None, v) :: r => match names with
                      | n :: ns => option_map (cons (n, v)) (assign ns r)
                      | [] => None
                      end
  | (Some k, v) :: r => option_map (cons (k, v)) (assign [] r)
  end.
Fixpoint find_arg (env : list (string * pv)) (n : string) : option pv :=
  match env with [] => None | (k, v) :: r => if String.eqb k n then Some v else find_arg r n end.
Fixpoint distinct (l : list string) : bool :=
  match l with [] => true | x :: r => negb (existsb (String.eqb x) r) && distinct r end.
Fixpoint fill (ps : list (string * option pv)) (env : list (string * pv)) : option (list pv) :=
  match ps with
  | [] => Some []
  | (n, def) :: r =>
      match (match find_arg env n with Some v => Some v | None => def end), fill r env with
      | Some v, Some vs => Some (v :: vs)
      | _, _ => None
      end
  end.
Definition bind_args (ps : list (string * option pv)) (args : list (option string * pv)) : option (list pv) :=
  match assign (map fst ps) args with
  | Some env => if distinct (map fst env) && forallb (fun k => existsb (String.eqb k) (map fst ps)) (map fst env)
                then fill ps env else None
  | None => None
  end.

(** Parameters as numbers; None is the absent one. *)
Definition the_num (v : pv) : option num :=
  match v with PInt z => Some (NI z) | PFlt (Fin q) => Some (NF q) | _ => None end.
Definition num_or_none (v : pv) : option (option num) :=
  match v with PNone => Some None | _ => option_map Some (the_num v) end.
Notation "'let?' x := e 'in' f" := (match e with Some x => f | None => None end) (at level 200, x name).

(** The constructor call a Python call performs. *)
Definition eval_args (name : string) (vs : list pv) : option ctor :=
  match name, vs with
  | "const", [x] => Some (NewConst x)
  | "uniform", [x; y] => let? x := the_num x in let? y := the_num y in Some (NewUniform (num_q x) (num_q y))
  | "norm", [PNone; PNone; _; m; s; lc; rc] =>
      let? m := num_or_none m in let? s := the_num s in let? lc := num_or_none lc in let? rc := num_or_none rc in
      Some (NewNorm (option_map num_q m) (num_q s) lc rc)
  | "binomial", [PInt n; p] => let? p := the_num p in Some (NewBinomial n (num_q p))
  | "beta", [a; b] => let? a := the_num a in let? b := the_num b in Some (NewBeta (num_q a) (num_q b))
  | "bernoulli", [p] => Some (NewBernoulli (option_map num_q (the_num p)))
  | "tdist", [x; y; t; c; lc; rc] =>
      let? x := num_or_none x in let? y := num_or_none y in let? t := the_num t in let? c := the_num c in
      let? lc := num_or_none lc in let? rc := num_or_none rc in
      Some (NewT x y (num_q t) (num_q c) lc rc)
  | "log_tdist", [x; y; t; c; lc; rc] =>
      let? x := num_or_none x in let? y := num_or_none y in let? t := the_num t in let? c := the_num c in
      let? lc := num_or_none lc in let? rc := num_or_none rc in
      Some (NewLogT x y (num_q t) (num_q c) lc rc)
  | "triangular", [l; m; r; lc; rc] =>
      let? l := the_num l in let? m := the_num m in let? r := the_num r in
      let? lc := num_or_none lc in let? rc := num_or_none rc in
      Some (NewTriangular (num_q l) (num_q m) (num_q r) lc rc)
  | "pert", [l; m; r; a; lc; rc] =>
      let? l := the_num l in let? m := the_num m in let? r := the_num r in let? a := the_num a in
      let? lc := num_or_none lc in let? rc := num_or_none rc in
      Some (NewPert (num_q l) (num_q m) (num_q r) (num_q a) lc rc)
  | "poisson", [a; lc; rc] =>
      let? a := the_num a in let? lc := num_or_none lc in let? rc := num_or_none rc in Some (NewPoisson (num_q a) lc rc)
  | "chisquare", [a] => let? a := the_num a in Some (NewChiSquare (num_q a))
  | "exponential", [a; lc; rc] =>
      let? a := the_num a in let? lc := num_or_none lc in let? rc := num_or_none rc in Some (NewExponential (num_q a) lc rc)
  | "gamma", [a; b; lc; rc] =>
      let? a := the_num a in let? b := the_num b in let? lc := num_or_none lc in let? rc := num_or_none rc in
      Some (NewGamma (num_q a) (num_q b) lc rc)
  | "pareto", [a] => let? a := the_num a in Some (NewPareto (num_q a))
  | "geometric", [a] => let? a := the_num a in Some (NewGeometric (num_q a))
  | _, _ => None
  end.
Definition eval_call (c : pycall) : option ctor :=
  let? ps := signature (p_name c) in let? vs := bind_args ps (p_args c) in eval_args (p_name c) vs.

(** Leaves whose text leaves nothing out.  Texts are printed without quotes. *)
Definition prints_exactly (k : pleaf) : Prop :=
  match k with
  | KConst (PStr _) => False
  | KNorm m s _ _ => round2 m = m /\ round2 s = s
  | KT x y _ c _ _ | KLogT x y _ c _ _ => (x = None -> y = None) /\ (num_q c == 90 -> num_q c = 90)%Q
  | KLognorm _ _ _ _ _ _ | KInvLognorm _ _ _ _ _ _ | KPert _ _ _ _ _ _ => False
  | KDie _ _ | KCoin | KCat _ | KCatDict _ => False
  | _ => True
  end.

(** Leaves that are printed as a call with scalar arguments. *)
Definition call_form (k : pleaf) : Prop :=
  match k with KDie _ _ | KCoin | KCat _ | KCatDict _ => False | _ => True end.
