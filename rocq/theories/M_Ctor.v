(** Model of the remaining constructors of squigglepy/distributions.py (all but the
    (log)normal credible-interval forms, which are in M_Dists) and of
    squigglepy/dice.py.  Parameters are finite numbers. *)
From Verif Require Import Base M_Weights M_Pick M_Values M_Sampler.
Open Scope Q_scope.

(** A constructor call.  [NewBernoulli None]: an argument that is neither float nor
    int.  [NewNorm], [NewLognorm]: the forms [norm(mean=m, sd=s)] and
    [lognorm(norm_mean=m, norm_sd=s)].  [NewTriangular] takes clips because the
    function [triangular] does. *)
Inductive ctor : Type :=
| NewConst (x : pv)
| NewUniform (x y : Q)
| NewNorm (mean : option Q) (sd : Q) (lc rc : option num)
| NewLognorm (mean : option Q) (sd : Q) (lc rc : option num)
| NewBinomial (n : Z) (p : Q)
| NewBeta (a b : Q)
| NewBernoulli (p : option Q)
| NewT (x y : option num) (t cred : Q) (lc rc : option num)
| NewLogT (x y : option num) (t cred : Q) (lc rc : option num)
| NewTriangular (l m r : Q) (lc rc : option num)
| NewPert (l m r lam : Q) (lc rc : option num)
| NewPoisson (lam : Q) (lc rc : option num)
| NewChiSquare (df : Q)
| NewExponential (scale : Q) (lc rc : option num)
| NewGamma (shape scale : Q) (lc rc : option num)
| NewPareto (shape : Q)
| NewGeometric (p : Q)
| NewCoin.

(** [1e20] *)
Definition scale_limit : Q := inject_Z (10 ^ 20).

(** The checks on the two bounds of t distributions, distributions.py:1275-1278 and
    1349-1354; [pos]: the lower bound must be positive as well. *)
Definition t_check (pos : bool) (x y : option num) : res unit :=
  match x, y with
  | None, None => Ok tt
  | Some a, Some b =>
      if Qlt_bool (num_q b) (num_q a) then Err (ValueError "high value cannot be lower than low value")
      else if pos && Qle_bool (num_q a) 0 then Err (ValueError "low value must be greater than 0.")
      else Ok tt
  | _, _ => Err (ValueError "must define either both x and y or neither.")
  end.

Definition construct {T} (c : ctor) : res (dist T) :=
  match c with
  | NewConst x => Ok (DLeaf (LConst x) None None)                       (* distributions.py:621-623 *)
  | NewUniform x y =>                                                    (* 653-657 *)
      if Qlt_bool x y then Ok (DLeaf (LUniform x y) None None) else Err AssertionError
  | NewNorm m sd lc rc =>                                                (* 687-711 *)
      Ok (DLeaf (LNormal (match m with Some m => m | None => 0 end) (Some sd)) lc rc)
  | NewLognorm m sd lc rc =>                                             (* 767-836 *)
      Ok (DLeaf (LLognormal (match m with Some m => m | None => 0 end) sd) lc rc)
  | NewBinomial n p =>                                                   (* 1121-1126 *)
      if Qle_bool p 0 || Qle_bool 1 p then Err (ValueError "p must be between 0 and 1 (exclusive)")
      else Ok (DLeaf (LBinomial n p) None None)
  | NewBeta a b => Ok (DLeaf (LBeta a b) None None)                      (* 1156-1159 *)
  | NewBernoulli None => Err (ValueError "bernoulli p must be a float or int")   (* 1191-1197 *)
  | NewBernoulli (Some p) =>
      if Qle_bool 0 p && Qle_bool p 1 then Ok (DLeaf (LBernoulli p) None None)
      else Err (ValueError "bernoulli p must be between 0 and 1 inclusive")
  | NewT x y t cred lc rc =>                                             (* 1265-1281 *)
      do _ <- t_check false x y; Ok (DLeaf (LT x y t cred) lc rc)
  | NewLogT x y t cred lc rc =>                                          (* 1339-1357 *)
      do _ <- t_check true x y; Ok (DLeaf (LLogT x y t cred) lc rc)
  | NewTriangular l m r _ _ =>                                           (* 1416-1426, 1432-1454 *)
      if Qlt_bool m l then Err (ValueError "left must be less than or equal to mode")
      else if Qlt_bool r m then Err (ValueError "right must be greater than or equal to mode")
      else if Qeq_bool l r then Err (ValueError "left and right must be different")
      else Ok (DLeaf (LTriangular l m r) None None)
  | NewPert l m r lam lc rc =>                                           (* 1458-1474 *)
      if Qlt_bool m l then Err (ValueError "left must be less than or equal to mode")
      else if Qlt_bool r m then Err (ValueError "right must be greater than or equal to mode")
      else if Qlt_bool lam 0 then Err (ValueError "the shape parameter must be positive")
      else if Qeq_bool l r then Err (ValueError "left and right must be different")
      else Ok (DLeaf (LPert l m r lam) lc rc)
  | NewPoisson lam lc rc => Ok (DLeaf (LPoisson lam) lc rc)              (* 1520-1524 *)
  | NewChiSquare df =>                                                   (* 1562-1566 *)
      if Qle_bool df 0 then Err (ValueError "df must be positive") else Ok (DLeaf (LChiSquare df) None None)
  | NewExponential sc lc rc =>                                           (* 1594-1601 *)
      if negb (Qlt_bool 0 sc) then Err AssertionError
      else if negb (Qlt_bool sc scale_limit) then Err AssertionError
      else Ok (DLeaf (LExponential sc) lc rc)
  | NewGamma a b lc rc => Ok (DLeaf (LGamma a b) lc rc)                  (* 1639-1644 *)
  | NewPareto a => Ok (DLeaf (LPareto a) None None)                      (* 1684-1686 *)
  | NewGeometric p =>                                                    (* 1839-1843 *)
      if Qlt_bool p 0 || Qlt_bool 1 p then Err (ValueError "p must be between 0 and 1")
      else Ok (DLeaf (LGeometric p) None None)
  | NewCoin => Ok (DLeaf LCoin None None)                                (* dice.py:79-80 *)
  end.

(* ------------------------------------------------------------------ *)
(** * Dice *)

(** [isinstance(v, int)]; bools are ints. *)
Definition py_isint (v : pv) : option Z :=
  match v with PInt z => Some z | PBool b => Some (b2z b) | _ => None end.

(** The [explode_on] argument: None, a list, or anything else. *)
Inductive explode_arg : Type := ExNone | ExList (l : list pv) | ExOne (v : pv).

(** The loop of dice.py:30-32. *)
Fixpoint explode_values (sides : Z) (l : list pv) : res (list Z) :=
  match l with
  | [] => Ok []
  | v :: l' =>
      match py_isint v with
      | Some z => if (z <? 1)%Z || (sides <? z)%Z then Err (ValueError "explode_on values must be integers")
                  else do r <- explode_values sides l'; Ok (z :: r)
      | None => Err (ValueError "explode_on values must be integers")
      end
  end.

(** [Die.__init__] once [sides] is a plain value, dice.py:20-34. *)
Definition explode_list (ex : explode_arg) : option (list pv) :=
  match ex with
  | ExNone | ExOne PNone => None
  | ExList l => Some l
  | ExOne v => Some [v]
  end.
Definition die_of (sides : pv) (ex : explode_arg) : res leaf :=
  match sides with
  | PNone => Err (ValueError "sides must be specified")
  | _ =>
    match py_isint sides with
    | None => Err (ValueError "can only roll an integer number of sides")
    | Some n =>
      if (n <? 2)%Z then Err (ValueError "cannot roll less than a 2-sided die.")
      else
        match explode_list ex with
        | None => Ok (LDie n None)
        | Some l =>
            if (n <=? Z.of_nat (length l))%Z then Err (ValueError "cannot explode on every value")
            else do zs <- explode_values n l; Ok (LDie n (Some zs))
        end
    end
  end.

(** [die(sides, explode_on)], dice.py:17-34: a distribution or function given as
    [sides] is sampled once.  Simplification: other objects (lists) are [OOther] and
    rejected as non-integers. *)
Definition die (Or : oracle) (sides : obj (G Or)) (ex : explode_arg) : M (state (G Or)) (dist (G Or)) :=
  let! v := match sides with
            | OLit x => ret x
            | OOther => raise (ValueError "can only roll an integer number of sides")
            | _ => let! v := smp Or sides 1 None None in as_scalar Or v
            end in
  let! k := lift (die_of v ex) in
  ret (DLeaf k None None).
