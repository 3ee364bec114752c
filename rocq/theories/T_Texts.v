(** The project's own tests of the text of distributions (tests/test_distributions.py,
    tests/test_dice.py, and the examples of the documentation strings),
    run on the model. *)
From Coq Require Import Ascii String Qabs.
From Verif Require Import Base M_Weights M_Pick M_Values M_Sampler M_Ops M_Str.
Open Scope string_scope.

(** Numbers as Python prints them, for ints and for floats with at most two decimals. *)
Fixpoint digits (fuel n : nat) : string :=
  match fuel with
  | 0%nat => ""
  | S k => (if Nat.ltb n 10 then "" else digits k (n / 10)) ++ String (ascii_of_nat (48 + n mod 10)) ""
  end.
Definition int_py (z : Z) : string := (if (z <? 0)%Z then "-" else "") ++ digits 10 (Z.abs_nat z).
Definition float_py (q : Q) : string :=
  let h := Z.abs_nat (Qfloor (100 * Qabs q)) in
  (if Qlt_bool q 0 then "-" else "") ++ digits 10 (h / 100) ++ "." ++
  (if Nat.eqb (h mod 10) 0 then digits 1 (h / 10 mod 10) else digits 1 (h / 10 mod 10) ++ digits 1 (h mod 10)).
Definition py (v : pv) : string :=
  match v with PInt z => int_py z | PFlt (Fin q) => float_py q | PStr s => s | PBool true => "True" | PBool false => "False" | PNone => "None" | _ => "?" end.
Notation exp_t := (pexp nat).
Definition shows (e : exp_t) (s : string) : bool := String.eqb (text py e) ("<Distribution> " ++ s).
Definition i := NI.
Definition f := NF.

(** norm(1, 2), norm(0, 1), norm(0, 10); the standard deviations are rounded when printed. *)
Definition norm12 lc rc : exp_t := XLeaf (KNorm (f (3#2)) (f (30398#100000)) lc rc).
Definition norm01 : exp_t := XLeaf (KNorm (f (1#2)) (f (30398#100000)) None None).
Definition norm010 : exp_t := XLeaf (KNorm (f 5) (f (303978#100000)) None None).
Definition lognorm12 lc rc : exp_t := XLeaf (KLognorm (f (1446#1000)) (f (3082#10000)) (f (34657#100000)) (f (2107#10000)) lc rc).
Definition lognorm_small : exp_t := XLeaf (KLognorm (f (4040#10000)) (f (3212#10000)) (f (-11513#10000)) (f (69993#100000)) None None).
Definition lognorm_big : exp_t := XLeaf (KLognorm (f (4040#100)) (f (32118#1000)) (f (34539#10000)) (f (69993#100000)) None None).

Example test_leaf_texts : forallb (fun b => b)
  [shows (XLeaf (KConst (PInt 1))) "const(1)"; shows (XLeaf (KConst (PFlt (Fin (1#10))))) "const(0.1)"; shows (XLeaf (KConst (PStr "a"))) "const(a)";
   shows (norm12 None None) "norm(mean=1.5, sd=0.3)"; shows (norm12 (Some (i 1)) None) "norm(mean=1.5, sd=0.3, lclip=1)";
   shows (norm12 None (Some (i 1))) "norm(mean=1.5, sd=0.3, rclip=1)"; shows (norm12 (Some (i 0)) (Some (i 3))) "norm(mean=1.5, sd=0.3, lclip=0, rclip=3)";
   shows (XLeaf (KNorm (i 1) (i 2) (Some (i 0)) (Some (i 3)))) "norm(mean=1, sd=2, lclip=0, rclip=3)";
   shows (XLeaf (KNorm (i 0) (i 2) (Some (i 0)) (Some (i 3)))) "norm(mean=0, sd=2, lclip=0, rclip=3)";
   shows (lognorm12 None None) "lognorm(lognorm_mean=1.45, lognorm_sd=0.31, norm_mean=0.35, norm_sd=0.21)";
   shows (XLeaf (KLognorm (f (200855#10000)) (f (14705#100)) (i 1) (i 2) None None)) "lognorm(lognorm_mean=20.09, lognorm_sd=147.05, norm_mean=1, norm_sd=2)";
   shows (XLeaf (KLognorm (i 1) (i 2) (f (-80472#100000)) (f (126864#100000)) None None)) "lognorm(lognorm_mean=1, lognorm_sd=2, norm_mean=-0.8, norm_sd=1.27)";
   shows (lognorm12 (Some (i 0)) (Some (i 3))) "lognorm(lognorm_mean=1.45, lognorm_sd=0.31, norm_mean=0.35, norm_sd=0.21, lclip=0, rclip=3)";
   shows (XLeaf (KInvLognorm (f (1446#1000)) (f (3082#10000)) (f (34657#100000)) (f (2107#10000)) None (Some (i 1))))
     "invlognorm(lognorm_mean=1.45, lognorm_sd=0.31, norm_mean=0.35, norm_sd=0.21, rclip=1)";
   shows (XLeaf (KUniform (i 0) (i 1))) "uniform(0, 1)"; shows (XLeaf (KBinomial 10 (f (1#10)))) "binomial(n=10, p=0.1)";
   shows (XLeaf (KBeta (i 10) (i 1))) "beta(a=10, b=1)"; shows (XLeaf (KBernoulli (f (1#10)))) "bernoulli(p=0.1)";
   shows (XLeaf (KT (Some (i 1)) (Some (i 3)) (i 5) (i 90) None None)) "tdist(x=1, y=3, t=5)"; shows (XLeaf (KT None None (i 5) (i 90) None None)) "tdist(t=5)";
   shows (XLeaf (KT None None (i 20) (i 90) None None)) "tdist(t=20)";
   shows (XLeaf (KT (Some (i 1)) (Some (i 3)) (i 5) (i 90) (Some (i 3)) (Some (i 5)))) "tdist(x=1, y=3, t=5, lclip=3, rclip=5)";
   shows (XLeaf (KT (Some (i 1)) (Some (i 3)) (i 5) (i 80) None None)) "tdist(x=1, y=3, t=5, credibility=80)";
   shows (XLeaf (KLogT (Some (i 1)) (Some (i 3)) (i 5) (i 90) None (Some (i 3)))) "log_tdist(x=1, y=3, t=5, rclip=3)";
   shows (XLeaf (KLogT None None (i 1) (i 90) None None)) "log_tdist(t=1)";
   shows (XLeaf (KTri (i 1) (i 3) (i 5))) "triangular(1, 3, 5)"; shows (XLeaf (KPert (i 1) (i 3) (i 5) (i 2) None None)) "PERT(1, 3, 5, lam=2)";
   shows (XLeaf (KPert (i 2) (i 4) (i 6) (i 10) (Some (i 3)) (Some (i 5)))) "PERT(2, 4, 6, lam=10, lclip=3, rclip=5)";
   shows (XLeaf (KExp (i 10) (Some (i 10)) (Some (i 15)))) "exponential(10, lclip=10, rclip=15)"; shows (XLeaf (KPoisson (i 10) (Some (i 10)) None)) "poisson(10, lclip=10)";
   shows (XLeaf (KChi (i 10))) "chisquare(10)"; shows (XLeaf (KGamma (i 10) (i 2) None None)) "gamma(shape=10, scale=2)";
   shows (XLeaf (KGamma (i 10) (i 1) None None)) "gamma(shape=10, scale=1)"; shows (XLeaf (KGamma (i 10) (i 2) (Some (i 10)) (Some (i 15)))) "gamma(shape=10, scale=2, lclip=10, rclip=15)";
   shows (XLeaf (KGeom (f (1#10)))) "geometric(p=0.1)";
   shows (XLeaf (KCat [CPlain (PInt 0); CPlain (PInt 1)])) "categorical([0, 1])";
   shows (XLeaf (KCatDict [(PInt 0, f (1#10)); (PInt 1, f (9#10))])) "categorical({0: 0.1, 1: 0.9})";
   shows (XLeaf (KCat [CPair (f (1#10)) (PInt 0); CPair (f (9#10)) (PInt 1)])) "categorical([[0.1, 0], [0.9, 1]])";
   shows (XLeaf (KCatDict [(PStr "a", f (1#10)); (PStr "b", f (9#10))])) "categorical({'a': 0.1, 'b': 0.9})";
   shows (XLeaf (KDie 6 None)) "Die(6)"; shows (XLeaf (KDie 6 (Some [6%Z]))) "Die(6, explodes on [6])";
   shows (XLeaf (KDie 6 (Some [5; 6]%Z))) "Die(6, explodes on [5, 6])"; shows (XLeaf KCoin) "Coin"] = true.
Proof. vm_compute. reflexivity. Qed.

Definition infixes : list (infix * string) :=
  [(IOp Add, "+"); (IOp Sub, "-"); (IOp Mul, "*"); (IOp Div, "/"); (IOp FloorDiv, "//"); (IOp Pow, "**");
   (IOp Lt, "<"); (IOp Le, "<="); (IOp Gt, ">"); (IOp Ge, ">="); (IEq, "=="); (INe, "!=")].
Definition lit n : exp_t := XLit (PInt n).
Definition call1 name (e : exp_t) : exp_t := XCall name FNeg e None.
Definition call2 name (e1 e2 : exp_t) : exp_t := XCall name FNeg e1 (Some e2).
Definition half : exp_t := XLit (PFlt (Fin (1#2))).
Example test_operator_texts : forallb (fun b => b)
  (map (fun p => shows (XInfix (fst p) norm01 (norm12 None None)) ("norm(mean=0.5, sd=0.3) " ++ snd p ++ " norm(mean=1.5, sd=0.3)")) infixes ++
   map (fun p => shows (XInfix (fst p) norm01 (lit 12)) ("norm(mean=0.5, sd=0.3) " ++ snd p ++ " 12")) infixes ++
   map (fun p => shows (XInfix (fst p) (lit 12) norm01) ("12 " ++ snd p ++ " norm(mean=0.5, sd=0.3)")) infixes ++
   [shows (XNeg norm01) "-norm(mean=0.5, sd=0.3)";
    shows (call2 "log" norm01 (XLeaf (KConst (PInt 10)))) "log(norm(mean=0.5, sd=0.3), const(10))"; shows (call1 "exp" norm01) "exp(norm(mean=0.5, sd=0.3))";
    shows (XInfix (IOp Add) (XInfix (IOp Add) (XInfix (IOp Add) (XInfix (IOp Sub) (XInfix (IOp Pow) (lit 2) norm01) (lit 48)) (lit 2))
             (XInfix (IOp Div) (XNeg lognorm_big) (lit 11))) (lit 8))
      "2 ** norm(mean=0.5, sd=0.3) - 48 + 2 + -lognorm(lognorm_mean=40.4, lognorm_sd=32.12, norm_mean=3.45, norm_sd=0.7) / 11 + 8";
    shows (call1 "_mirror" norm01) "_mirror(norm(mean=0.5, sd=0.3))"; shows (call2 "_mirror" norm010 (norm12 None None)) "_mirror(norm(mean=5.0, sd=3.04), norm(mean=1.5, sd=0.3))";
    shows (call1 "_mirror2" (call1 "_mirror" norm01)) "_mirror2(_mirror(norm(mean=0.5, sd=0.3)))";
    shows (call2 "max" norm01 lognorm_small) "max(norm(mean=0.5, sd=0.3), lognorm(lognorm_mean=0.4, lognorm_sd=0.32, norm_mean=-1.15, norm_sd=0.7))";
    shows (call2 "round" norm01 (lit 0)) "round(norm(mean=0.5, sd=0.3), 0)"; shows (call1 "ceil" norm01) "ceil(norm(mean=0.5, sd=0.3))";
    shows (call2 "lclip" norm01 half) "lclip(norm(mean=0.5, sd=0.3), 0.5)";
    shows (call2 "rclip" (call2 "lclip" norm01 half) (XLit (PFlt (Fin (9#10))))) "rclip(lclip(norm(mean=0.5, sd=0.3), 0.5), 0.9)";
    shows (call2 "round" (call2 "lclip" norm01 (lit 2)) (lit 0)) "round(lclip(norm(mean=0.5, sd=0.3), 2), 0)"])%list = true.
Proof. vm_compute. reflexivity. Qed.

Fixpoint within (s t : string) : bool := String.prefix s t || match t with EmptyString => false | String _ t' => within s t' end.
Example test_mixture_text :
  let t := text py (XMixture [(f (4#10), norm12 None None); (f (6#10), XLeaf (KNorm (f (7#2)) (f (30398#100000)) None None))] None None : exp_t) in
  within "<Distribution> mixture" t && within "0.4 weight on <Distribution> norm(mean=1.5, sd=0.3)" t &&
  within "0.6 weight on <Distribution> norm(mean=3.5, sd=0.3)" t &&
  String.eqb t "<Distribution> mixture
 - 0.4 weight on <Distribution> norm(mean=1.5, sd=0.3)
 - 0.6 weight on <Distribution> norm(mean=3.5, sd=0.3)" = true.
Proof. vm_compute. reflexivity. Qed.
