(** Further ways to build distributions: growth rates of distributions
    (squigglepy/utils.py) and mixtures given as dicts (squigglepy/distributions.py). *)
From Verif Require Import Base M_Weights M_Pick M_Values M_Sampler M_Ops M_Str.
Open Scope Q_scope.

(** [growth_rate_to_doubling_time(d)] of a distribution, utils.py:845-848:
    [math.log(2) / dist_log(1.0 + d)].  [ln2] is [math.log(2)], [e_] is [math.e],
    the default base of [dist_log] (distributions.py:456). *)
Definition growth_dist {T} (log_ : Q -> Q) (ln2 e_ : Q) (d : dist T) : dist T :=
  DComplex (OLit (PFlt (Fin ln2)))
    (dist_log log_ (ODist (op_refl Add (OLit (PFlt (Fin 1))) d)) (PFlt (Fin e_))) (FOp Div).
(** [doubling_time_to_growth_rate(d)] of a distribution, utils.py:881-884:
    [dist_exp(math.log(2) / d) - 1]. *)
Definition doubling_dist {T} (exp_ : Q -> Q) (ln2 : Q) (d : dist T) : dist T :=
  DComplex (dist_exp exp_ (ODist (op_refl Div (OLit (PFlt (Fin ln2))) d))) (OLit (PInt 1)) (FOp Sub).

(** A Python dict display: a key already present keeps its place and its key
    object and takes the new value. *)
Section PyDict.
  Context {K V : Type}.
  Variable same : K -> K -> bool.
  Fixpoint dict_set (k : K) (v : V) (d : list (K * V)) : list (K * V) :=
    match d with
    | [] => [(k, v)]
    | (k', v') :: d' => if same k' k then (k', v) :: d' else (k', v') :: dict_set k v d'
    end.
  Definition py_dict (l : list (K * V)) : list (K * V) :=
    fold_left (fun d kv => dict_set (fst kv) (snd kv) d) l [].
End PyDict.

(** Two distributions are the same dict key when their hashes agree: [__hash__]
    is the hash of the text (distributions.py:171-172) and [__eq__] returns a
    distribution, which is true in a condition (126-127).  Simplification: keys are
    distributions, not plain numbers. *)
Definition same_key {T} (fmt : pv -> string) (h : string -> Z) (version : string) (a b : pexp T) : bool :=
  (hash_of fmt h version a =? hash_of fmt h version b)%Z.
(** [mixture({d1: w1, ...})], distributions.py:1713-1721 with utils.py:46-51. *)
Definition mixture_dict {T} (fmt : pv -> string) (h : string -> Z) (version : string)
    (l : list (pexp T * cell)) (lc rc : option num) : res (dist T) :=
  mixture (VDict (map (fun kv => (MPlain (built (fst kv)), snd kv)) (py_dict (same_key fmt h version) l)))
    WNone WNone lc rc.
