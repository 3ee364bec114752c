(** Model of the single-core, uncached core of squigglepy/samplers.py:sample
    and of the per-distribution samplers it dispatches to. *)
From Verif Require Import Base M_Weights M_Pick M_Values.
Open Scope Q_scope.

(* ------------------------------------------------------------------ *)
(** * The random generator and numerical library as an oracle *)

(** Calls made on [numpy.random.Generator] that return floats. *)
Inductive freq : Type :=
| RUniform (lo hi : Q) | RNormal (mean sd : Q) | RLognormal (mean sd : Q)
| RStdT (df : Q) | RBeta (a b : Q) | RTri (l m r : Q) | RExp (scale : Q)
| RGamma (shape scale : Q) | RPareto (a : Q) | RChi (df : Q).
(** ... and that return ints.  [RInt lo hi] is [integers(lo, hi)]. *)
Inductive ireq : Type :=
| RBinom (n : Z) (p : Q) | RPois (lam : Q) | RGeom (p : Q) | RInt (lo hi : Z).

(** [G] is the state of the generator.  A call may raise (numpy rejects bad
    parameters).  The remaining fields are numerical functions this model does
    not define: the normal quantile function, square root, exponential,
    logarithm, powers with fractional exponents, number formatting, and
    [CorrelationGroup.induce_correlation] for each correlation group.  [die_fuel]
    bounds the re-rolls of one exploding die; exhausting it gives [Unmodelled]. *)
Record oracle : Type := {
  G : Type;
  drawf : freq -> nat -> G -> res (list Q) * G;
  drawi : ireq -> nat -> G -> res (list Z) * G;
  ppf : Q -> Q;
  sqrt_ : Q -> Q;
  exp_ : Q -> Q;
  log_ : Q -> Q;
  pow_ : Q -> Q -> Q;
  fmt : pv -> string;
  induce : nat -> list (list pv) -> res (list (list pv));
  die_fuel : nat
}.

(* ------------------------------------------------------------------ *)
(** * Objects *)

(** Parameters of one distribution as they reach the sampler dispatch
    (samplers.py:1137-1228). *)
Inductive leaf : Type :=
| LConst (x : pv)
| LUniform (x y : Q)
| LNormal (mean : Q) (sd : option Q)          (* sd is None for norm(x, y, mean=...) *)
| LLognormal (mean sd : Q)
| LInvLognormal (mean sd : Q)
| LBinomial (n : Z) (p : Q)
| LBeta (a b : Q)
| LBernoulli (p : Q)
| LPoisson (lam : Q)
| LChiSquare (df : Q)
| LExponential (scale : Q)
| LGamma (shape scale : Q)
| LPareto (shape : Q)
| LTriangular (l m r : Q)
| LPert (l m r lam : Q)
| LT (x y : option num) (t : Q) (cred : Q)
| LLogT (x y : option num) (t : Q) (cred : Q)
| LGeometric (p : Q)
| LDie (sides : Z) (explode : option (list Z))
| LCoin
| LCatList (items : list exv_item)
| LCatDict (items : list (pv * cell))
with exv_item : Type := IPlain (v : pv) | IPair (w : cell) (v : pv).

(** Interpreter state seen by user code during sampling: the generator and the
    [_correlated_samples] attribute of each member of each correlation group. *)
Record state (Gt : Type) : Type := mkState {
  rng : Gt;
  corr : nat -> nat -> option val
}.
Arguments mkState {Gt} _ _.
Arguments rng {Gt} _.
Arguments corr {Gt} _ _ _.

(** Python objects that can be passed to [sample].  [OCall f]: a function; a
    call may use the generator and returns another object.  [OOther]: anything
    [is_sampleable] rejects (lists, dicts...). *)
Inductive obj (Gt : Type) : Type :=
| OLit (v : pv)
| OCall (f : state Gt -> res (obj Gt) * state Gt)
| ODist (d : dist Gt)
| OOther
with dist (Gt : Type) : Type :=
| DLeaf (k : leaf) (lc rc : option num)
| DMixture (ws : list Q) (ds : list (obj Gt)) (lc rc : option num)
(** [ComplexDistribution(left, right, fn)]; [right] is [OLit PNone] when absent. *)
| DComplex (left right : obj Gt) (f : fn Gt)
(** Member number [i] of correlation group [g]; [members] are the group's
    distributions sampled with [_correlate_if_needed=False]. *)
| DCorr (g i : nat) (members : list (dist Gt))
with fn (Gt : Type) : Type :=
| FOp (o : opn)                                  (* operator.add, ... *)
| FNeg                                           (* operator.neg *)
| FLclip | FRclip                                (* the vectorised clips *)
(** A user function of one or two arguments; it may use the generator and may
    return values or another sampleable object. *)
| FUser1 (h : val -> state Gt -> res (val + obj Gt) * state Gt)
| FUser2 (h : val -> val -> state Gt -> res (val + obj Gt) * state Gt).
Arguments OLit {Gt} v.
Arguments OCall {Gt} f.
Arguments ODist {Gt} d.
Arguments OOther {Gt}.
Arguments DLeaf {Gt} k lc rc.
Arguments DMixture {Gt} ws ds lc rc.
Arguments DComplex {Gt} left right f.
Arguments DCorr {Gt} g i members.
Arguments FOp {Gt} o.
Arguments FNeg {Gt}.
Arguments FLclip {Gt}.
Arguments FRclip {Gt}.
Arguments FUser1 {Gt} h.
Arguments FUser2 {Gt} h.

Definition is_dist_or_callable {Gt} (o : obj Gt) : bool :=
  match o with OCall _ | ODist _ => true | _ => false end.

(* ------------------------------------------------------------------ *)
(** * State-and-exception monad *)
Section Monad.
  Context {St : Type}.
  Definition M (A : Type) : Type := St -> res A * St.
  Definition ret {A} (a : A) : M A := fun s => (Ok a, s).
  Definition raise {A} (e : exn) : M A := fun s => (Err e, s).
  Definition bindS {A B} (m : M A) (f : A -> M B) : M B :=
    fun s => match m s with
             | (Ok a, s') => f a s'
             | (Err e, s') => (Err e, s')
             end.
  Definition lift {A} (r : res A) : M A := fun s => (r, s).
  (** [n] evaluations in order, as in [[m() for _ in range(n)]]. *)
  Fixpoint replicateS {A} (n : nat) (m : M A) : M (list A) :=
    match n with
    | O => ret []
    | S n' => bindS m (fun a => bindS (replicateS n' m) (fun l => ret (a :: l)))
    end.
  Fixpoint mapS {A B} (f : A -> M B) (l : list A) : M (list B) :=
    match l with
    | [] => ret []
    | x :: xs => bindS (f x) (fun y => bindS (mapS f xs) (fun ys => ret (y :: ys)))
    end.
  (** Run a list of actions in order. *)
  Fixpoint seqS {B} (l : list (M B)) : M (list B) :=
    match l with
    | [] => ret []
    | m :: ms => bindS m (fun y => bindS (seqS ms) (fun ys => ret (y :: ys)))
    end.
End Monad.
Arguments M St A : clear implicits.

Notation "'let!' x := e 'in' f" := (bindS e (fun x => f))
  (at level 200, x name, e at level 100, f at level 200, right associativity).

Section Sampler.
  Variable Or : oracle.
  Notation St := (state (G Or)).
  Notation MS := (M St).

  (** One generator call, threading only the generator part of the state. *)
  Definition rngf (r : freq) (n : nat) : MS (list Q) :=
    fun s => let (x, g) := drawf Or r n (rng s) in (x, mkState g (corr s)).
  Definition rngi (r : ireq) (n : nat) : MS (list Z) :=
    fun s => let (x, g) := drawi Or r n (rng s) in (x, mkState g (corr s)).

  Definition flts (l : list Q) : list pv := map (fun q => PFlt (Fin q)) l.
  Definition ints (l : list Z) : list pv := map PInt l.

  (** [_simplify(_get_rng().xxx(..., samples))], e.g. samplers.py:88. *)
  Definition fsample (r : freq) (n : nat) : MS val :=
    let! l := rngf r n in ret (simplify (flts l)).
  Definition isample (r : ireq) (n : nat) : MS val :=
    let! l := rngi r n in ret (simplify (ints l)).

  (** [inverse_lognormal_sample], samplers.py:119-148: [1.0 / lognorm_samples]
      on the array, then [_simplify]. *)
  Definition inverse_lognormal_sample (mean sd : Q) (n : nat) : MS val :=
    let! l := rngf (RLognormal mean sd) n in
    ret (simplify (map (fun q => PFlt (xdiv (Fin 1) (Fin q))) l)).

  (** [bernoulli_sample], samplers.py:322-348. *)
  Definition bernoulli_sample (p : Q) (n : nat) : MS val :=
    let! l := rngf (RUniform 0 1) n in
    ret (simplify (map (fun u => PInt (b2z (Qlt_bool u p))) l)).

  (** [pareto_sample], samplers.py:491-513. *)
  Definition pareto_sample (shape : Q) (n : nat) : MS val :=
    let! l := rngf (RPareto shape) n in ret (simplify (flts (map (fun q => q + 1) l))).

  (** [pert_sample], samplers.py:380-411.  [left == right] divides by zero:
      Python floats raise ZeroDivisionError. *)
  Definition pert_alpha (l m r lam : Q) : Q := 1 + lam * (m - l) / (r - l).
  Definition pert_beta (l m r lam : Q) : Q := 1 + lam * (r - m) / (r - l).
  Definition pert_sample (l m r lam : Q) (n : nat) : MS val :=
    if Qeq_bool (r - l) 0 then raise ZeroDivisionError
    else
      let! xs := rngf (RBeta (pert_alpha l m r lam) (pert_beta l m r lam)) n in
      ret (simplify (flts (map (fun x => l + x * (r - l)) xs))).

  (** [t_sample], samplers.py:151-202.  Without bounds the array is returned
      without [_simplify]; with equal bounds the scalar bound itself.
      Simplifications: a credibility of 0 (quantile 0, infinite sigma) is
      [Unmodelled]; chi-square draws are taken to be non-zero (a draw of exactly
      0 would give an infinite sample). *)
  Definition t_ratio (t : Q) (z c : Q) : Q := z / sqrt_ Or (c / t).
  Definition t_sample (x y : option num) (t cred : Q) (n : nat) : MS val :=
    match x, y with
    | None, None => let! l := rngf (RStdT t) n in ret (Arr (flts l))
    | None, _ | _, None => raise (ValueError "must define either both")
    | Some lo, Some hi =>
      if Qlt_bool (num_q hi) (num_q lo) then raise (ValueError "high value cannot be lower")
      else if Qeq_bool (num_q lo) (num_q hi) then ret (Scalar (num_pv lo))
      else if Qeq_bool (ppf Or ((1#2) + (1#2) * (cred / 100))) 0 then raise Unmodelled
      else
        let mu := (num_q hi + num_q lo) / 2 in
        let sigma := (num_q hi - mu) / ppf Or ((1#2) + (1#2) * (cred / 100)) in
        let! zs := rngf (RNormal mu sigma) n in
        let! cs := rngf (RChi t) n in
        ret (simplify (flts (map (fun zc => t_ratio t (fst zc) (snd zc)) (combine zs cs))))
    end.

  (** [log_t_sample], samplers.py:205-261.  Without bounds a single draw is
      returned whatever the number of samples.  One bound missing makes the
      comparison [low > high] a TypeError. *)
  Definition log_t_sample (x y : option num) (t cred : Q) (n : nat) : MS val :=
    match x, y with
    | None, None =>
        let! l := rngf (RStdT t) 1 in
        match l with [q] => ret (Scalar (PFlt (Fin (exp_ Or q)))) | _ => raise Unmodelled end
    | None, _ | _, None => raise TypeError
    | Some lo, Some hi =>
      if Qlt_bool (num_q hi) (num_q lo) then raise (ValueError "high value cannot be lower")
      else if Qlt_bool (num_q lo) 0 then raise (ValueError "log_t_sample cannot handle negative values")
      else if Qeq_bool (num_q lo) (num_q hi) then ret (Scalar (num_pv lo))
      else if Qeq_bool (num_q lo) 0 then raise Unmodelled                  (* np.log(0) is -inf *)
      else if Qeq_bool (ppf Or ((1#2) + (1#2) * (cred / 100))) 0 then raise Unmodelled
      else
        let llo := log_ Or (num_q lo) in
        let lhi := log_ Or (num_q hi) in
        let mu := (lhi + llo) / 2 in
        let sigma := (lhi - mu) / ppf Or ((1#2) + (1#2) * (cred / 100)) in
        let! zs := rngf (RNormal mu sigma) n in
        let! cs := rngf (RChi t) n in
        ret (simplify (flts (map (fun zc => exp_ Or (t_ratio t (fst zc) (snd zc))) (combine zs cs))))
    end.

  (** [die_sample._single_roll], samplers.py:673-684. *)
  Definition one_int (lo hi : Z) : MS Z :=
    let! l := rngi (RInt lo hi) 1 in
    match l with [z] => ret z | _ => raise Unmodelled end.
  Fixpoint explode_loop (fuel : nat) (sides : Z) (ex : list Z) (roll total : Z) : MS Z :=
    if existsb (Z.eqb roll) ex then
      match fuel with
      | O => raise Unmodelled
      | S f => let! roll' := one_int 1 (sides + 1)%Z in
               explode_loop f sides ex roll' (total + roll')%Z
      end
    else ret total.
  Definition single_roll (sides : Z) (ex : option (list Z)) : MS Z :=
    let! roll := one_int 1 (sides + 1)%Z in
    match ex with
    | None => ret roll
    | Some l => explode_loop (die_fuel Or) sides l roll roll
    end.
  (** [die_sample], samplers.py:648-689. *)
  Definition die_sample (sides : Z) (ex : option (list Z)) (n : nat) : MS val :=
    match n with
    | 1%nat => let! z := single_roll sides ex in ret (Scalar (PInt z))
    | _ => let! zs := replicateS n (single_roll sides ex) in ret (Arr (ints zs))
    end.

  (** [coin_sample], samplers.py:692-716. *)
  Definition face (z : Z) : pv := PStr (if (z =? 1)%Z then "heads" else "tails").
  Definition coin_sample (n : nat) : MS val :=
    match n with
    | 1%nat => let! z := one_int 0 2 in ret (Scalar (face z))
    | _ => let! zs := rngi (RInt 0 2) n in ret (Arr (map face zs))
    end.

  (** [_enlist] (utils.py:143-149) of a sampled value. *)
  Definition enlist (v : val) : list pv := match v with Scalar x => [x] | Arr l => l end.

  (** Component sampling as the mixture loops see it: the number of samples to
      an action. *)
  Definition sampler := nat -> MS val.

  Definition nth_res {A} (l : list A) (i : nat) : res A :=
    match nth_error l i with Some x => Ok x | None => Err IndexError end.

  (** A single sample used as one element of a Python list; a size-1 array
      (tdist() without bounds) would make a ragged or nested array. *)
  Definition as_scalar (v : val) : MS pv :=
    match v with Scalar x => ret x | Arr _ => raise Unmodelled end.

  (** [_mixture_sample_for_small_n], samplers.py:752-780. *)
  Definition small_n (comps : list sampler) (ws : list Q) (n : nat) : MS val :=
    let! l := replicateS n
       (let! us := rngf (RUniform 0 1) 1 in
        let! u := lift (nth_res us 0) in
        let! i := lift (small_pick ws u) in
        let! c := lift (nth_res comps i) in
        let! v := c 1%nat in
        as_scalar v) in
    ret (simplify l).

  (** [_mixture_sample_for_large_n], samplers.py:719-749: sample every component
      [n] times, draw [n] pickers, then select. *)
  Definition large_n (comps : list sampler) (ws : list Q) (n : nat) : MS val :=
    let! cols := mapS (fun c : sampler => let! v := c n in ret (enlist v)) comps in
    let! us := rngf (RUniform 0 1) n in
    let! l := lift (zipM (fun u i => do k <- large_pick ws u; do col <- nth_res cols k; nth_res col i)
                          us (seq 0 (length us))) in
    ret (simplify l).

  (** [mixture_sample], samplers.py:783-855.  The weights were processed when
      the distribution was built and are processed again here (samplers.py:833);
      the second pass is run by the model as well.  Components are given as a
      list of samplers. *)
  Definition mixture_sample (comps : list sampler) (ws : list Q) (n : nat) : MS val :=
    match fst (pwv (fun _ => None) (fun _ => false) (WList (map Num ws)) WNone (VList comps) false) with
    | Err e => raise e
    | Ok (ws', comps') =>
      match comps' with
      | [c] => c n
      | _ => if Nat.ltb 100 n then large_n comps' ws' n else small_n comps' ws' n
      end
    end.

  (** [sample] of the literal cases, samplers.py:1105-1111. *)
  Definition lit_sample (v : pv) (n : nat) : val := simplify (repeat v n).

  (** Equality of literals as dict keys (Counter, utils.py:103): numbers compare
      by value, nan is not equal to itself. *)
  Definition pv_eqb (a b : pv) : bool :=
    match as_x a, as_x b with
    | Some x, Some y => xeq x y
    | None, None => match a, b with
                    | PStr s, PStr t => String.eqb s t
                    | PNone, PNone => true
                    | _, _ => false
                    end
    | _, _ => false
    end.
  Definition item_pair (i : exv_item) : option (cell * exv_item) :=
    match i with IPlain _ => None | IPair w v => Some (w, IPlain v) end.
  Definition item_eqb (a b : exv_item) : bool :=
    match a, b with IPlain x, IPlain y => pv_eqb x y | _, _ => false end.
  Definition item_is_list (i : exv_item) : bool := match i with IPair _ _ => true | _ => false end.
  Definition item_pv (i : exv_item) : pv := match i with IPlain v => v | IPair _ v => v end.

  (** [sample(const(v), n)]: distributions.py:620 has no clips, so this is
      samplers.py:1137-1138. *)
  Definition const_sampler (v : pv) : sampler := fun n => ret (simplify (np_array (fmt Or) (repeat v n))).

  (** [discrete_sample], samplers.py:569-620. *)
  Definition discrete_sample (r : res (list Q * list exv_item)) (n : nat) : MS val :=
    let! wv := lift r in
    mixture_sample (map (fun i => const_sampler (item_pv i)) (snd wv)) (fst wv) n.
  Definition cat_list (items : list exv_item) : res (list Q * list exv_item) :=
    pdwv item_pair (fun _ => false) item_eqb (forallb (fun i => negb (item_is_list i))) item_is_list items.
  Definition cat_dict (items : list (pv * cell)) : res (list Q * list exv_item) :=
    fst (pwv item_pair (fun _ => false) WNone WNone
             (VDict (map (fun kv => (IPlain (fst kv), snd kv)) items)) false).

  (** The dispatch on simple distributions, samplers.py:1137-1213. *)
  Definition leaf_sample (k : leaf) (n : nat) : MS val :=
    match k with
    | LConst x => ret (simplify (np_array (fmt Or) (repeat x n)))
    | LUniform x y => fsample (RUniform x y) n
    | LNormal m (Some sd) => fsample (RNormal m sd) n
    | LNormal _ None => raise TypeError
    | LLognormal m sd => fsample (RLognormal m sd) n
    | LInvLognormal m sd => inverse_lognormal_sample m sd n
    | LBinomial k p => isample (RBinom k p) n
    | LBeta a b => fsample (RBeta a b) n
    | LBernoulli p => bernoulli_sample p n
    | LPoisson lam => isample (RPois lam) n
    | LChiSquare df => fsample (RChi df) n
    | LExponential sc => fsample (RExp sc) n
    | LGamma sh sc => fsample (RGamma sh sc) n
    | LPareto sh => pareto_sample sh n
    | LTriangular l m r => fsample (RTri l m r) n
    | LPert l m r lam => pert_sample l m r lam n
    | LT x y t c => t_sample x y t c n
    | LLogT x y t c => log_t_sample x y t c n
    | LGeometric p => isample (RGeom p) n
    | LDie sides ex => die_sample sides ex n
    | LCoin => coin_sample n
    | LCatList items => discrete_sample (cat_list items) n
    | LCatDict items => discrete_sample (cat_dict items) n
    end.

  (** Applying a library [dist.fn], samplers.py:1216-1222.  An operator called
      with the wrong number of arguments raises TypeError. *)
  Definition apply_fn (f : fn (G Or)) (a : val) (b : option val) : res val :=
    match f, b with
    | FOp o, Some y => lift2 (fun arr => binop (pow_ Or) arr o) a y
    | FNeg, None => lift1 negop a
    | FLclip, Some y => vectorize2 lclip_fn a y
    | FRclip, Some y => vectorize2 rclip_fn a y
    | FLclip, None | FRclip, None => vectorize1 (fun x => Ok x) a
    | _, _ => Err TypeError
    end.

  (** Own clip attributes of an object (samplers.py:1059-1062); correlated
      members carry the clips of the underlying distribution. *)
  Fixpoint own_clips_dist (d : dist (G Or)) : option num * option num :=
    match d with
    | DLeaf _ lc rc => (lc, rc)
    | DMixture _ _ lc rc => (lc, rc)
    | DComplex _ _ _ => (None, None)
    | DCorr _ i members =>
        nth i (map own_clips_dist members) (None, None)
    end.
  Definition own_clips (o : obj (G Or)) : option num * option num :=
    match o with ODist d => own_clips_dist d | _ => (None, None) end.

  (** Where one correlated sampling stores its columns, samplers.py:888-900:
      every member except the requested one gets its column. *)
  Definition store_cols (g i : nat) (cols : list (list pv)) (s : St) : St :=
    mkState (rng s)
      (fun g' j => if Nat.eqb g' g then
                     (if Nat.eqb j i then corr s g' j
                      else match nth_error cols j with Some c => Some (Arr c) | None => corr s g' j end)
                   else corr s g' j).
  Definition clear_col (g i : nat) (s : St) : St :=
    mkState (rng s)
      (fun g' j => if Nat.eqb g' g && Nat.eqb j i then None else corr s g' j).

  (** Put a number of samples and call-level clips around the object-specific
      part: [n] check (samplers.py:977-979), clip merging (1057-1073), clipping
      (1230-1240) and the final [np.array] of lists (1260).  [is_list] says the
      object-specific part returned a Python list. *)
  Definition finish_list (v : val) : val :=
    match v with Scalar x => Scalar x | Arr l => Arr (np_array (fmt Or) l) end.
  Definition wrap (own : option num * option num) (body : nat -> MS val)
             (n : nat) (lc rc : option num) : MS val :=
    match n with
    | O => raise (ValueError "n must be >= 1")
    | _ =>
      let! v := body n in
      let! w := lift (apply_clips (merge_l lc (fst own)) (merge_r rc (snd own)) v) in
      ret (finish_list w)
    end.

  (** [sample(o, n, lclip, rclip)] without caches, on one core
      (samplers.py:903-1260).  [smp_dist] is the dispatch on distributions;
      [corr_ok] is [_correlate_if_needed]. *)
  Fixpoint smp (o : obj (G Or)) : nat -> option num -> option num -> MS val :=
    match o with
    | OOther => wrap (None, None) (fun _ => raise (ValueError "input to sample is malformed"))
    | OLit v => wrap (None, None) (fun n => ret (lit_sample v n))
    | OCall f =>
        wrap (None, None) (fun n s =>
          (** [out = [dist() for _ in range(n)]], then each element resolved;
              [call_n k] does the remaining [k] calls and resolutions. *)
          (let! rs := (fix call_all (k : nat) : MS (list (MS pv)) :=
              match k with
              | O => ret []
              | S k' => fun s0 =>
                  match f s0 with
                  | (Err e, s1) => (Err e, s1)
                  | (Ok o', s1) =>
                      let resolve : MS pv :=
                        match o' with
                        | OLit v => ret v
                        | OOther => raise Unmodelled
                        | OCall _ | ODist _ => let! v := smp o' 1%nat None None in as_scalar v
                        end in
                      match call_all k' s1 with
                      | (Err e, s2) => (Err e, s2)
                      | (Ok rest, s2) => (Ok (resolve :: rest), s2)
                      end
                  end
              end) n in
           let! l := seqS rs in
           ret (simplify (np_array (fmt Or) l))) s)
    | ODist d => smp_dist true d
    end
  with smp_dist (corr_ok : bool) (d : dist (G Or)) : nat -> option num -> option num -> MS val :=
    match d with
    | DLeaf k lc rc => wrap (lc, rc) (leaf_sample k)
    | DMixture ws ds lc rc =>
        wrap (lc, rc) (fun n =>
          mixture_sample (map (fun o (k : nat) => smp o k None None) ds) ws n)
    | DComplex l r f =>
        wrap (None, None) (fun n =>
          let! a := smp l n None None in
          let! b := match r with
                    | OLit PNone => ret None
                    | _ => let! y := smp r n None None in ret (Some y)
                    end in
          fun s =>
            match f with
            | FUser1 h =>
                match b with
                | Some _ => (Err TypeError, s)
                | None => match h a s with
                          | (Err e, s') => (Err e, s')
                          | (Ok (inl v), s') => (Ok v, s')
                          | (Ok (inr o'), s') =>
                              if is_dist_or_callable o' then smp o' n None None s'
                              else (Err Unmodelled, s')
                          end
                end
            | FUser2 h =>
                match b with
                | None => (Err TypeError, s)
                | Some y => match h a y s with
                          | (Err e, s') => (Err e, s')
                          | (Ok (inl v), s') => (Ok v, s')
                          | (Ok (inr o'), s') =>
                              if is_dist_or_callable o' then smp o' n None None s'
                              else (Err Unmodelled, s')
                          end
                end
            | _ => (apply_fn f a b, s)
            end)
    | DCorr g i members =>
        let cols := map (smp_dist false) members in
        let own := own_clips_dist d in
        if corr_ok then
          wrap own (fun n s =>
            match corr s g i with
            | Some v => (Ok v, clear_col g i s)            (* samplers.py:1126-1135 *)
            | None =>                                       (* samplers.py:1115-1124 *)
              (let! vs := seqS (map (fun c : nat -> option num -> option num -> MS val => c n None None) cols) in
               let! newcols := lift (induce Or g (map enlist vs)) in
               fun s1 => match nth_error newcols i with
                         | Some c => (Ok (Arr c), store_cols g i newcols s1)
                         | None => (Err AssertionError, s1)
                         end) s
            end)
        else match nth_error cols i with
             | Some c => c
             | None => fun _ _ _ => raise Unmodelled
             end
    end.
End Sampler.
