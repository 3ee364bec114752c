(** Model of the formula helpers of squigglepy/utils.py over real numbers: odds,
    geometric means, Laplace's rule, growth rates, extremizing, Sharpe ratio.

    Simplifications: exact real arithmetic instead of floats (so no overflow and no
    rounding); strings, bools and distributions as arguments are not represented. *)
From Coq Require Import Reals.
From Verif Require Import Base M_Weights.
Open Scope R_scope.

(** A number as Python or numpy has it, or None. *)
Inductive rnum : Type := RFin (r : R) | RInf | RMinf | RNan | RNone.

(** [_is_na_like], utils.py:119-120. *)
Definition na_like (v : rnum) : bool := match v with RNan | RNone => true | _ => false end.

(** A number, or a sequence of numbers (list, tuple or numpy array). *)
Inductive rarg : Type := RScalar (v : rnum) | RSeq (l : list rnum).
(** [_enlist], utils.py:143-149. *)
Definition renlist (a : rarg) : list rnum := match a with RScalar v => [v] | RSeq l => l end.
(** [_simplify(np.array(l))], utils.py:135-140: an array of one element becomes that
    element. *)
Definition rsimplify (l : list rnum) : rarg := match l with [v] => RScalar v | _ => RSeq l end.

(** [p_to_odds._convert], utils.py:683-688. *)
Definition odds_of (v : rnum) : res rnum :=
  if na_like v then Ok v
  else match v with
       | RFin p => if Rle_dec p 0 then Err (ValueError "p must be between 0 and 1")
                   else if Rle_dec 1 p then Err (ValueError "p must be between 0 and 1")
                   else Ok (RFin (p / (1 - p)))
       | _ => Err (ValueError "p must be between 0 and 1")
       end.
(** [p_to_odds], utils.py:663-690. *)
Definition p_to_odds (a : rarg) : res rarg :=
  do l <- mapM odds_of (renlist a); Ok (rsimplify l).

(** [odds_to_p._convert], utils.py:713-718; [inf / (1 + inf)] is nan. *)
Definition prob_of (v : rnum) : res rnum :=
  if na_like v then Ok v
  else match v with
       | RFin o => if Rle_dec o 0 then Err (ValueError "odds must be greater than 0")
                   else Ok (RFin (o / (1 + o)))
       | RInf => Ok RNan
       | _ => Err (ValueError "odds must be greater than 0")
       end.
(** [odds_to_p], utils.py:693-720. *)
Definition odds_to_p (a : rarg) : res rarg :=
  do l <- mapM prob_of (renlist a); Ok (rsimplify l).

(** Arithmetic with infinities. *)
Definition radd (a b : rnum) : rnum :=
  match a, b with
  | RFin x, RFin y => RFin (x + y)
  | RFin _, RInf | RInf, RFin _ | RInf, RInf => RInf
  | RFin _, RMinf | RMinf, RFin _ | RMinf, RMinf => RMinf
  | _, _ => RNan
  end.
(** Multiplication by a finite number. *)
Definition rscale (k : R) (a : rnum) : rnum :=
  match a with
  | RFin x => RFin (k * x)
  | RInf => if Rlt_dec 0 k then RInf else if Rlt_dec k 0 then RMinf else RNan
  | RMinf => if Rlt_dec 0 k then RMinf else if Rlt_dec k 0 then RInf else RNan
  | _ => RNan
  end.

(** [np.log] on one entry (numpy warns and returns -inf or nan where Python would
    raise); None makes it an object array, which raises. *)
Definition np_log (v : rnum) : res rnum :=
  match v with
  | RFin x => Ok (if Rlt_dec 0 x then RFin (ln x) else if Req_EM_T x 0 then RMinf else RNan)
  | RInf => Ok RInf
  | RMinf | RNan => Ok RNan
  | RNone => Err TypeError
  end.
Definition np_exp (v : rnum) : rnum :=
  match v with RFin x => RFin (exp x) | RInf => RInf | RMinf => RFin 0 | _ => RNan end.

(** A value of the first argument of [geomean]: a number or a two-element list
    [[weight, number]]. *)
Inductive gitem : Type := GVal (v : rnum) | GPair (w : cell) (v : rnum).
Definition g_pair (i : gitem) : option (cell * gitem) :=
  match i with GPair w v => Some (w, GVal v) | GVal _ => None end.
Definition g_na (i : gitem) : bool := match i with GVal v => na_like v | GPair _ _ => false end.
(** After weight processing only numbers are left, unless weights were given
    separately from pairs; numpy then sees a nested list. *)
Definition g_num (i : gitem) : res rnum := match i with GVal v => Ok v | GPair _ _ => Err Unmodelled end.

Fixpoint weighted_sum (ws : list Q) (l : list rnum) : rnum :=
  match ws, l with
  | w :: ws', v :: l' => radd (rscale (Q2R w) v) (weighted_sum ws' l')
  | _, _ => RFin 0
  end.
Fixpoint weight_total (ws : list Q) : R :=
  match ws with [] => 0 | w :: ws' => Q2R w + weight_total ws' end.
(** [np.average(l, weights=ws)]: sum of products over sum of weights. *)
Definition average (ws : list Q) (l : list rnum) : res rnum :=
  if Req_EM_T (weight_total ws) 0 then Err ZeroDivisionError
  else Ok (rscale (/ weight_total ws) (weighted_sum ws l)).

(** [geomean], utils.py:633-660. *)
Definition geomean (weights relative_weights : warg) (a : varg gitem) (drop_na : bool) : res rnum :=
  do wa <- fst (pwv g_pair g_na weights relative_weights a drop_na);
  do vs <- mapM g_num (snd wa);
  do logs <- mapM np_log vs;
  do m <- average (fst wa) logs;
  Ok (np_exp m).

(** [geomean_odds], utils.py:723-750.  [p_to_odds] turns a one-element list into a
    number, which [geomean] does not take. *)
Definition geomean_odds (weights relative_weights : warg) (a : varg gitem) (drop_na : bool) : res rarg :=
  do wa <- fst (pwv g_pair g_na weights relative_weights a drop_na);
  do vs <- mapM g_num (snd wa);
  do o <- p_to_odds (RSeq vs);
  do g <- geomean (WList (map Num (fst wa))) WNone
            (match o with RScalar RNone => VNone | RScalar _ => VNonIter | RSeq l => VArray (map GVal l) end) true;
  odds_to_p (RScalar g).

(** [laplace], utils.py:753-815.  [s] and [n] are integers, as documented; times are
    numbers.  A zero [time_passed] divides by zero, as does 0 to a negative power. *)
Definition power_neg (b : R) (k : Z) : res R :=
  if Req_EM_T b 0 then (if Z.ltb 0 k then Err ZeroDivisionError else Ok (powerRZ b (- k)))
  else Ok (powerRZ b (- k)).
Definition laplace_time (remaining passed : R) (k : Z) : res R :=
  if Req_EM_T passed 0 then Err ZeroDivisionError
  else do x <- power_neg (1 + remaining / passed) k; Ok (1 - x).
Definition laplace (s : Z) (n : option Z) (time_passed time_remaining : option R) (time_fixed : bool) : res R :=
  if match n with Some m => Z.ltb m s | None => false end then Err (ValueError "`s` cannot be greater than `n`")
  else match time_passed, time_remaining, n with
  | None, None, Some m =>
      if Z.eqb (m + 2) 0 then Err ZeroDivisionError else Ok (IZR (s + 1) / IZR (m + 2))
  | Some t, r, _ =>
      let rem := match r with Some x => x | None => 1 end in
      if Z.eqb s 0 then laplace_time rem t 1
      else if Z.ltb 0 s && negb time_fixed then laplace_time rem t s
      else if Z.ltb 0 s && time_fixed then laplace_time rem t (s + 1)
      else Err (ValueError "Fatal logic error")
  | None, _, None => Err (ValueError "Must define `time_passed` or `n`")
  | None, Some _, Some _ => Err (ValueError "Must define `time_passed`")
  end.

(** [growth_rate_to_doubling_time] of a Python number, utils.py:818-851 ([math.log]
    raises ValueError outside its domain). *)
Definition growth_rate_to_doubling_time (g : R) : res R :=
  if Rle_dec (1 + g) 0 then Err (ValueError "math domain error")
  else if Req_EM_T (ln (1 + g)) 0 then Err ZeroDivisionError
  else Ok (ln 2 / ln (1 + g)).
(** [doubling_time_to_growth_rate] of a Python number, utils.py:854-888. *)
Definition doubling_time_to_growth_rate (t : R) : res R :=
  if Req_EM_T t 0 then Err ZeroDivisionError else Ok (exp (ln 2 / t) - 1).

(** The same functions on numpy arrays, element by element: [np.log] and division never
    raise but give infinities and nan.  Simplification: a zero counts as +0. *)
Definition array_log (x : R) : rnum :=
  if Rlt_dec 0 x then RFin (ln x) else if Req_EM_T x 0 then RMinf else RNan.
Definition ln2_over (y : rnum) : rnum :=
  match y with
  | RFin v => if Req_EM_T v 0 then RInf else RFin (ln 2 / v)
  | RInf | RMinf => RFin 0
  | RNan | RNone => RNan
  end.
(** [np.log(2) / np.log(1.0 + growth_rate)], utils.py:848-849. *)
Definition growth_rates_to_doubling_times (l : list R) : list rnum :=
  map (fun g => ln2_over (array_log (1 + g))) l.
(** [np.exp(np.log(2) / doubling_time) - 1], utils.py:885-886. *)
Definition array_exp_minus_1 (y : rnum) : rnum :=
  match y with RFin v => RFin (exp v - 1) | RInf => RInf | RMinf => RFin (-1) | RNan | RNone => RNan end.
Definition doubling_times_to_growth_rates (l : list R) : list rnum :=
  map (fun t => array_exp_minus_1 (ln2_over (RFin t))) l.

(** [extremize], utils.py:1253-1281; powers of a base in (0, 1). *)
Definition extremize (p e : R) : res R :=
  if Rle_dec p 0 then Err (ValueError "`p` must be greater than 0 and less than 1")
  else if Rle_dec 1 p then Err (ValueError "`p` must be greater than 0 and less than 1")
  else if Rlt_dec (1 / 2) p then Ok (1 - Rpower (1 - p) e)
  else Ok (Rpower p e).

(** [np.mean] and [np.std] (population form). *)
Fixpoint rsum (l : list R) : R := match l with [] => 0 | x :: l' => x + rsum l' end.
Definition np_mean (l : list R) : R := rsum l / INR (length l).
Definition np_std (l : list R) : R := sqrt (np_mean (map (fun x => Rsqr (x - np_mean l)) l)).
(** [sharpe_ratio], utils.py:1284-1305.  Without returns numpy gives nan; a zero
    deviation gives nan or an infinity by the sign of the numerator. *)
Definition sharpe_ratio (l : list R) (risk_free : R) : rnum :=
  match l with
  | [] => RNan
  | _ => let d := np_mean l - risk_free in
         if Req_EM_T (np_std l) 0
         then (if Rlt_dec 0 d then RInf else if Rlt_dec d 0 then RMinf else RNan)
         else RFin (d / np_std l)
  end.
