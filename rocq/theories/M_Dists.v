(** Model of the normal family of constructors in squigglepy/distributions.py and
    of [update] in squigglepy/bayes.py, over real numbers.

    Simplifications: exact real arithmetic instead of floats; the parameters are
    numbers or None.  Division by zero, which Python numbers raise on and numpy
    scalars turn into inf or nan, is [ZeroDivisionError] here except for the
    quotient by the normal quantile, where theorems ask for a credibility strictly
    between 0 and 100. *)
From Coq Require Import Reals String Bool.
From Verif Require Import Base.
Open Scope R_scope.

Definition have (o : option R) : bool := match o with Some _ => true | None => false end.
Definition need (o : option R) : res R := match o with Some x => Ok x | None => Err TypeError end.
(** [a is not None and b is not None and a > b] *)
Definition above (a b : option R) : bool :=
  match a, b with Some x, Some y => if Rlt_dec y x then true else false | _, _ => false end.
Definition non_positive (a : option R) : bool :=
  match a with Some x => if Rle_dec x 0 then true else false | None => false end.

Section Dists.
  (** [scipy.stats.norm.ppf] *)
  Variable ppf : R -> R.

  (** [0.5 + 0.5 * (credibility / 100)] *)
  Definition cdf_value (cred : R) : R := 1 / 2 + 1 / 2 * (cred / 100).

  Record normal : Type := mkNormal {
    n_mean : option R; n_sd : option R; n_lclip : option R; n_rclip : option R }.

  (** [NormalDistribution.__init__], distributions.py:687-711. *)
  Definition norm (x y mean sd : option R) (cred : R) (lc rc : option R) : res normal :=
    if above x y then Err (ValueError "high value cannot be lower than low value")
    else if (negb (have x) || negb (have y)) && negb (have sd) then
      Err (ValueError "must define either x/y or mean/sd")
    else if (have x || have y) && have sd then
      Err (ValueError "must define either x/y or mean/sd -- cannot define both")
    else
      let mean := if have sd && negb (have mean) then Some 0 else mean in
      if negb (have mean) && negb (have sd) then
        do x <- need x; do y <- need y;
        let m := (x + y) / 2 in
        Ok (mkNormal (Some m) (Some ((y - m) / ppf (cdf_value cred))) lc rc)
      else Ok (mkNormal mean sd lc rc).

  Record lognormal : Type := mkLognormal {
    l_mean : option R; l_sd : option R;         (* norm_mean, norm_sd *)
    l_lmean : option R; l_lsd : option R;       (* lognorm_mean, lognorm_sd *)
    l_lclip : option R; l_rclip : option R }.

  (** The argument checks shared by lognorm and invlognorm,
      distributions.py:790-818 and 873-901; then the defaults of line 815-818.
      Result: norm_mean, norm_sd, lognorm_mean, lognorm_sd. *)
  Definition log_checks (x y nmean nsd lmean lsd : option R) : res (option R * option R * option R * option R) :=
    if above x y then Err (ValueError "high value cannot be lower than low value")
    else if non_positive x then Err (ValueError "lognormal distribution must have values > 0")
    else if (negb (have x) || negb (have y)) && negb (have nsd) && negb (have lsd) then
      Err (ValueError "must define only one")
    else if (have x || have y) && (have nsd || have lsd) then Err (ValueError "must define only one")
    else if (have nsd || have nmean) && (have lsd || have lmean) then Err (ValueError "must define only one")
    else if have nsd && negb (have nmean) then Ok (Some 0, nsd, lmean, lsd)
    else if have lsd && negb (have lmean) then Ok (nmean, nsd, Some 1, lsd)
    else Ok (nmean, nsd, lmean, lsd).

  (** Moments of a lognormal from the underlying normal and back,
      distributions.py:826-836; [m ** 2 / ...] with m = 0 raises. *)
  Definition to_moments (m s : R) : R * R :=
    (exp (m + Rsqr s / 2), sqrt ((exp (Rsqr s) - 1) * exp (2 * m + Rsqr s))).
  Definition from_moments (m s : R) : res (R * R) :=
    if Req_EM_T m 0 then Err ZeroDivisionError
    else Ok (ln (Rsqr m / sqrt (Rsqr s + Rsqr m)), sqrt (ln (1 + Rsqr s / Rsqr m))).

  (** [LognormalDistribution.__init__], distributions.py:767-836. *)
  Definition lognorm (x y nmean nsd lmean lsd : option R) (cred : R) (lc rc : option R) : res lognormal :=
    do r <- log_checks x y nmean nsd lmean lsd;
    let '(nmean, nsd, lmean, lsd) := r in
    do nn <- (match x with
              | Some x =>
                  do y <- need y;
                  let m := (ln x + ln y) / 2 in
                  Ok (Some m, Some ((ln y - m) / ppf (cdf_value cred)))
              | None => Ok (nmean, nsd)
              end);
    let '(nmean, nsd) := nn in
    match lsd with
    | None =>
        do m <- need nmean; do s <- need nsd;
        Ok (mkLognormal nmean nsd (Some (fst (to_moments m s))) (Some (snd (to_moments m s))) lc rc)
    | Some ls =>
        match nsd with
        | None =>
            do lm <- need lmean;
            do r <- from_moments lm ls;
            Ok (mkLognormal (Some (fst r)) (Some (snd r)) lmean lsd lc rc)
        | Some _ => Ok (mkLognormal nmean nsd lmean lsd lc rc)
        end
    end.

  (** [InverseLognormalDistribution.__init__], distributions.py:850-926. *)
  Definition inv_moments (m s : R) : R * R :=
    let lm := exp (m + Rsqr s / 2) in
    let lv := (exp (Rsqr s) - 1) * exp (2 * m + Rsqr s) in
    let mean := 1 / sqrt (lv + Rsqr lm) * exp (- m + Rsqr s / 2) in
    (mean, mean * sqrt (exp (Rsqr s) - 1)).
  Definition inv_from_moments (lm ls : R) : res (R * R) :=
    if Req_EM_T lm 0 then Err ZeroDivisionError
    else
      let sd := sqrt (ln (1 + Rsqr ls / Rsqr lm)) in
      Ok (- ln lm - Rsqr sd / 2, sd).
  Definition invlognorm (x y nmean nsd lmean lsd : option R) (cred : R) (lc rc : option R) : res lognormal :=
    do r <- log_checks x y nmean nsd lmean lsd;
    let '(nmean, nsd, lmean, lsd) := r in
    do nn <- (match x with
              | Some x =>
                  do y <- need y;
                  let ix := 1 / y in
                  let iy := 1 / x in
                  let m := (ln ix + ln iy) / 2 in
                  Ok (Some m, Some ((ln iy - m) / ppf (cdf_value cred)))
              | None => Ok (nmean, nsd)
              end);
    let '(nmean, nsd) := nn in
    match lsd with
    | None =>
        do m <- need nmean; do s <- need nsd;
        Ok (mkLognormal nmean nsd (Some (fst (inv_moments m s))) (Some (snd (inv_moments m s))) lc rc)
    | Some ls =>
        match nsd with
        | None =>
            do lm <- need lmean;
            do r <- inv_from_moments lm ls;
            Ok (mkLognormal (Some (fst r)) (Some (snd r)) lmean lsd lc rc)
        | Some _ => Ok (mkLognormal nmean nsd lmean lsd lc rc)
        end
    end.

  (** Distributions as [update] sees them; [DOther k]: an object of class number
      [k], none of the four. *)
  Inductive rdist : Type :=
  | DNorm (d : normal)
  | DLognorm (d : lognormal)
  | DBeta (a b : R)
  | DGamma (shape scale : R) (lc rc : option R)
  | DOther (k : nat).

  (** [to(x, y, ...)], distributions.py:1078-1117. *)
  Definition to (x y : R) (cred : R) (lc rc : option R) : res rdist :=
    if Rlt_dec 0 x then
      do d <- lognorm (Some x) (Some y) None None None None cred lc rc; Ok (DLognorm d)
    else
      do d <- norm (Some x) (Some y) None None cred lc rc; Ok (DNorm d).

  (** The formula of bayes.py:358-366 and 375-382: mean and sd from two means,
      two variances and a weight; [math.sqrt] rejects negative arguments. *)
  Definition combine (pm pv em ev w : R) : res (R * R) :=
    let d := w * pv + ev in
    if Req_EM_T d 0 then Err ZeroDivisionError
    else if Rlt_dec (ev * pv / d) 0 then Err (ValueError "math domain error")
    else Ok ((ev * pm + w * (pv * em)) / d, sqrt (ev * pv / d)).

  (** [update], bayes.py:313-413.  The credibility passed on is the default one;
      it is not used.  Only the message distinguishes unequal from unsupported
      types. *)
  Definition update (prior evidence : rdist) (w : R) : res rdist :=
    match prior, evidence with
    | DNorm p, DNorm e =>
        do ps <- need (n_sd p); do es <- need (n_sd e);
        do pm <- need (n_mean p); do em <- need (n_mean e);
        do r <- combine pm (Rsqr ps) em (Rsqr es) w;
        do d <- norm None None (Some (fst r)) (Some (snd r)) 90 None None;
        Ok (DNorm d)
    | DLognorm p, DLognorm e =>
        do ps <- need (l_sd p); do es <- need (l_sd e);
        do pm <- need (l_mean p); do em <- need (l_mean e);
        do r <- combine pm (Rsqr ps) em (Rsqr es) w;
        do d <- lognorm None None (Some (fst r)) (Some (snd r)) None None 90 None None;
        Ok (DLognorm d)
    | DBeta a b, DBeta a' b' => Ok (DBeta (a + a') (b + b'))
    | DGamma ps pc _ _, DGamma es ec _ _ =>
        let es := es * w in
        if Req_EM_T pc 0 then Err ZeroDivisionError
        else if Req_EM_T ec 0 then Err ZeroDivisionError
        else if Req_EM_T (ps + es) 0 then Err ZeroDivisionError
        else
          let rate := (ps * (1 / pc) + es * (1 / ec)) / (ps + es) in
          if Req_EM_T rate 0 then Err ZeroDivisionError
          else Ok (DGamma (ps + es) (1 / rate) None None)
    | DOther k, DOther k' =>
        if Nat.eqb k k' then Err (ValueError "type not supported.")
        else Err (ValueError "can only update distributions of the same type.")
    | _, _ => Err (ValueError "can only update distributions of the same type.")
    end.
End Dists.
