(** Model of [get_log_percentiles], squigglepy/utils.py:503-556.

    Simplifications: as in M_Percentiles; logarithms are exact reals.  A text is
    represented by the number written and the digits of its mantissa.  Rounding the
    logarithm is the oracle [round_real]; turning an infinite or undefined logarithm into
    an int is [Unmodelled]. *)
From Coq Require Import Reals Qreals.
From Verif Require Import Base M_Values M_Ops M_Formulas M_Percentiles.

(** [np.log10] of a finite number. *)
Definition np_log10 (v : Q) : rnum :=
  if Qlt_bool 0 v then RFin (ln (Q2R v) / ln 10)%R
  else if Qeq_bool v 0 then RMinf else RNan.

(** [("{:." + str(digits) + "e}").format(v)]. *)
Definition scientific (digits : option Z) (v : Q) : res (Q * Z) :=
  match digits with
  | Some d => if (d <? 0)%Z then Err (ValueError "Format specifier missing precision") else Ok (v, d)
  | None => Err (ValueError "Format specifier missing precision")
  end.

Inductive lout : Type :=
| LNone                                 (* Python's None *)
| LLog (x : rnum)
| LTexts (d : list (Q * (Q * Z)))
| LLogs (d : list (Q * rnum)).

Section Log.
  Variable argsort : list Q -> list nat.
  Variable round_real : Z -> R -> R.

  (** [_round(np.log10(v), digits)]. *)
  Definition round_log (digits : option Z) (x : rnum) : res rnum :=
    match digits, x with
    | None, _ => Ok x
    | Some d, RFin r => Ok (RFin (round_real d r))
    | Some d, _ => if (d <=? 0)%Z then Err Unmodelled else Ok x
    end.

  (** [get_log_percentiles], utils.py:503-556; the text of a single percentile is
      computed and thrown away. *)
  Definition get_log_percentiles (data : list Q) (percentiles : parg) (weights : option (list Q))
      (reverse display : bool) (digits : option Z) : res lout :=
    do o <- get_percentiles argsort data percentiles weights reverse digits;
    match o, display with
    | Dict d, true => do l <- mapM (fun kv => do t <- scientific digits (snd kv); Ok (fst kv, t)) d; Ok (LTexts l)
    | Dict d, false => do l <- mapM (fun kv => do x <- round_log digits (np_log10 (snd kv)); Ok (fst kv, x)) d; Ok (LLogs l)
    | One v, true => do _ <- scientific digits v; Ok LNone
    | One v, false => do x <- round_log digits (np_log10 v); Ok (LLog x)
    end.
End Log.
