(** Model of the Kelly helpers, squigglepy/utils.py:891-1250.

    Simplifications: exact rational arithmetic; all arguments are finite numbers.  The
    resolve date enters as the number of days [(resolve_date - datetime.now()).days],
    which M_Date computes from the text and the time. *)
From Coq Require Import Qabs.
From Verif Require Import Base M_Values M_Ops.
Open Scope Q_scope.

(** [resolve_date]: None, a string that [strptime] rejects, or a date so many days
    ahead. *)
Inductive date : Type := NoDate | BadDate | InDays (days : Z).

(** The dict returned by [kelly]; [k_arr] is None without a date. *)
Record kelly_result : Type := Kelly {
  k_my_price : Q; k_market_price : Q; k_deference : Q; k_adj_price : Q;
  k_delta_price : Q; k_adj_delta_price : Q; k_kelly : Q; k_target : Q;
  k_current : Q; k_delta : Q; k_max_gain : Q; k_modeled_gain : Q;
  k_expected_roi : Q; k_arr : option Q; k_resolve_date : date }.

(** utils.py:960. *)
Definition adj_price (my market deference : Q) : Q := my * (1 - deference) + market * deference.
(** utils.py:961. *)
Definition kelly_fraction (my market deference : Q) : Q :=
  let adj := adj_price my market deference in
  Qabs (adj - (1 - adj) * (market / (1 - market))).
(** utils.py:963. *)
Definition expected_roi (my market deference : Q) : Q :=
  Qabs (adj_price my market deference / market - 1).

Section Kelly.
  (** [power x d] is [x ** (365 / d)], a floating point power. *)
  Variable power : Q -> Z -> Q.

  (** [kelly], utils.py:891-986. *)
  Definition kelly (my market deference bankroll : Q) (resolve : date) (current : Q) (error : bool) : res kelly_result :=
    if Qle_bool 1 market || Qle_bool market 0 then Err (ValueError "market_price must be >0 and <1")
    else if Qle_bool 1 my || Qle_bool my 0 then Err (ValueError "my_price must be >0 and <1")
    else if Qlt_bool 1 deference || Qlt_bool deference 0 then Err (ValueError "deference must be >=0 and <=1")
    else if Qlt_bool my market && error then Err (ValueError "Your odds are below the market price.")
    else
      let adj := adj_price my market deference in
      let fraction := kelly_fraction my market deference in
      let target := bankroll * fraction in
      let roi := expected_roi my market deference in
      do arr <- match resolve with
                | NoDate => Ok None
                | BadDate => Err (ValueError "time data does not match format")
                | InDays d => if (d =? 0)%Z then Err ZeroDivisionError else Ok (Some (power (roi + 1) d - 1))
                end;
      Ok {| k_my_price := np_round my 2;
            k_market_price := np_round market 2;
            k_deference := np_round deference 3;
            k_adj_price := np_round adj 2;
            k_delta_price := np_round (Qabs (market - my)) 2;
            k_adj_delta_price := np_round (Qabs (market - adj)) 2;
            k_kelly := np_round fraction 3;
            k_target := np_round target 2;
            k_current := np_round current 2;
            k_delta := np_round (target - current) 2;
            k_max_gain := np_round (target / market - target) 2;
            k_modeled_gain := np_round (adj * (target / market) - target) 2;
            k_expected_roi := np_round roi 3;
            k_arr := match arr with Some a => Some (np_round a 3) | None => None end;
            k_resolve_date := resolve |}.

  (** [full_kelly], [half_kelly], [third_kelly], [quarter_kelly], utils.py:989-1250. *)
  Definition full_kelly (my market bankroll : Q) resolve current error := kelly my market 0 bankroll resolve current error.
  Definition half_kelly (my market bankroll : Q) resolve current error := kelly my market (1#2) bankroll resolve current error.
  Definition third_kelly (my market bankroll : Q) resolve current error := kelly my market (6666#10000) bankroll resolve current error.
  Definition quarter_kelly (my market bankroll : Q) resolve current error := kelly my market (3#4) bankroll resolve current error.
End Kelly.
