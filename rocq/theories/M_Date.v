(** Model of the resolve date of [kelly], squigglepy/utils.py:965-969:
    [datetime.strptime(resolve_date, "%Y-%m-%d")] and
    [(resolve_date - datetime.now()).days].

    Simplification: characters are 8 bit codes, among which only 0-9 match [\d]. *)
From Coq Require Import Ascii String.
From Verif Require Import Base M_IntText M_Kelly.
Open Scope Z_scope.

(** * The proleptic Gregorian calendar of [datetime] *)
Record day : Type := Day { year : Z; month : Z; dom : Z }.

Definition is_leap (y : Z) : bool := (y mod 4 =? 0) && (negb (y mod 100 =? 0) || (y mod 400 =? 0)).
Definition days_in_month (y m : Z) : Z :=
  if m =? 2 then (if is_leap y then 29 else 28)
  else if (m =? 4) || (m =? 6) || (m =? 9) || (m =? 11) then 30 else 31.
Definition days_before_year (y : Z) : Z := let y := y - 1 in y * 365 + y / 4 - y / 100 + y / 400.
Definition days_before_month (y m : Z) : Z :=
  nth (Z.to_nat m) [0; 0; 31; 59; 90; 120; 151; 181; 212; 243; 273; 304; 334] 0 + (if (2 <? m) && is_leap y then 1 else 0).
(** [date.toordinal]. *)
Definition ordinal (a : day) : Z := days_before_year (year a) + days_before_month (year a) (month a) + dom a.
(** The range checks of the [datetime] constructor. *)
Definition valid_day (a : day) : bool :=
  (1 <=? year a) && (year a <=? 9999) && (1 <=? month a) && (month a <=? 12) && (1 <=? dom a) && (dom a <=? days_in_month (year a) (month a)).

(** * [strptime] with the format "%Y-%m-%d" *)
(** The regular expression is
    [(\d\d\d\d)-(1[0-2]|0[1-9]|[1-9])-(3[0-1]|[1-2]\d|0[1-9]|[1-9]| [1-9])].  A group
    returns its matches in the order in which they are tried, each with the rest of the
    text. *)
Definition digit (c : nat) : option Z := if is_digit c then Some (Z.of_nat c - 48) else None.
Definition two (first : Z) (lo hi : Z) (l : list nat) : list (Z * list nat) :=
  match l with
  | a :: b :: r =>
      match digit a, digit b with
      | Some x, Some y => if (x =? first) && (lo <=? y) && (y <=? hi) then [(10 * x + y, r)] else []
      | _, _ => []
      end
  | _ => []
  end.
Definition one (l : list nat) : list (Z * list nat) :=
  match l with
  | a :: r => match digit a with Some x => if 1 <=? x then [(x, r)] else [] | None => [] end
  | [] => []
  end.
Definition spaced (l : list nat) : list (Z * list nat) :=
  match l with a :: r => if Nat.eqb a 32 then one r else [] | [] => [] end.
Definition re_year (l : list nat) : list (Z * list nat) :=
  match l with
  | a :: b :: c :: d :: r =>
      match digit a, digit b, digit c, digit d with
      | Some x, Some y, Some z, Some w => [(1000 * x + 100 * y + 10 * z + w, r)]
      | _, _, _, _ => []
      end
  | _ => []
  end.
Definition re_month (l : list nat) : list (Z * list nat) := two 1 0 2 l ++ two 0 1 9 l ++ one l.
Definition re_day (l : list nat) : list (Z * list nat) :=
  two 3 0 1 l ++ (two 1 0 9 l ++ two 2 0 9 l) ++ two 0 1 9 l ++ one l ++ spaced l.
Definition dash (l : list nat) : list (list nat) := match l with a :: r => if Nat.eqb a 45 then [r] else [] | [] => [] end.
Definition matches (l : list nat) : list (day * list nat) :=
  flat_map (fun yr => flat_map (fun r1 => flat_map (fun mr => flat_map (fun r2 =>
    map (fun dr => (Day (fst yr) (fst mr) (fst dr), snd dr)) (re_day r2)) (dash (snd mr))) (re_month r1)) (dash (snd yr))) (re_year l).
(** The first match must use up the text, and the day must exist. *)
Definition strptime (s : string) : res day :=
  match matches (codes s) with
  | [] => Err (ValueError "time data does not match format")
  | (a, []) :: _ => if valid_day a then Ok a else Err (ValueError "day is out of range for month")
  | _ => Err (ValueError "unconverted data remains")
  end.

(** * The days left *)
(** [datetime.now()]: a day and the microseconds since midnight. *)
Record moment : Type := At { on : day; micros : Z }.
Definition day_length : Z := 24 * 60 * 60 * 1000000.
(** [timedelta.days] rounds down. *)
Definition days_left (now : moment) (a : day) : Z :=
  (ordinal a * day_length - (ordinal (on now) * day_length + micros now)) / day_length.

(** What [kelly] makes of its [resolve_date] argument. *)
Definition resolve (now : moment) (text : option string) : date :=
  match text with
  | None => NoDate
  | Some s => match strptime s with Ok a => InDays (days_left now a) | Err _ => BadDate end
  end.
Definition kelly_on (power : Q -> Z -> Q) (now : moment) (my market deference bankroll : Q) (text : option string) (current : Q) (error : bool) :=
  kelly power my market deference bankroll (resolve now text) current error.
