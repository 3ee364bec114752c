(** Choosing a mixture component: the two loops of squigglepy/samplers.py and
    the multicore work split of squigglepy/utils.py. *)
From Verif Require Import Base.
Open Scope Q_scope.

(** [np.cumsum(weights)] (samplers.py:739 and 769): running sums from the left.
    Simplification: exact instead of floating-point sums. *)
Fixpoint cumsum_from (acc : Q) (ws : list Q) : list Q :=
  match ws with
  | [] => []
  | w :: ws' => (acc + w) :: cumsum_from (acc + w) ws'
  end.
Definition cumsum (ws : list Q) : list Q := cumsum_from 0 ws.

(** The scan of [_mixture_sample_for_small_n._run_mixture], samplers.py:762-767:
    return the first index [i] with [r_ <= weights[i]], and the last component
    when the loop runs out.  [last] is the loop variable after the loop; with no
    components at all Python raises UnboundLocalError. *)
Fixpoint scan (cum : list Q) (r : Q) (i : nat) (last : res nat) : res nat :=
  match cum with
  | [] => last
  | c :: cum' => if Qle_bool r c then Ok i else scan cum' r (S i) (Ok i)
  end.
Definition small_pick (ws : list Q) (r : Q) : res nat :=
  scan (cumsum ws) r 0 (Err NameError).

(** CPython's [bisect.bisect_left(a, x)] (called at samplers.py:736):
    [while lo < hi: mid = (lo + hi) // 2; if a[mid] < x: lo = mid + 1 else: hi = mid].
    [fuel] bounds the number of iterations; [length a] always suffices (proved).
    The [nth] default is never used because [mid < hi <= len(a)] (proved). *)
Fixpoint bisect_loop (fuel : nat) (a : list Q) (x : Q) (lo hi : nat) : option nat :=
  match fuel with
  | O => if Nat.ltb lo hi then None else Some lo
  | S f =>
    if Nat.ltb lo hi then
      let mid := Nat.div2 (lo + hi) in
      if Qlt_bool (nth mid a 0) x then bisect_loop f a x (S mid) hi
      else bisect_loop f a x lo mid
    else Some lo
  end.
Definition bisect_left (a : list Q) (x : Q) : option nat :=
  bisect_loop (length a) a x 0 (length a).

(** [_mixture_sample_for_large_n._run_mixture], samplers.py:734-737:
    [index = bisect_left(weights, picker); return values[index][i]], where an
    index past the end raises IndexError. *)
Definition large_pick (ws : list Q) (r : Q) : res nat :=
  match bisect_left (cumsum ws) r with
  | None => Err Unmodelled                 (* out of fuel: proved impossible *)
  | Some i => if Nat.ltb i (length ws) then Ok i else Err IndexError
  end.

(** [_core_cuts(n, cores)], utils.py:181-185:
    [cuts = [math.floor(n / cores) for _ in range(cores)]; delta = n - sum(cuts);
    cuts[-1] += delta].  Division by zero cores never happens because the
    list comprehension is empty; then [cuts[-1]] raises IndexError.
    Simplification: [n / cores] is exact division here (see P_Pick for the
    effect of float division). *)
Definition core_cuts (n : Z) (cores : nat) : res (list Z) :=
  let q := (n / Z.of_nat cores)%Z in
  let cuts := repeat q cores in
  let delta := (n - fold_left Z.add cuts 0)%Z in
  match rev cuts with
  | [] => Err IndexError
  | c :: r => Ok (rev r ++ [(c + delta)%Z])
  end.
