(** Properties C01-C08: weight processing. *)
From Verif Require Import Base M_Weights SpecWeights P_Weights P_Weights2 P_PwvMap.
Open Scope Q_scope.

(** C01.  Whatever the arguments, accepted weights are positive, pair with the
    values whose full weight is non-zero, and sum to (about) 1.  The only
    exception is a relative weight vector without a non-zero entry, see
    [C01_all_zero_relative_refuted]. *)
Theorem C01_accepted_weights_usable :
  forall (A : Type) (as_pair : A -> option (cell * A)) (is_na : A -> bool) w rw v drop ws vs aft,
  pwv as_pair is_na w rw v drop = (Ok (ws, vs), aft) ->
  ~ (exists l, weight_vector rw l /\ Forall (fun q => q == 0) l) ->
  exists k gw vals fw,
    given as_pair is_na drop w rw v k gw vals /\
    (exists fw', effective k (length vals) gw fw' /\ qlist_eq fw fw') /\
    nonzero_part fw vals ws vs /\
    total ws == total fw /\
    positive ws /\
    (99#100 < total ws /\ total ws < 101#100) /\
    (k = Omitted \/ k = Relative \/ length gw <> length vals -> total ws == 1).
Proof. intros A ap na w rw v d ws vs a H Hz. exact (pwv_usable ap na w rw v d ws vs a H Hz). Qed.
Print Assumptions C01_accepted_weights_usable.

Example C01_sat :
  fst (pwv ex_pair ex_na (WScalar (Num (1#4))) WNone (VList [EV 5; EV 6]) false)
    = Ok ([1#4; 1 - (1#4)], [EV 5; EV 6]) /\
  fst (pwv ex_pair ex_na WNone WNone (VList [EP (Num (1#2)) 5; EP (Num 0) 7; EP (Num (1#2)) 6]) false)
    = Ok ([1#2; 1#2], [EV 5; EV 6]) /\
  fst (pwv ex_pair ex_na WNone (WList [Num 1; Num 3]) (VList [EV 5; EV 6]) false)
    = Ok ([1 / (0 + 1 + 3); 3 / (0 + 1 + 3)], [EV 5; EV 6]) /\
  fst (pwv ex_pair ex_na WNone WNone (VDict [(EV 5, Num (1#2)); (EV 6, Num (101#200))]) false)
    = Ok ([1#2; 101#200], [EV 5; EV 6]).
Proof. repeat split; vm_compute; reflexivity. Qed.

(** Relative weights given as an all-zero numpy array are accepted and give an
    empty mixture. *)
Theorem C01_all_zero_relative_refuted :
  exists rw (v : varg exv) ws vs aft,
    pwv ex_pair ex_na WNone rw v false = (Ok (ws, vs), aft) /\ ws = [].
Proof.
  exists (WArray [Num 0; Num 0]), (VList [EV 5; EV 6]), [], [].
  eexists. split; [vm_compute; reflexivity|reflexivity].
Qed.
Print Assumptions C01_all_zero_relative_refuted.

(** C02. *)
Theorem C02_acceptance_exact :
  forall (A : Type) (as_pair : A -> option (cell * A)) (is_na : A -> bool) ws (l : list A),
  (exists r, fst (pwv as_pair is_na (WList (map Num ws)) WNone (VList l) false) = Ok r)
  <->
  (length l <> 0%nat /\ nonneg ws /\
   ((S (length ws) = length l /\ total ws < 1) \/
    (length ws = length l /\ 99#100 < total ws /\ total ws < 101#100))).
Proof. intros A ap na ws l. exact (exact_accept ap na ws l). Qed.
Print Assumptions C02_acceptance_exact.

Theorem C02_rejection_is_value_error :
  forall (A : Type) (as_pair : A -> option (cell * A)) (is_na : A -> bool) ws (l : list A) e,
  fst (pwv as_pair is_na (WList (map Num ws)) WNone (VList l) false) = Err e ->
  exists m, e = ValueError m.
Proof. intros A ap na ws l e. exact (exact_reject ap na ws l e). Qed.
Print Assumptions C02_rejection_is_value_error.

(** Weights that are not numbers, such as texts, are a TypeError; missing ones (None, nan)
    a ValueError. *)
Theorem C02_not_numbers :
  forall (A : Type) (as_pair : A -> option (cell * A)) (is_na : A -> bool) ws (l : list A),
  l <> [] ->
  (In Bad ws -> fst (pwv as_pair is_na (WList ws) WNone (VList l) false) = Err TypeError /\
                fst (pwv as_pair is_na WNone (WList ws) (VList l) false) = Err TypeError) /\
  (~ In Bad ws -> In NA ws -> exists m, fst (pwv as_pair is_na (WList ws) WNone (VList l) false) = Err (ValueError m) /\
                fst (pwv as_pair is_na WNone (WList ws) (VList l) false) = Err (ValueError m)).
Proof. intros A ap na ws l. exact (weights_not_numbers ap na ws l). Qed.
Print Assumptions C02_not_numbers.

(** Values that are None or an empty list or array are rejected, whatever the weights, and
    both kinds of weights at once are rejected whatever the values. *)
Theorem C02_no_values :
  forall (A : Type) (as_pair : A -> option (cell * A)) (is_na : A -> bool) w rw (v : varg A) drop,
  v = VNone \/ v = VList [] \/ v = VArray [] ->
  exists m, fst (pwv as_pair is_na w rw v drop) = Err (ValueError m) /\
            (w = WNone \/ rw = WNone -> m = "must pass values"%string).
Proof. intros A ap na w rw v drop. exact (no_values ap na w rw v drop). Qed.
Print Assumptions C02_no_values.

(** An empty tuple or Series slips through that check: an IndexError without weights. *)
Theorem C02_empty_tuple :
  forall (A : Type) (as_pair : A -> option (cell * A)) (is_na : A -> bool) (v : varg A) drop,
  v = VTuple [] \/ v = VSeries [] -> fst (pwv as_pair is_na WNone WNone v drop) = Err IndexError.
Proof. intros A ap na v drop [->| ->]; reflexivity. Qed.
Print Assumptions C02_empty_tuple.

Example C02_sat :
  is_ok (fst (pwv ex_pair ex_na (WList [Num (1#2); Num (1#2)]) WNone (VList [EV 1; EV 2]) false)) = true /\
  is_ok (fst (pwv ex_pair ex_na (WList [Num (1#2); Num (-1#2)]) WNone (VList [EV 1; EV 2; EV 3]) false)) = false /\
  is_value_error (fst (pwv ex_pair ex_na (WList [Num (3#2)]) WNone (VList [EV 1; EV 2]) false)) = true.
Proof. repeat split; vm_compute; reflexivity. Qed.

(** C03. *)
Theorem C03_relative_scale_free :
  forall (A : Type) (as_pair : A -> option (cell * A)) (is_na : A -> bool) k w rw (v : varg A) drop,
  ~ k == 0 ->
  res_equiv (fst (pwv as_pair is_na w (scale_warg k rw) v drop)) (fst (pwv as_pair is_na w rw v drop)).
Proof. intros A ap na k w rw v d Hk. exact (pwv_scale ap na k w rw v d Hk). Qed.
Print Assumptions C03_relative_scale_free.

Example C03_sat :
  scale_warg 10 (WList [Num 1; Num 3]) = WList [Num (10 * 1); Num (10 * 3)] /\
  is_ok (fst (pwv ex_pair ex_na WNone (WList [Num (10 * 1); Num (10 * 3)]) (VList [EV 5; EV 6]) false)) = true.
Proof. split; vm_compute; reflexivity. Qed.

(** C04.  A relative weight vector is accepted exactly when no two entries have
    opposite signs (and it does not sum to zero), so all-negative vectors pass. *)
Theorem C04_relative_acceptance_exact :
  forall (A : Type) (as_pair : A -> option (cell * A)) (is_na : A -> bool) ws (l : list A),
  (exists r, fst (pwv as_pair is_na WNone (WList (map Num ws)) (VList l) false) = Ok r)
  <-> l <> [] /\ length ws = length l /\ ~ total ws == 0 /\ (nonneg ws \/ nonpos ws).
Proof. intros A ap na ws l. exact (rel_accept ap na ws l). Qed.
Print Assumptions C04_relative_acceptance_exact.

Theorem C04_negative_relative_rejected_refuted :
  exists ws (l : list exv),
    Forall (fun w => w < 0) ws /\
    fst (pwv ex_pair ex_na WNone (WList (map Num ws)) (VList l) false) = Ok ([-1 / (0 + -1 + -1); -1 / (0 + -1 + -1)], l).
Proof.
  exists [-1; -1], [EV 5; EV 6]. split.
  - repeat constructor.
  - vm_compute; reflexivity.
Qed.
Print Assumptions C04_negative_relative_rejected_refuted.

(** C05.  The caller's arguments change in exactly one situation: an absolute
    weights list with one entry too few, which gets the inferred last weight
    appended to it. *)
Theorem C05_caller_arguments_after :
  forall (A : Type) (as_pair : A -> option (cell * A)) (is_na : A -> bool) w rw (v : varg A) drop r w' rw',
  pwv as_pair is_na w rw v drop = (r, (w', rw')) ->
  (w' = w /\ rw' = rw) \/
  (rw' = rw /\ rw = WNone /\ exists l qs, seq_values v l /\ w = WList (map Num qs) /\
    S (length qs) = length l /\ total qs < 1 /\ w' = WList (map Num (qs ++ [1 - qsum qs]))).
Proof. intros A ap na w rw v d r w' rw' H. exact (caller_after ap na w rw v d r w' rw' H). Qed.
Print Assumptions C05_caller_arguments_after.

Theorem C05_caller_list_unchanged_refuted :
  exists w (v : varg exv) w' r,
    pwv ex_pair ex_na w WNone v false = (Ok r, (w', WNone)) /\ w' <> w.
Proof.
  exists (WList [Num (1#4)]), (VList [EV 5; EV 6]), (WList [Num (1#4); Num (1 - (1#4))]).
  eexists. split; [vm_compute; reflexivity|discriminate].
Qed.
Print Assumptions C05_caller_list_unchanged_refuted.

(** C06. *)
Theorem C06_reprocessing_is_identity :
  forall (A : Type) (as_pair : A -> option (cell * A)) (is_na : A -> bool) w rw (v : varg A) drop ws vs aft,
  pwv as_pair is_na w rw v drop = (Ok (ws, vs), aft) ->
  ~ (exists l, weight_vector rw l /\ Forall (fun q => q == 0) l) ->
  pwv as_pair is_na (WList (map Num ws)) WNone (VList vs) false =
  (Ok (ws, vs), (WList (map Num ws), WNone)).
Proof. intros A ap na w rw v d ws vs a H Hz. exact (idempotent ap na w rw v d ws vs a H Hz). Qed.
Print Assumptions C06_reprocessing_is_identity.

Example C06_sat :
  pwv ex_pair ex_na (WList [Num (1#2); Num (1#2)]) WNone (VList [EV 5; EV 6]) false
  = (Ok ([1#2; 1#2], [EV 5; EV 6]), (WList [Num (1#2); Num (1#2)], WNone)).
Proof. vm_compute; reflexivity. Qed.

(** C07. *)
Theorem C07_equal_weights_by_default :
  forall (A : Type) (as_pair : A -> option (cell * A)) (is_na : A -> bool) (v : varg A) l x (drop : bool),
  seq_values v l -> hd_error l = Some x -> as_pair x = None ->
  let kept := if drop then filter (fun y => negb (is_na y)) l else l in
  let n := length kept in
  fst (pwv as_pair is_na WNone WNone v drop) =
  if Nat.eqb n 0 then Err (ValueError "weights don't sum to 1")
  else Ok (repeat (1 / inject_Z (Z.of_nat n)) n, kept).
Proof. intros A ap na v l x d Hs Hh Hp. exact (equal_default ap na v l x d Hs Hh Hp). Qed.
Print Assumptions C07_equal_weights_by_default.

Example C07_sat :
  fst (pwv ex_pair ex_na WNone WNone (VList [EV 5; EV (-1); EV 7]) true) = Ok ([1 / 2; 1 / 2], [EV 5; EV 7]).
Proof. vm_compute; reflexivity. Qed.

(** With [drop_na] nothing NA-like is left, however the arguments are written; NA-like
    values next to given weights are refused rather than dropped. *)
Theorem C07_no_na_left :
  forall (A : Type) (as_pair : A -> option (cell * A)) (is_na : A -> bool) w rw (v : varg A) ws vs x,
  fst (pwv as_pair is_na w rw v true) = Ok (ws, vs) -> In x vs -> is_na x = false.
Proof. intros A ap na. exact (pwv_no_na ap na). Qed.
Print Assumptions C07_no_na_left.

Theorem C07_na_next_to_weights_refused :
  forall (A : Type) (as_pair : A -> option (cell * A)) (is_na : A -> bool) w rw (v : varg A) k gw vals,
  given as_pair is_na true w rw v k gw vals -> k <> Omitted -> Exists (fun x => is_na x = true) vals ->
  fst (pwv as_pair is_na w rw v true) = Err (ValueError "cannot drop NA and process weights").
Proof. intros A ap na. exact (pwv_refuses_na ap na). Qed.
Print Assumptions C07_na_next_to_weights_refused.

Example C07_na_sat :
  given ex_pair ex_na true WNone WNone (VDict [(EV 5, Num (1#2)); (EV (-1), Num (1#2))]) Explicit [1#2; 1#2] [EV 5; EV (-1)] /\ Exists (fun x => ex_na x = true) [EV 5; EV (-1)].
Proof. split; [exact (g_dict _ _ true [(EV 5, 1#2); (EV (-1), 1#2)])|right; left; reflexivity]. Qed.

(** C08. *)
Theorem C08_compression_keeps_probabilities :
  forall (A : Type) (as_pair : A -> option (cell * A)) (is_na : A -> bool) (eqb : A -> A -> bool)
         (hashable : list A -> bool) (is_list_obj : A -> bool),
  (forall x y, eqb x y = eqb y x) ->
  (forall x y z, eqb x y = true -> eqb y z = true -> eqb x z = true) ->
  forall l x0, hd_error l = Some x0 -> as_pair x0 = None ->
  exists ws vs, pdwv as_pair is_na eqb hashable is_list_obj l = Ok (ws, vs) /\
    length ws = length vs /\ positive ws /\
    (forall x, mass eqb x ws vs ==
               inject_Z (Z.of_nat (occurrences eqb x l)) / inject_Z (Z.of_nat (length l))) /\
    (if Nat.leb 100 (length l) && negb (is_list_obj x0) && hashable l
     then ForallOrdPairs (fun a b => eqb a b = false) vs else vs = l).
Proof.
  intros A ap na eqb h il Hs Ht l x0 Hh Hp.
  exact (discrete_mass ap na eqb h il Hs Ht l x0 Hh Hp).
Qed.
Print Assumptions C08_compression_keeps_probabilities.

(** The compressed form really is shorter: it lists every value once. *)
Theorem C08_compressed_values_distinct :
  forall (A : Type) (eqb : A -> A -> bool) (l : list A),
  ForallOrdPairs (fun a b => eqb (fst a) (fst b) = false) (compress eqb l).
Proof. intros A eqb l. exact (compress_distinct eqb l). Qed.
Print Assumptions C08_compressed_values_distinct.

Example C08_sat :
  let l := repeat (EV 1) 60 ++ repeat (EV 2) 60 in
  pdwv ex_pair ex_na ex_eqb (fun _ => true) (fun _ => false) l = Ok ([60 / 120; 60 / 120], [EV 1; EV 2]).
Proof. vm_compute; reflexivity. Qed.
