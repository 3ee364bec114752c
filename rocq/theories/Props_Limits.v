(** Infinities and nan in arithmetic (C125), powers of floats (C135). *)
From Coq Require Import Qabs.
From Verif Require Import Base M_Values M_Sampler M_Ops SpecSampler SpecOps SpecLimits P_Limits P_Power P_Example.
Open Scope Q_scope.

Theorem C125_sums :
  forall pw arr a b, exists r, binop pw arr Add (PFlt a) (PFlt b) = Ok (PFlt r) /\ limit_of Qplus a b r.
Proof. exact sums_ok. Qed.
Print Assumptions C125_sums.
Theorem C125_differences :
  forall pw arr a b, exists r, binop pw arr Sub (PFlt a) (PFlt b) = Ok (PFlt r) /\ limit_of Qminus a b r.
Proof. exact differences_ok. Qed.
Print Assumptions C125_differences.
Theorem C125_products :
  forall pw arr a b, exists r, binop pw arr Mul (PFlt a) (PFlt b) = Ok (PFlt r) /\ limit_of Qmult a b r.
Proof. exact products_ok. Qed.
Print Assumptions C125_products.
(** Zero divisors count as approached from above in arrays ... *)
Theorem C125_quotients :
  forall pw arr a b, arr = true \/ xeq b (Fin 0) = false ->
  exists r, binop pw arr Div (PFlt a) (PFlt b) = Ok (PFlt r) /\ quotient_of a b r.
Proof. exact quotients_ok. Qed.
Print Assumptions C125_quotients.
(** ... and raise for single numbers. *)
Theorem C125_zero_division :
  forall pw a b, xeq b (Fin 0) = true ->
  binop pw false Div (PFlt a) (PFlt b) = Err ZeroDivisionError /\ binop pw false FloorDiv (PFlt a) (PFlt b) = Err ZeroDivisionError.
Proof. exact quotient_by_zero. Qed.
Print Assumptions C125_zero_division.
Theorem C125_comparisons :
  forall pw arr a b,
  exists lt le, binop pw arr Lt (PFlt a) (PFlt b) = Ok (PBool lt) /\ binop pw arr Gt (PFlt b) (PFlt a) = Ok (PBool lt) /\
    binop pw arr Le (PFlt a) (PFlt b) = Ok (PBool le) /\ binop pw arr Ge (PFlt b) (PFlt a) = Ok (PBool le) /\
  (a = NaN \/ b = NaN -> lt = false /\ le = false) /\
  (a <> NaN -> b <> NaN -> (lt = true <-> forall f g, tends f a -> tends g b -> eventually (fun n => f n < g n)) /\
    (le = true <-> lt = true \/ exists f, tends f a /\ tends f b)).
Proof. exact comparisons_ok. Qed.
Print Assumptions C125_comparisons.
Theorem C125_floor_by_infinity :
  forall pw arr x b, b = PInf \/ b = NInf ->
  exists z, binop pw arr FloorDiv (PFlt (Fin x)) (PFlt b) = Ok (PFlt (Fin (inject_Z z))) /\
  forall g, tends g b -> eventually (fun n => Qfloor (x / g n) = z).
Proof. exact floor_by_infinity. Qed.
Print Assumptions C125_floor_by_infinity.

(** Sampling inf - inf gives nan; approaching sequences exist. *)
Example C125_sat :
  let d x : obj nat := ODist (DLeaf (LConst (PFlt x)) None None) in
  fst (smp ex_oracle (ODist (DComplex (d PInf) (d PInf) (FOp Sub))) 1 None None (ex_state 0)) = Ok (Scalar (PFlt NaN)) /\
  fst (smp ex_oracle (ODist (DComplex (d (Fin 1)) (d (Fin 0)) (FOp Div))) 2 None None (ex_state 0)) =
    Ok (Arr [PFlt PInf; PFlt PInf]) /\
  tends up PInf /\ tends down (Fin 0) /\ undetermined Qmult (Fin 0) PInf.
Proof.
  split; [reflexivity|]. split; [reflexivity|]. split; [exact up_tends|]. split; [exact down_tends|].
  apply zero_times_inf; auto; reflexivity.
Qed.

(* ---------------------------------------------------------------- C135 *)
Theorem C135_infinite_base :
  forall pw arr k a, a = PInf \/ a = NInf ->
  exists r, binop pw arr Pow (PFlt a) (PFlt (Fin (inject_Z k))) = Ok (PFlt r) /\
  forall f, tends f a -> tends (fun n => Qpower (f n) k) r.
Proof. exact infinite_base. Qed.
Print Assumptions C135_infinite_base.
(** The sign of a negative base is lost. *)
Theorem C135_infinite_exponent :
  forall pw arr x b, b = PInf \/ b = NInf -> (b = NInf -> ~ x == 0) ->
  exists r, binop pw arr Pow (PFlt (Fin x)) (PFlt b) = Ok (PFlt r) /\
  forall ks, zs_tend ks b -> tends (fun n => Qpower (Qabs x) (ks n)) r.
Proof. exact infinite_exponent. Qed.
Print Assumptions C135_infinite_exponent.
Theorem C135_zero_to_minus_infinity :
  forall pw arr x, x == 0 ->
  binop pw arr Pow (PFlt (Fin x)) (PFlt NInf) = Ok (PFlt PInf) /\
  forall f ks, tends f (Fin 0) -> (forall n, 0 < f n) -> zs_tend ks NInf -> tends (fun n => Qpower (f n) (ks n)) PInf.
Proof. exact zero_to_minus_infinity. Qed.
Print Assumptions C135_zero_to_minus_infinity.
Theorem C135_infinite_both :
  forall pw arr a b, a = PInf \/ a = NInf -> b = PInf \/ b = NInf ->
  exists r, binop pw arr Pow (PFlt a) (PFlt b) = Ok (PFlt r) /\
  forall f ks, tends f a -> zs_tend ks b -> tends (fun n => Qpower (Qabs (f n)) (ks n)) r.
Proof. exact infinite_both. Qed.
Print Assumptions C135_infinite_both.
(** Nan spreads, except to the power zero and as a power of one. *)
Theorem C135_nan :
  forall pw arr,
  (forall a y, y == 0 -> binop pw arr Pow (PFlt a) (PFlt (Fin y)) = Ok (PFlt (Fin 1))) /\
  (forall x, x == 1 -> binop pw arr Pow (PFlt (Fin x)) (PFlt NaN) = Ok (PFlt (Fin 1))) /\
  (forall b, xeq b (Fin 0) = false -> binop pw arr Pow (PFlt NaN) (PFlt b) = Ok (PFlt NaN)) /\
  (forall a, xeq a (Fin 1) = false -> binop pw arr Pow (PFlt a) (PFlt NaN) = Ok (PFlt NaN)).
Proof. exact power_nan. Qed.
Print Assumptions C135_nan.
Theorem C135_zero_base :
  forall pw x y, x == 0 ->
  (0 < y -> forall arr, binop pw arr Pow (PFlt (Fin x)) (PFlt (Fin y)) = Ok (PFlt (Fin 0))) /\
  (y < 0 -> binop pw false Pow (PFlt (Fin x)) (PFlt (Fin y)) = Err ZeroDivisionError /\
     binop pw true Pow (PFlt (Fin x)) (PFlt (Fin y)) = Ok (PFlt PInf)).
Proof. exact power_zero. Qed.
Print Assumptions C135_zero_base.
Theorem C135_whole_exponent :
  forall pw arr x k, ~ x == 0 ->
  exists r, binop pw arr Pow (PFlt (Fin x)) (PFlt (Fin (inject_Z k))) = Ok (PFlt (Fin r)) /\ r == Qpower x k.
Proof. exact power_whole. Qed.
Print Assumptions C135_whole_exponent.
(** [pw] is the real power of a positive number. *)
Theorem C135_fractional_exponent :
  forall pw x y, is_whole y = false ->
  (0 < x -> forall arr, binop pw arr Pow (PFlt (Fin x)) (PFlt (Fin y)) = Ok (PFlt (Fin (pw x y)))) /\
  (x < 0 -> binop pw true Pow (PFlt (Fin x)) (PFlt (Fin y)) = Ok (PFlt NaN)).
Proof. exact power_fraction. Qed.
Print Assumptions C135_fractional_exponent.
Example C135_sat :
  let d x : obj nat := ODist (DLeaf (LConst (PFlt x)) None None) in
  let pow x y n := fst (smp ex_oracle (ODist (DComplex (d x) (d y) (FOp Pow))) n None None (ex_state 0)) in
  pow NInf (Fin 3) 1%nat = Ok (Scalar (PFlt NInf)) /\ pow (Fin (1#2)) NInf 1%nat = Ok (Scalar (PFlt PInf)) /\
  pow (Fin (-1)) PInf 2%nat = Ok (Arr [PFlt (Fin 1); PFlt (Fin 1)]) /\
  pow (Fin (-2)) (Fin (1#2)) 2%nat = Ok (Arr [PFlt NaN; PFlt NaN]) /\
  pow (Fin 0) (Fin (-1)) 1%nat = Err ZeroDivisionError /\
  zs_tend Z.of_nat PInf /\ is_whole (1#2) = false.
Proof.
  repeat (split; [vm_compute; reflexivity|]). split; [|reflexivity]. exact (fun B => ex_intro _ (Z.to_nat (Qfloor B + 1)) (grows B)).
Qed.
