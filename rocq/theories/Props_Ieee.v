(** C162, C163: the double precision arithmetic of the model is that of IEEE 754, as the
    standard library of Coq specifies it. *)
From Coq Require Import Qabs.
From Verif Require Import Base M_Values M_Ops M_Double M_Ieee SpecIeee P_Double P_Ieee P_Ieee2.
From Coq.Floats Require Import SpecFloat.
Open Scope Q_scope.

(* ---------------------------------------------------------------- C162 *)
(** Every operation rounds the result that the extended numbers of M_Values give, with
    infinities and NaN. *)
Theorem C162_add : forall x y, ieee x -> ieee y ->
  same (value (SFadd 53 1024 x y)) (round64 (xadd (value x) (value y))).
Proof. exact add_rounds. Qed.
Print Assumptions C162_add.
Theorem C162_sub : forall x y, ieee x -> ieee y ->
  same (value (SFsub 53 1024 x y)) (round64 (xsub (value x) (value y))).
Proof. exact sub_rounds. Qed.
Print Assumptions C162_sub.
Theorem C162_mul : forall x y, ieee x -> ieee y ->
  same (value (SFmul 53 1024 x y)) (round64 (xmul (value x) (value y))).
Proof. exact mul_rounds. Qed.
Print Assumptions C162_mul.
(** The divisor is not minus zero, which the model does not tell from zero. *)
Theorem C162_div : forall x y, ieee x -> ieee y -> y <> S754_zero true ->
  same (value (SFdiv 53 1024 x y)) (round64 (xdiv (value x) (value y))).
Proof. exact div_rounds. Qed.
Print Assumptions C162_div.
Theorem C162_compare : forall x y, ieee x -> ieee y ->
  SFltb x y = xlt (value x) (value y) /\ SFeqb x y = xeq (value x) (value y).
Proof. exact compare_values. Qed.
Print Assumptions C162_compare.
(** The numbers themselves are not changed by rounding. *)
Theorem C162_exact : forall x, ieee x -> same (value x) (round64 (value x)).
Proof. exact valid_exact. Qed.
Print Assumptions C162_exact.

(** 0.1 + 0.2, 1 / 3, the largest number doubled, the smallest halved, infinity minus itself. *)
Example C162_sat :
  let tenth := S754_finite false 7205759403792794 (-56) in
  let one := S754_finite false 4503599627370496 (-52) in
  let three := S754_finite false 6755399441055744 (-51) in
  let two := S754_finite false 4503599627370496 (-51) in
  let largest := S754_finite false 9007199254740991 971 in
  let smallest := S754_finite true 1 (-1074) in
  forallb (valid_binary 53 1024) [tenth; one; two; three; largest; smallest] = true /\
  value tenth = Fin (rnd (1#10)) /\
  value (SFadd 53 1024 tenth (SFmul 53 1024 two tenth)) = Fin (rnd (rnd (1#10) + rnd (2#10))) /\
  value (SFdiv 53 1024 one three) = Fin (rnd (1#3)) /\
  value (SFmul 53 1024 two largest) = PInf /\ value (SFdiv 53 1024 smallest two) = Fin 0 /\
  value (SFsub 53 1024 (S754_infinity true) (S754_infinity true)) = NaN /\
  SFltb smallest tenth = true.
Proof. vm_compute. repeat split. Qed.

(* ---------------------------------------------------------------- C163 *)
(** Without the range of the exponents (M_Double), sums and differences of doubles are the
    same, short of overflow; *)
Theorem C163_sums : forall x y a b, ieee x -> ieee y -> value x = Fin a -> value y = Fin b ->
  limited (a + b) (rnd (a + b)) (value (SFadd 53 1024 x y)) /\
  limited (a - b) (rnd (a - b)) (value (SFsub 53 1024 x y)).
Proof. intros. split; [now apply add_limited|now apply sub_limited]. Qed.
Print Assumptions C163_sums.
(** products and quotients are if they are not below 2^-1022; *)
Theorem C163_products_partial : forall x y a b, ieee x -> ieee y -> value x = Fin a -> value y = Fin b ->
  (pow2 (-1022) <= Qabs (a * b) -> limited (a * b) (rnd (a * b)) (value (SFmul 53 1024 x y))) /\
  (~ b == 0 -> pow2 (-1022) <= Qabs (a / b) -> limited (a / b) (rnd (a / b)) (value (SFdiv 53 1024 x y))).
Proof. intros. split; intros; [now apply mul_limited|now apply div_limited]. Qed.
Print Assumptions C163_products_partial.
(** and below they are off by at most 2^-1075. *)
Theorem C163_underflow : forall q, Qabs q < pow2 (-1022) ->
  exists r, same (round64 (Fin q)) (Fin r) /\ Qabs (r - q) <= pow2 (-1075).
Proof. exact subnormal_error. Qed.
Print Assumptions C163_underflow.
(** The square of 2^-600 is 0. *)
Theorem C163_products_refuted : exists x a, ieee x /\ value x = Fin a /\ 0 < rnd (a * a) /\ same (value (SFmul 53 1024 x x)) (Fin 0).
Proof.
  exists (S754_finite false 4503599627370496 (-652)), (inject_Z 4503599627370496 * Qpower 2 (-652)).
  split; [reflexivity|]. split; [reflexivity|]. split; vm_compute; reflexivity.
Qed.
Print Assumptions C163_products_refuted.

Example C163_sat :
  let x := S754_finite false 4503599627370496 (-52) in
  ieee x /\ value x = Fin (inject_Z 4503599627370496 * Qpower 2 (-52)) /\
  inject_Z 4503599627370496 * Qpower 2 (-52) == 1 /\ Qle_bool (pow2 (-1022)) (Qabs (1 * 1)) = true /\
  Qlt_bool (Qabs (rnd (1 + 1))) (pow2 1024) = true.
Proof. vm_compute. repeat split. Qed.
