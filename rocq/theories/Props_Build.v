(** Pipes into composed distributions, growth rates of distributions, notations
    for mixtures (C116-C119). *)
From Verif Require Import Base M_Weights M_Values M_Sampler M_Ops M_Str M_Build
  SpecSampler SpecOps SpecBuild P_Sampler P_Clip P_Build.
Open Scope Q_scope.

(* ---------------------------------------------------------------- C116 *)
(** [d >> (l op r)] loses [r]. *)
Theorem C116_refuted :
  exists (d l r r' : dist (G ex_oracle)) o,
    rshift_complex d (op_fwd Add l (ODist r)) = Ok o /\ rshift_complex d (op_fwd Add l (ODist r')) = Ok o /\
    forall s, smp ex_oracle (ODist r) 1 None None s = (Ok (Scalar (PInt 3)), s) /\
      smp ex_oracle (ODist r') 1 None None s = (Ok (Scalar (PInt 4)), s) /\
      smp ex_oracle o 1 None None s = (Ok (Scalar (PInt 3)), s).
Proof.
  exists (DLeaf (LConst (PInt 1)) None None), (DLeaf (LConst (PInt 2)) None None),
    (DLeaf (LConst (PInt 3)) None None), (DLeaf (LConst (PInt 4)) None None).
  eexists. repeat split.
Qed.
Print Assumptions C116_refuted.

Theorem C116_applies_function_to_left :
  forall Or (d : dist (G Or)) l r f n s a b s1 s2, (1 <= n)%nat -> l <> OLit PNone ->
  smp Or (ODist d) n None None s = (Ok a, s1) -> smp Or l n None None s1 = (Ok b, s2) ->
  exists o, rshift_complex d (DComplex l r f) = Ok o /\
    smp Or o n None None s = match fn_result Or f n a (Some b) s2 with
                             | (Ok u, s') => (Ok (finish_list Or u), s') | (Err e, s') => (Err e, s') end.
Proof. exact pipe_complex. Qed.
Print Assumptions C116_applies_function_to_left.

(** A negated distribution cannot be piped into. *)
Theorem C116_negation_fails :
  forall Or (d : dist (G Or)) (l : obj (G Or)) n s a b s1 s2, (1 <= n)%nat -> l <> OLit PNone ->
  smp Or (ODist d) n None None s = (Ok a, s1) -> smp Or l n None None s1 = (Ok b, s2) ->
  exists o, rshift_complex d (DComplex l (OLit PNone) FNeg) = Ok o /\ smp Or o n None None s = (Err TypeError, s2).
Proof. exact pipe_unary. Qed.
Print Assumptions C116_negation_fails.

Example C116_sat :
  exists a b s1 s2, smp ex_oracle (ODist (DLeaf (LUniform 0 1) None None)) 2 None None (ex_state 0) = (Ok a, s1) /\
    smp ex_oracle (ODist (DLeaf (LUniform 1 2) None None)) 2 None None s1 = (Ok b, s2).
Proof. do 4 eexists. split; vm_compute; reflexivity. Qed.

(* ---------------------------------------------------------------- C117 *)
Theorem C117_growth_one_partial :
  forall Or log_ exp_ ln2 e_, log_exp log_ exp_ e_ -> forall (d : dist (G Or)) s g s1,
  smp Or (ODist d) 1 None None s = (Ok (Scalar (PFlt (Fin g))), s1) -> 0 < 1 + g -> ~ log_ (1 + g) == 0 ->
  exists y, smp Or (ODist (growth_dist log_ ln2 e_ d)) 1 None None s = (Ok (Scalar (PFlt (Fin y))), s1) /\
    y == ln2 / log_ (1 + g).
Proof. exact growth_one. Qed.
Print Assumptions C117_growth_one_partial.
Theorem C117_doubling_one_partial :
  forall Or exp_ ln2 (d : dist (G Or)) s t s1,
  smp Or (ODist d) 1 None None s = (Ok (Scalar (PFlt (Fin t))), s1) -> ~ t == 0 ->
  exists y x, smp Or (ODist (doubling_dist exp_ ln2 d)) 1 None None s = (Ok (Scalar (PFlt (Fin y))), s1) /\
    x == ln2 / t /\ y == exp_ x - 1.
Proof. exact doubling_one. Qed.
Print Assumptions C117_doubling_one_partial.
Theorem C117_round_trip_one_partial :
  forall Or log_ exp_ ln2 e_, log_exp log_ exp_ e_ -> forall (d : dist (G Or)) s g s1,
  smp Or (ODist d) 1 None None s = (Ok (Scalar (PFlt (Fin g))), s1) ->
  0 < 1 + g -> ~ log_ (1 + g) == 0 -> ~ ln2 == 0 ->
  exists y, smp Or (ODist (doubling_dist exp_ ln2 (growth_dist log_ ln2 e_ d))) 1 None None s =
              (Ok (Scalar (PFlt (Fin y))), s1) /\ y == g.
Proof. exact round_trip_one. Qed.
Print Assumptions C117_round_trip_one_partial.
(** More than one sample always fails. *)
Theorem C117_many_fails :
  forall Or log_ ln2 e_ (d : dist (G Or)) n s a s1,
  (2 <= n)%nat -> smp Or (ODist d) n None None s = (Ok a, s1) -> n_samples n a -> Forall numeric (elems a) ->
  smp Or (ODist (growth_dist log_ ln2 e_ d)) n None None s = (Err TypeError, s1).
Proof. exact growth_many. Qed.
Print Assumptions C117_many_fails.
Theorem C117_refuted :
  exists (d : dist (G ex_oracle)) n s a s1, smp ex_oracle (ODist d) n None None s = (Ok a, s1) /\
    Forall (fun x => exists q, x = PFlt (Fin q) /\ 0 < q) (elems a) /\
    smp ex_oracle (ODist (growth_dist (log_ ex_oracle) (1#2) (3#1) d)) n None None s = (Err TypeError, s1).
Proof.
  exists (DLeaf (LUniform 1 2) None None), 2%nat, (ex_state 0). do 2 eexists.
  split; [vm_compute; reflexivity|]. split; [|vm_compute; reflexivity].
  apply Forall_cons; [eexists; split; [reflexivity|reflexivity]|].
  apply Forall_cons; [eexists; split; [reflexivity|reflexivity]|constructor].
Qed.
Print Assumptions C117_refuted.
Example C117_sat :
  log_exp (fun q => q - 1) (fun x => x + 1) 2 /\
  exists g s1, smp ex_oracle (ODist (DLeaf (LUniform 1 2) None None)) 1 None None (ex_state 0) = (Ok (Scalar (PFlt (Fin g))), s1) /\ 0 < g.
Proof.
  split.
  - constructor; try reflexivity; try discriminate; [intros q E|intros q x _ E]; rewrite E; ring.
  - do 2 eexists. split; [vm_compute; reflexivity|reflexivity].
Qed.

(* ---------------------------------------------------------------- C118 *)
(** Two norms that print alike are one key: valid weights are rejected, or one
    component is silently lost. *)
Definition close_norms : list (pexp nat * cell) :=
  [(XLeaf (KNorm (NF (1#1000)) (NI 1) None None), Num (1#2)); (XLeaf (KNorm (NF (2#1000)) (NI 1) None None), Num (1#2))].
Definition light_norm : list (pexp nat * cell) :=
  [(XLeaf (KNorm (NF (1#1000)) (NI 1) None None), Num (1#200)); (XLeaf (KNorm (NF (2#1000)) (NI 1) None None), Num (199#200))].
Theorem C118_refuted : exists rejected halved : list (pexp nat * cell),
  qsum (map (fun e => cell_q (snd e)) rejected) == 1 /\ qsum (map (fun e => cell_q (snd e)) halved) == 1 /\
  length halved = 2%nat /\ forall fmt h ver,
  mixture_dict fmt h ver rejected None None = Err (ValueError "weights don't sum to 1") /\
  mixture_dict fmt h ver halved None None =
    Ok (DMixture [199#200] [ODist (DLeaf (LNormal (1#1000) (Some 1)) None None)] None None).
Proof.
  exists close_norms, light_norm. split; [reflexivity|]. split; [reflexivity|]. split; [reflexivity|].
  intros. unfold mixture_dict, close_norms, light_norm, py_dict. cbn [fold_left fst snd dict_set].
  replace (same_key (T := nat) fmt h ver (XLeaf (KNorm (NF (1#1000)) (NI 1) None None)) (XLeaf (KNorm (NF (2#1000)) (NI 1) None None)))
    with true; [split; vm_compute; reflexivity|].
  symmetry. unfold same_key, hash_of, repr_text, text, leaf_text, num_text.
  replace (round2 (NF (2#1000))) with (round2 (NF (1#1000))) by (vm_compute; reflexivity).
  apply Z.eqb_refl.
Qed.
Print Assumptions C118_refuted.
(** With keys of different hash nothing is lost. *)
Theorem C118_different_texts_partial :
  forall T fmt h ver (es : list (pexp T)) ws lc rc, length ws = length es -> es <> [] ->
  no_two_same (same_key fmt h ver) es ->
  mixture_dict fmt h ver (combine es ws) lc rc =
  mixture (VList (map (fun e => MPlain (built e)) es)) (WList ws) WNone lc rc.
Proof. intros T. exact dict_mixture. Qed.
Print Assumptions C118_different_texts_partial.
(** In general: the first key object and the last value of each hash. *)
Theorem C118_dict_keys :
  forall K V (same : K -> K -> bool), (forall a b c, same a b = true -> same b c = same a c) ->
  forall l : list (K * V), map fst (py_dict same l) = first_keys same (map fst l).
Proof. intros K V. exact py_dict_keys. Qed.
Print Assumptions C118_dict_keys.
Theorem C118_dict_values :
  forall K V (same : K -> K -> bool), (forall a, same a a = true) -> (forall a b, same a b = same b a) ->
  (forall a b c, same a b = true -> same b c = same a c) ->
  forall (l : list (K * V)) k v, In (k, v) (py_dict same l) -> last_value same k l = Some v.
Proof. intros K V. exact py_dict_values. Qed.
Print Assumptions C118_dict_values.
Example C118_sat :
  no_two_same (same_key (T := nat) (fun v => match v with PInt z => if (z =? 1)%Z then "1" else "2" | _ => "x" end)%string
     (fun s => Z.of_nat (String.length s)) "v")
    [XLeaf (KPareto (NI 1)); XLeaf (KBeta (NI 1) (NI 2))].
Proof. repeat constructor. Qed.

(* ---------------------------------------------------------------- C119 *)
Theorem C119_pairs :
  forall T (ws : list cell) (os : list (obj T)) lc rc, length ws = length os -> os <> [] ->
  mixture (VList (map (fun p => MPair (fst p) (snd p)) (combine ws os))) WNone WNone lc rc =
  mixture (VList (map MPlain os)) (WList ws) WNone lc rc.
Proof. intros T. exact pairs_notation. Qed.
Print Assumptions C119_pairs.
Theorem C119_dict :
  forall T (ws : list cell) (os : list (obj T)) lc rc, length ws = length os -> os <> [] ->
  mixture (VDict (map (fun p => (MPlain (snd p), fst p)) (combine ws os))) WNone WNone lc rc =
  mixture (VList (map MPlain os)) (WList ws) WNone lc rc.
Proof. intros T. exact dict_notation. Qed.
Print Assumptions C119_dict.
Example C119_sat :
  mixture (T := nat) (VList [MPair (Num (1#4)) (OLit (PInt 1)); MPair (Num (3#4)) (OLit (PInt 2))]) WNone WNone None None =
  Ok (DMixture [1#4; 3#4] [OLit (PInt 1); OLit (PInt 2)] None None).
Proof. reflexivity. Qed.
