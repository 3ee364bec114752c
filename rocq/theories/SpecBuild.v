(** Specifications for pipes, growth rates of distributions and dict mixtures. *)
From Verif Require Import Base M_Weights M_Values M_Sampler M_Ops M_Str M_Build SpecOps.
Open Scope Q_scope.

(** [log_] and [exp_] are inverse on positive numbers, [e_] is the base. *)
Record log_exp (log_ exp_ : Q -> Q) (e_ : Q) : Prop := {
  e_pos : 0 < e_; e_not_one : ~ e_ == 1; log_e : log_ e_ == 1;
  log_one : forall q, q == 1 -> log_ q == 0;
  exp_log : forall q x, 0 < q -> x == log_ q -> exp_ x == q }.

(** Python's dict, as its documentation puts it: one entry per different key, in
    the order in which the keys first appear, with the value given last. *)
Definition last_value {K V} (same : K -> K -> bool) (k : K) (l : list (K * V)) : option V :=
  match find (fun kv => same k (fst kv)) (rev l) with Some kv => Some (snd kv) | None => None end.
Fixpoint first_keys {K} (same : K -> K -> bool) (ks : list K) : list K :=
  match ks with
  | [] => []
  | k :: ks' => k :: filter (fun k' => negb (same k k')) (first_keys same ks')
  end.
Definition no_two_same {K} (same : K -> K -> bool) : list K -> Prop :=
  ForallOrdPairs (fun a b => same a b = false).
