(** What sampling a discrete distribution means. *)
From Verif Require Import Base M_Weights M_Values M_Sampler SpecWeights SpecMixture.
Open Scope Q_scope.

Section Discrete.
  Variable Or : oracle.
  Notation St := (state (G Or)).

  (** [n] uniform draws, requested one at a time. *)
  Inductive single_draws : nat -> St -> list Q -> St -> Prop :=
  | sd_done s : single_draws 0 s [] s
  | sd_step n s u g us s' :
      drawf Or (RUniform 0 1) 1 (rng s) = (Ok [u], g) ->
      single_draws n (mkState g (corr s)) us s' ->
      single_draws (S n) s (u :: us) s'.

  (** Up to 100 draws are requested one at a time, more in one batch. *)
  Definition uniform_draws (n : nat) (s : St) (us : list Q) (s' : St) : Prop :=
    if Nat.leb n 100 then single_draws n s us s'
    else exists g, drawf Or (RUniform 0 1) n (rng s) = (Ok us, g) /\ s' = mkState g (corr s).

  (** The draw [u] selects the value [x]: it falls into the interval of an item
      with that value.  (In a batch a draw above the total weight is an error.) *)
  Definition selects (n : nat) (ws : list Q) (its : list exv_item) (u : Q) (x : pv) : Prop :=
    exists i it, falls ws u i /\ ((100 < n)%nat -> u <= total ws) /\
      nth_error its i = Some it /\ x = item_pv it.
End Discrete.

(** The values written in a discrete distribution. *)
Definition listed (k : leaf) : list pv :=
  match k with
  | LCatList items => map item_pv items
  | LCatDict items => map fst items
  | _ => []
  end.
(** All texts, or all ints, or all floats, or all bools. *)
Definition one_type (l : list pv) : Prop :=
  Forall (fun v => exists s, v = PStr s) l \/ Forall (fun v => exists z, v = PInt z) l \/
  Forall (fun v => exists x, v = PFlt x) l \/ Forall (fun v => exists b, v = PBool b) l.
(** All numbers. *)
Definition all_numbers (l : list pv) : Prop := Forall (fun v => exists x, as_x v = Some x) l.
