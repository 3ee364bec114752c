(** What "weights" mean to a user of the library, stated without reference to
    the code's control flow. *)
From Verif Require Import Base M_Weights.
Open Scope Q_scope.

(** Plain sum. *)
Fixpoint total (l : list Q) : Q :=
  match l with [] => 0 | x :: xs => x + total xs end.

Definition nonneg (l : list Q) : Prop := Forall (fun w => 0 <= w) l.
Definition positive (l : list Q) : Prop := Forall (fun w => 0 < w) l.

(** The Python sequence types accepted as [values]. *)
Inductive seq_values {A} : varg A -> list A -> Prop :=
| seq_list l : seq_values (VList l) l
| seq_array l : seq_values (VArray l) l
| seq_series l : seq_values (VSeries l) l
| seq_tuple l : seq_values (VTuple l) l.

(** The ways of writing a vector of (finite) weights. *)
Inductive weight_vector : warg -> list Q -> Prop :=
| wv_scalar q : weight_vector (WScalar (Num q)) [q]
| wv_list l : weight_vector (WList (map Num l)) l
| wv_array l : weight_vector (WArray (map Num l)) l
| wv_tuple l : weight_vector (WTuple (map Num l)) l.

(** What the user gave: one weight per value by omission, by pairs, by dict,
    explicitly, or relatively. *)
Inductive kind := Omitted | Explicit | Relative.

Section Given.
  Context {A : Type}.
  Variable as_pair : A -> option (cell * A).
  Variable is_na : A -> bool.

  Inductive given (drop_na : bool) : warg -> warg -> varg A -> kind -> list Q -> list A -> Prop :=
  | g_omitted v l x :
      seq_values v l -> hd_error l = Some x -> as_pair x = None ->
      let kept := if drop_na then filter (fun y => negb (is_na y)) l else l in
      given drop_na WNone WNone v Omitted
            (repeat (1 / inject_Z (Z.of_nat (length kept))) (length kept)) kept
  | g_pairs v l ws xs :
      seq_values v l ->
      Forall2 (fun e wx => as_pair e = Some (Num (fst wx), snd wx)) l (combine ws xs) ->
      length ws = length xs ->
      given drop_na WNone WNone v Explicit ws xs
  | g_dict l :
      given drop_na WNone WNone (VDict (map (fun xw => (fst xw, Num (snd xw))) l))
            Explicit (map snd l) (map fst l)
  | g_explicit w v ws l :
      weight_vector w ws -> seq_values v l -> given drop_na w WNone v Explicit ws l
  | g_relative w v ws l :
      weight_vector w ws -> seq_values v l -> given drop_na WNone w v Relative ws l.
End Given.

(** The full weight vector attached to [n] values. *)
Inductive effective : kind -> nat -> list Q -> list Q -> Prop :=
| eff_omitted n ws : length ws = n -> effective Omitted n ws ws
| eff_given n ws :
    length ws = n -> 99#100 < total ws -> total ws < 101#100 -> effective Explicit n ws ws
| eff_inferred n ws :
    S (length ws) = n -> total ws < 1 ->
    effective Explicit n ws (ws ++ [1 - total ws])
| eff_relative n ws :
    length ws = n -> ~ total ws == 0 ->
    effective Relative n ws (map (fun w => w / total ws) ws).

(** [(ws, vs)] are the entries of [(fw, vals)] with non-zero weight, in order. *)
Definition nonzero_part {A} (fw : list Q) (vals : list A) (ws : list Q) (vs : list A) : Prop :=
  length ws = length vs /\
  combine ws vs = filter (fun p => negb (Qeq_bool (fst p) 0)) (combine fw vals).

(** Pointwise [==] on rational lists. *)
Definition qlist_eq (a b : list Q) : Prop := Forall2 Qeq a b.

(** Total probability attached to value [x]. *)
Fixpoint mass {A} (eqb : A -> A -> bool) (x : A) (ws : list Q) (vs : list A) : Q :=
  match ws, vs with
  | w :: ws', v :: vs' => (if eqb v x then w else 0) + mass eqb x ws' vs'
  | _, _ => 0
  end.

Fixpoint occurrences {A} (eqb : A -> A -> bool) (x : A) (l : list A) : nat :=
  match l with
  | [] => 0%nat
  | v :: l' => ((if eqb v x then 1 else 0) + occurrences eqb x l')%nat
  end.

(** Concrete Python values for the examples: a number, or a two-element list
    [[weight, number]]. *)
Inductive exv := EV (z : Z) | EP (c : cell) (z : Z).
Definition ex_pair (e : exv) : option (cell * exv) :=
  match e with EP c z => Some (c, EV z) | EV _ => None end.
Definition ex_na (e : exv) : bool := match e with EV z => Z.eqb z (-1) | EP _ _ => false end.
Definition ex_eqb (a b : exv) : bool :=
  match a, b with EV x, EV y => Z.eqb x y | _, _ => false end.
