(** Successive questions about one Bayes net. *)
From Verif Require Import Base M_Values M_Bayesnet SpecBayes.
Open Scope Q_scope.

Section Conversation.
  Variables S E Y : Type.
  Variable body : nat -> S -> res E * S.
  Variable wire : E -> res E.

  (** A question for the chance of [find] given [given]; without a condition, given anything. *)
  Definition anything (e : E) : bool := true.
  Definition wonders (c : bcall S E Y) (find given : E -> bool) : Prop :=
    asks S E Y c find given \/
    (given = anything /\ q_cond _ _ _ c = None /\ q_find _ _ _ c = Some (fun e => Ok (PBool (find e))) /\
     q_reduce _ _ _ c = None /\ q_raw _ _ _ c = false).

  (** Questions about event function [f] with default caching and the numbers answered, with
      any number of cores and of samples, and with anything in between that neither reloads
      the events of [f] nor edits them in place. *)
  Inductive conversation (f : nat) : bworld S E -> list ((E -> bool) * (E -> bool) * Q) -> Prop :=
  | conv_end w : conversation f w []
  | conv_ask w c find given q l : default_caching S E Y c -> q_fn _ _ _ c = Some f -> wonders c find given ->
      fst (bayesnet S E Y body wire c w) = Ok (OMean E Y (PFlt (Fin q))) ->
      conversation f (snd (bayesnet S E Y body wire c w)) l -> conversation f w ((find, given, q) :: l)
  | conv_other w h l : Forall (leaves_alone S E Y (Some f)) h -> conversation f (brun S E Y body wire h w) l ->
      conversation f w l.
End Conversation.
(** Events. *)
Definition both {E} (a b : E -> bool) (e : E) : bool := a e && b e.
Definition either {E} (a b : E -> bool) (e : E) : bool := a e || b e.
Definition not_ {E} (a : E -> bool) (e : E) : bool := negb (a e).
