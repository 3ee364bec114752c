(** C178: answers about one Bayes net obey the laws of probability. *)
From Verif Require Import Base M_Values M_Bayesnet SpecBayes SpecConversation P_Conversation.
Open Scope Q_scope.

(* ---------------------------------------------------------------- C178 *)
(** All answers of a conversation are fractions of one and the same sample. *)
Theorem C178_one_sample :
  forall S E Y body wire f w l, conversation S E Y body wire f w l ->
  exists es, forall find given q, In (find, given, q) l -> (0 < count given es)%nat /\ q == fraction find given es.
Proof. exact one_sample. Qed.
Print Assumptions C178_one_sample.
(** So they are probabilities, the same question has the same answer, an event and its
    opposite have chances that add to 1, and likelier means no smaller. *)
Theorem C178_probabilities :
  forall S E Y body wire f w l, conversation S E Y body wire f w l ->
  (forall a g q, In (a, g, q) l -> 0 <= q /\ q <= 1) /\
  (forall a g q q', In (a, g, q) l -> In (a, g, q') l -> q == q') /\
  (forall a g q q', In (a, g, q) l -> In (not_ a, g, q') l -> q' == 1 - q) /\
  (forall a b g p q, (forall e, a e = true -> b e = true) -> In (a, g, p) l -> In (b, g, q) l -> p <= q) /\
  (forall a b g p q r t, In (a, g, p) l -> In (b, g, q) l -> In (either a b, g, r) l -> In (both a b, g, t) l -> r + t == p + q).
Proof.
  exact (fun S E Y body wire f w l C => conj (talk_range S E Y body wire f w l C) (conj (talk_again S E Y body wire f w l C)
    (conj (talk_not S E Y body wire f w l C) (conj (talk_rise S E Y body wire f w l C) (talk_sum S E Y body wire f w l C))))).
Qed.
Print Assumptions C178_probabilities.
(** The chain rule and the law of total probability, also under a condition. *)
Theorem C178_chain :
  forall S E Y body wire f w l, conversation S E Y body wire f w l ->
  forall a b g p q r, In (both a b, g, r) l -> In (b, g, p) l -> In (a, both b g, q) l -> r == p * q.
Proof. exact talk_chain. Qed.
Print Assumptions C178_chain.
Theorem C178_total :
  forall S E Y body wire f w l, conversation S E Y body wire f w l ->
  forall a b g p q q' r, In (a, g, r) l -> In (b, g, p) l -> In (a, both b g, q) l -> In (a, both (not_ b) g, q') l ->
  r == p * q + (1 - p) * q'.
Proof. exact talk_total. Qed.
Print Assumptions C178_total.
(** [simple_bayes] of the answers is the answer, exactly, for any sample. *)
Theorem C178_bayes :
  forall S E Y body wire f w l, conversation S E Y body wire f w l ->
  forall h e p lh lnh q, In (h, anything E, p) l -> In (e, h, lh) l -> In (e, not_ h, lnh) l -> In (h, e, q) l ->
  exists q', simple_bayes lh lnh p = Ok q' /\ q' == q.
Proof. exact talk_bayes. Qed.
Print Assumptions C178_bayes.

(** Events 0, 1, 2, ...; divisible by 2, below 3. *)
Definition c178_ask (find : nat -> bool) (given : option (nat -> bool)) (n : nat) : bcall nat nat unit :=
  mkBC _ _ _ (Some 0%nat) n (Some (fun e => Ok (PBool (find e)))) (option_map (fun g e => Ok (g e)) given) None false (Some true)
    false false false None None false 1 (fun _ => 0%nat) [].
Definition c178_body (f : nat) (s : nat) : res nat * nat := (Ok s, S s).
Example C178_sat :
  let low := fun e => Nat.ltb e 3 in
  exists l, conversation nat nat unit c178_body (fun e => Ok e) 0 (mkB _ _ 0%nat (fun _ => None) (fun _ => None) (fun _ => None)) l /\
  exists p lh lnh q, l = [(Nat.even, anything nat, p); (low, Nat.even, lh); (low, not_ Nat.even, lnh); (Nat.even, low, q)] /\
    p == 3 # 5 /\ lh == 2 # 3 /\ lnh == 1 # 2 /\ q == 2 # 3.
Proof.
  eexists. split.
  - eapply (conv_ask _ _ _ _ _ 0 _ (c178_ask Nat.even None 5)); [repeat split|reflexivity|right; repeat split|reflexivity|].
    eapply (conv_other _ _ _ _ _ 0 _ [BOutside _ _ _ 9%nat (fun _ => None) (fun _ => None)]); [repeat constructor|].
    eapply (conv_ask _ _ _ _ _ 0 _ (c178_ask (fun e => Nat.ltb e 3) (Some Nat.even) 5)); [repeat split|reflexivity|left; repeat split|reflexivity|].
    eapply (conv_ask _ _ _ _ _ 0 _ (c178_ask (fun e => Nat.ltb e 3) (Some (not_ Nat.even)) 4)); [repeat split|reflexivity|left; repeat split|reflexivity|].
    eapply (conv_ask _ _ _ _ _ 0 _ (c178_ask Nat.even (Some (fun e => Nat.ltb e 3)) 1)); [repeat split|reflexivity|left; repeat split|reflexivity|].
    apply conv_end.
  - repeat eexists; reflexivity.
Qed.
