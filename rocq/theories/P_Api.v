(** Consequences of the sampling lemmas in the form of the listed properties. *)
From Verif Require Import Base M_Weights SpecWeights M_Values M_Sampler M_Ops SpecSampler SpecSampler2 SpecOps SpecMixture
  P_Weights P_Sampler P_Count P_Clip P_Ops P_Sampler2 P_Support P_Pure P_Mixture.
From Coq Require Import Lqa.
Open Scope Q_scope.

Lemma clip_bounds Or o n lc rc s v s' lo hi :
  uncorrelated_top o -> smp Or o n lc rc s = (Ok v, s') ->
  lo = tight_lower (q_of lc) (q_of (own_lower o)) -> hi = tight_upper (q_of rc) (q_of (own_upper o)) ->
  match lo, hi with Some l, Some h => l <= h | _, _ => True end ->
  exists u, smp Or (unclipped o) n None None s = (Ok u, s') /\
    Forall2 (fun raw out =>
      (forall y, as_x out = Some y -> within lo hi y) /\
      (forall x, as_x raw = Some x -> within lo hi x -> same_number raw out))
      (elems u) (elems v).
Proof.
  intros U H -> -> LH. destruct (clip_relation Or o n lc rc s v s' U H) as (u & Hu & F).
  exists u. split; auto. revert F. generalize (elems u) (elems v).
  set (lo := tight_lower _ _) in *. set (hi := tight_upper _ _) in *.
  assert (XW : forall x y, xsame y x -> within lo hi x -> within lo hi y).
  { intros x y S [A B]. split.
    - destruct lo as [l|]; auto. rewrite <- A. apply xlt_same; auto. apply xsame_refl.
    - destruct hi as [h|]; auto. rewrite <- B. apply xlt_same; auto. apply xsame_refl. }
  intros l m F. induction F as [|a b l m C F IH]; constructor; auto.
  unfold clamped in C. destruct lo as [l0|] eqn:El, hi as [h|] eqn:Eh.
  4: { subst b. split; [intros; split; exact I|intros; apply same_refl]. }
  all: destruct (as_x a) as [x|] eqn:A; [|contradiction]; destruct (as_x b) as [y|] eqn:B; [|contradiction];
    (split;
     [ intros y' E; inversion E; subst y'; eapply XW; [exact C|]; now apply clamp_within
     | intros x' E W; inversion E; subst x'; rewrite (clamp_inside _ _ _ W) in C;
       unfold same_number; rewrite A, B; now apply xsame_sym ]).
Qed.

Lemma clip_crossed Or o n lc rc s v s' l h :
  uncorrelated_top o -> smp Or o n lc rc s = (Ok v, s') ->
  tight_lower (q_of lc) (q_of (own_lower o)) = Some l -> tight_upper (q_of rc) (q_of (own_upper o)) = Some h ->
  h < l ->
  Forall (fun y => as_x y = Some NaN \/ exists q, as_x y = Some (Fin q) /\ q == h) (elems v).
Proof.
  intros U H El Eh LH. destruct (clip_relation Or o n lc rc s v s' U H) as (u & Hu & F).
  rewrite El, Eh in F. clear Hu. revert F. generalize (elems u) (elems v). intros a b F.
  induction F as [|x y a b C F IH]; constructor; auto.
  unfold clamped in C. destruct (as_x x) as [xx|] eqn:A; [|contradiction]. destruct (as_x y) as [yy|] eqn:B; [|contradiction].
  destruct xx as [q| | | ] eqn:EX; [| | |left].
  4: { simpl in C. destruct yy; try discriminate; auto. }
  all: right; rewrite clamp_crossed in C by (auto; discriminate); destruct yy as [q'| | |]; try discriminate; eauto.
Qed.

Lemma leaf_count Or (RL : right_length Or) k lc rc n lc' rc' s v s' :
  covered_leaf k \/ ((exists t c, k = LT None None t c) /\ (2 <= n)%nat) ->
  smp Or (ODist (DLeaf k lc rc)) n lc' rc' s = (Ok v, s') -> n_samples n v.
Proof.
  intros [C|[(t & c & ->) N]] H.
  - eapply (sample_count Or RL (ODist (DLeaf k lc rc))); [exact C|exact H].
  - rewrite smp_odist, smp_leaf in H. unfold wrap in H. destruct n as [|n]; [discriminate|].
    inv_ok H. apply n_finish. unfold apply_clips in Ha0. apply bind_ok in Ha0 as (w & E1 & E2).
    eapply n_rclip; [|eassumption]. eapply n_lclip; [|eassumption].
    simpl in Ha. unfold t_sample in Ha. inv_ok Ha. apply n_arr; [|lia]. unfold flts. rewrite map_length.
    eapply rngf_length; eauto.
Qed.

(** Events. *)
Lemma event_runs Or (RL : right_length Or) (IS : in_support Or) p q s us g :
  as_x p = Some (Fin q) -> drawf Or (RUniform 0 1) 1 (rng s) = (Ok us, g) ->
  exists u b, us = [u] /\ 0 <= u < 1 /\ event_occurs Or (OLit p) s = (Ok b, mkState g (corr s)) /\ (b = true <-> u < q).
Proof.
  intros P D. destruct (event_lit Or p _ s us g P D RL) as (u & -> & E).
  exists u, (xlt (Fin u) (Fin q)). split; auto.
  destruct IS as [IS _]. apply IS in D. inversion D; subst. split.
  - apply H1. reflexivity.
  - split; [exact E|]. simpl. apply qlt_true.
Qed.

Lemma mixture_usable T items w rw lc rc (D : dist T) :
  mixture items w rw lc rc = Ok D ->
  ~ (exists l, weight_vector rw l /\ Forall (fun q => q == 0) l) ->
  exists ws ds, D = DMixture ws ds lc rc /\ ready ws ds.
Proof.
  unfold mixture. intros H Hz. apply bind_ok in H as ([ws vs] & H & E). inversion E; subst D. clear E.
  destruct (pwv _ _ w rw items false) as [r aft] eqn:EP. cbn in H. subst r.
  destruct (pwv_usable _ _ _ _ _ _ _ _ _ EP Hz) as (k & gw & vals & fw & _ & _ & [L _] & _ & P & R & _).
  eexists _, _. split; [reflexivity|]. split; [now rewrite map_length|]. split; auto.
Qed.

Lemma event_inv Or (RL : right_length Or) (IS : in_support Or) p q s b s' :
  as_x p = Some (Fin q) -> event_occurs Or (OLit p) s = (Ok b, s') ->
  exists u g, drawf Or (RUniform 0 1) 1 (rng s) = (Ok [u], g) /\ 0 <= u < 1 /\ (b = true <-> u < q).
Proof.
  intros P E. destruct (drawf Or (RUniform 0 1) 1 (rng s)) as [r g] eqn:D.
  destruct r as [us|e].
  - destruct (event_runs Or RL IS p q s us g P D) as (u & b' & -> & R & E' & I).
    exists u, g. rewrite E' in E. inversion E; subst. auto.
  - unfold event_occurs, bindS, ret, rngf in E. rewrite D in E. discriminate.
Qed.
Lemma event_never Or (RL : right_length Or) (IS : in_support Or) p q s b s' :
  as_x p = Some (Fin q) -> q <= 0 -> event_occurs Or (OLit p) s = (Ok b, s') -> b = false.
Proof.
  intros P Q E. destruct (event_inv Or RL IS p q s b s' P E) as (u & g & _ & R & I).
  destruct b; auto. assert (u < q) by (apply I; auto). lra.
Qed.
Lemma event_always Or (RL : right_length Or) (IS : in_support Or) p q s b s' :
  as_x p = Some (Fin q) -> 1 <= q -> event_occurs Or (OLit p) s = (Ok b, s') -> b = true.
Proof.
  intros P Q E. destruct (event_inv Or RL IS p q s b s' P E) as (u & g & _ & R & I).
  apply I. lra.
Qed.
Lemma event_monotone Or (RL : right_length Or) (IS : in_support Or) p1 q1 p2 q2 s b1 s1 b2 s2 :
  as_x p1 = Some (Fin q1) -> as_x p2 = Some (Fin q2) -> q1 <= q2 ->
  event_occurs Or (OLit p1) s = (Ok b1, s1) -> event_occurs Or (OLit p2) s = (Ok b2, s2) ->
  b1 = true -> b2 = true.
Proof.
  intros P1 P2 Q E1 E2 B.
  destruct (event_inv Or RL IS p1 q1 s b1 s1 P1 E1) as (u & g & D & R & I).
  destruct (event_inv Or RL IS p2 q2 s b2 s2 P2 E2) as (u' & g' & D' & R' & I').
  rewrite D in D'. inversion D'; subst u'. apply I'. apply I in B. lra.
Qed.
