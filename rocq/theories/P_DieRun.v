(** What the samples of an exploding die tell about its rolls (C86, C151). *)
From Coq Require Import Lia ZArith.
From Verif Require Import Base M_Values M_Sampler SpecSampler SpecCtor SpecShare SpecDiceShare P_Dice P_DiceShare.
Open Scope Z_scope.

Section Die.
  Variable Or : oracle.
  Hypothesis Sup : in_support Or.

  Lemma throws_each sides ex b s zs s' : throws Or sides ex b s zs s' -> forall z, In z zs -> exists s1 s2, throw Or sides ex b s1 z s2.
  Proof. induction 1; intros y I; [destruct I|]. destruct I as [->|I]; eauto. Qed.
  Lemma simplify_elems l x : In x (elems (simplify l)) -> In x l.
  Proof. destruct l as [|a [|b l]]; cbn; auto. Qed.
  Lemma single_never_shown sides v n s a s' : (1 <= v <= sides) -> (1 <= n)%nat ->
    smp Or (ODist (DLeaf (LDie sides (Some [v])) None None)) n None None s = (Ok a, s') -> ~ In (PInt v) (elems a).
  Proof.
    intros V N E I. apply die_throws in E as (zs & L & T & ->); auto. apply simplify_elems in I.
    apply in_map_iff in I as (z & Z & I). inversion Z; subst. destruct (throws_each _ _ _ _ _ _ T _ I) as (s1 & s2 & W).
    now apply never_single in W.
  Qed.
  Lemma one_sample sides ex s a s' :
    smp Or (ODist (DLeaf (LDie sides ex) None None)) 1 None None s = (Ok a, s') <-> exists z, a = Scalar (PInt z) /\ throw Or sides ex (die_fuel Or) s z s'.
  Proof.
    rewrite die_throws by lia. split.
    - intros (zs & L & T & ->). destruct zs as [|z [|]]; try discriminate. inversion T; subst.
      match goal with H : throws _ _ _ _ _ [] _ |- _ => inversion H; subst end. exists z. split; auto.
    - intros (z & -> & W). exists [z]. split; auto. split; auto. econstructor; [exact W|constructor].
  Qed.
  Lemma top_face_sample sides s z s' : (2 <= sides) ->
    smp Or (ODist (DLeaf (LDie sides (Some [sides])) None None)) 1 None None s = (Ok (Scalar (PInt z)), s') ->
    rolled Or sides s (repeat sides (Z.to_nat (z / sides)) ++ [z mod sides]) s' /\ 1 <= z mod sides.
  Proof.
    intros S2 E. apply one_sample in E as (y & Y & W). inversion Y; subst y. destruct W as (bangs & final & R & _ & [B F] & T).
    destruct (top_face_rolls Or Sup sides s z s' bangs final S2 R B F T) as [L M].
    assert (bangs = repeat sides (Z.to_nat (z / sides))) as Eb.
    { rewrite <- L, Nat2Z.id. clear - B. induction bangs as [|b l IH]; auto. cbn. f_equal; [|apply IH; intros x I; apply B; now right].
      destruct (B b (or_introl eq_refl)) as [H|[]]. congruence. }
    rewrite <- M, <- Eb. split; auto. pose proof (rolled_range Or Sup _ _ _ _ R) as G. apply Forall_app in G as [_ G]. inversion G; subst. lia.
  Qed.
  Lemma one_sample_rolls n ex s a s' :
    smp Or (ODist (DLeaf (LDie n (Some ex)) None None)) 1 None None s = (Ok a, s') <->
    exists m rs, (m <= die_fuel Or)%nat /\ rolled Or n s rs s' /\ throw_of n ex m rs /\ a = Scalar (PInt (sum rs)).
  Proof.
    rewrite one_sample. split.
    - intros (z & -> & W). apply sampled_throws in W as (m & rs & L & R & T & ->); auto. eauto 6.
    - intros (m & rs & L & R & T & ->). eexists. split; [reflexivity|]. apply sampled_throws; auto. eauto 6.
  Qed.
End Die.
