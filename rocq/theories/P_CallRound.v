(** The code printed for a normal distribution builds one with rounded parameters (C124). *)
From Coq Require Import Ascii String Qabs Lqa.
From Verif Require Import Base M_Values M_Sampler M_Ops M_Str M_Ctor SpecStr SpecCall SpecRound P_Call P_Round.
Open Scope string_scope.

Lemma rounds_round2 x : rounds 2 (num_q x) (num_q (round2 x)).
Proof.
  destruct x as [z|q]; cbn [round2 num_q].
  - exists (z * 100)%Z. change (Qpower 10 2) with (100#1)%Q.
    assert (E : (inject_Z (z * 100) == inject_Z z * (100#1))%Q) by (rewrite inject_Z_mult; reflexivity).
    split; [rewrite E; field|]. assert (A : (inject_Z z * (100#1) - inject_Z (z * 100) == 0)%Q) by (rewrite E; ring).
    rewrite A. split; [discriminate|]. intros H. discriminate.
  - destruct (np_round_rounds q 2) as (k & E & R). exists k. rewrite Qred_correct. split; assumption.
Qed.
Lemma norm_text_rounds fmt m s lc rc :
  exists call m' s', leaf_text fmt (KNorm m s lc rc) = head_mark ++ render fmt call /\
  eval_call call = Some (NewNorm (Some m') s' lc rc) /\ rounds 2 (num_q m) m' /\ rounds 2 (num_q s) s'.
Proof.
  exists (the_call (KNorm m s lc rc)), (num_q (round2 m)), (num_q (round2 s)).
  split; [exact (text_is_call fmt (KNorm m s lc rc) I)|]. split; [|split; apply rounds_round2].
  unfold eval_call, the_call, clip_args, bind_args. destruct lc as [lc|], rc as [rc|]; cbn; rewrite ?the_num_pv, ?num_or_none_pv; reflexivity.
Qed.
