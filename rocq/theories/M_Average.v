(** Model of [average] in squigglepy/bayes.py (lines 416-446). *)
From Verif Require Import Base M_Weights M_Pick M_Values M_Sampler M_Ops.
Open Scope Q_scope.

Section Avg.
  Context {T : Type}.
  (** [weights=[0.5, 0.5]] is one list object, created when the module is loaded
      and shared by all calls that do not pass weights; it is threaded through as
      [d].  [w] is the caller's argument, [None] when left out.  Result: the
      mixture and the shared list afterwards. *)
  Definition average (w : option warg) (rw : warg) (prior evidence : obj T) (d : list cell)
    : res (dist T) * list cell :=
    let items := VList [MPlain prior; MPlain evidence] in
    let used := match w with Some w => w | None => WList d end in
    (mixture items used rw None None,
     match w, fst (snd (pwv (mitem_pair T) (fun _ : mitem T => false) used rw items false)) with
     | None, WList d' => d'
     | _, _ => d
     end).

  Definition initial_default : list cell := [Num (1 # 2); Num (1 # 2)].

  (** The shared list after a history of calls. *)
  Record avg_call : Type := mkAvg { a_w : option warg; a_rw : warg; a_prior : obj T; a_evidence : obj T }.
  Definition default_after (h : list avg_call) : list cell :=
    fold_left (fun d c => snd (average (a_w c) (a_rw c) (a_prior c) (a_evidence c) d)) h initial_default.
End Avg.
