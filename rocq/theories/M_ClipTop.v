(** Model of [lclip], [rclip] and [clip] on any argument, squigglepy/distributions.py:503-617.

    Simplifications: bounds are None, ints or floats; an argument is a Python int or float,
    a 0-dimensional or one-dimensional numpy array (lists count as arrays), a distribution,
    or one of the functions these calls return.  A 0-dimensional array made of a function
    is [Unmodelled]. *)
From Verif Require Import Base M_Values M_Sampler M_Ops.

(** The functions returned for piping. *)
Inductive cpipe : Type := PLow (x : num) | PHigh (x : num) | PBoth (l r : num).
Inductive carg (T : Type) : Type :=
| CNumber (x : num)
| CZeroDim (v : pv)
| CArray (l : list pv)
| CDistr (d : dist T)
| CPipe (p : cpipe).
Arguments CNumber {T}. Arguments CZeroDim {T}. Arguments CArray {T}. Arguments CDistr {T}. Arguments CPipe {T}.

Section Clip.
  Variable T : Type.
  Definition bound_pv (b : option num) : pv := match b with Some x => num_pv x | None => PNone end.
  (** [_lclip(n, val)] and [_rclip(n, val)] through [np.vectorize]. *)
  Definition vec_clip (f : pv -> pv -> res pv) (a : carg T) (b : option num) : res (carg T) :=
    match a with
    | CNumber x => do y <- f (num_pv x) (bound_pv b); Ok (CZeroDim y)
    | CZeroDim v => do y <- f v (bound_pv b); Ok (CZeroDim y)
    | CArray l => do ys <- mapM (fun x => f x (bound_pv b)) l; do zs <- vec_cast ys; Ok (CArray zs)
    | CPipe _ => match b with Some _ => Err TypeError | None => Err Unmodelled end
    | CDistr _ => Err Unmodelled
    end.
  (** distributions.py:536-541. *)
  Definition lclip (a : carg T) (b : option num) : res (carg T) :=
    match a, b with
    | CNumber x, None => Ok (CPipe (PLow x))
    | CDistr d, _ => Ok (CDistr (DComplex (ODist d) (bound_obj b) FLclip))
    | _, _ => vec_clip lclip_fn a b
    end.
  (** distributions.py:576-581. *)
  Definition rclip (a : carg T) (b : option num) : res (carg T) :=
    match a, b with
    | CNumber x, None => Ok (CPipe (PHigh x))
    | CDistr d, _ => Ok (CDistr (DComplex (ODist d) (bound_obj b) FRclip))
    | _, _ => vec_clip rclip_fn a b
    end.
  (** distributions.py:609-617. *)
  Definition clip (a : carg T) (l r : option num) : res (carg T) :=
    match a, l, r with
    | CNumber x, Some y, None => Ok (CPipe (PBoth x y))
    | _, _, _ => do b <- lclip a l; rclip b r
    end.
  (** Applying a returned function. *)
  Definition run_pipe (p : cpipe) (a : carg T) : res (carg T) :=
    match p with
    | PLow x => lclip a (Some x)
    | PHigh x => rclip a (Some x)
    | PBoth l r => do b <- lclip a (Some l); rclip b (Some r)
    end.
End Clip.
Arguments lclip {T}. Arguments rclip {T}. Arguments clip {T}. Arguments run_pipe {T}. Arguments vec_clip {T}.
