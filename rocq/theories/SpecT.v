(** Contracts and vocabulary for the t distribution with bounds. *)
From Verif Require Import Base M_Values M_Sampler SpecSampler.
Open Scope Q_scope.

(** Normal draws are standard draws scaled and shifted: the generator's
    [normal(mean, sd)] is [mean + sd * standard_normal()]. *)
Definition location_scale (Or : oracle) : Prop :=
  exists std : nat -> G Or -> list Q * G Or, forall n g,
    length (fst (std n g)) = n /\
    forall m sd, 0 <= sd -> exists l, drawf Or (RNormal m sd) n g = (Ok l, snd (std n g)) /\
      Forall2 (fun z x => x == m + sd * z) (fst (std n g)) l.
Definition positive_quantile (Or : oracle) (cred : Q) : Prop := 0 < ppf Or ((1#2) + (1#2) * (cred / 100)).

Definition float_pair (P : Q -> Q -> Prop) (x y : pv) : Prop :=
  exists a b, x = PFlt (Fin a) /\ y = PFlt (Fin b) /\ P a b.
(** Each sample together with the chi-square draw it was divided by. *)
Inductive pairwise3 (P : Q -> Q -> Q -> Prop) : list Q -> list pv -> list pv -> Prop :=
| pw_nil : pairwise3 P [] [] []
| pw_cons c cs a x b y : P c a b -> pairwise3 P cs x y ->
    pairwise3 P (c :: cs) (PFlt (Fin a) :: x) (PFlt (Fin b) :: y).

(** An oracle with correct square roots where it is used: every chi-square draw is 4. *)
Definition t_oracle : oracle := {|
  G := nat;
  drawf := fun r n g => match r with
                        | RNormal m sd => (Ok (map (fun u => m + sd * u) (ex_fracs n g)), (g + n)%nat)
                        | _ => (Ok (repeat 4 n), g)
                        end;
  drawi := fun r n g => (Err Unmodelled, g);
  ppf := fun _ => 2; sqrt_ := fun q => if Qeq_bool q 4 then 2 else q;
  exp_ := fun q => q; log_ := fun q => q; pow_ := fun x _ => x; fmt := fun _ => ""%string;
  induce := fun _ cols => Ok cols; die_fuel := 0 |}.

(** A function applied to every sample. *)
Definition on_floats (f : Q -> Q) (x : pv) : pv := match x with PFlt (Fin q) => PFlt (Fin (f q)) | _ => x end.
Definition on_val (f : pv -> pv) (v : val) : val := match v with Scalar x => Scalar (f x) | Arr l => Arr (map f l) end.
