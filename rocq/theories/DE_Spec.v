(** What it means for a parameter vector to respect the user's limits. *)
From Coq Require Import ZArith List Bool Reals.
From Verif Require Import Base Num DE_Model.
Import ListNotations.
Set Implicit Arguments.

Section S.
Variable T : Type.
Variable le same : T -> T -> Prop.
(** one value for every parameter; fixed parameters have the value the user
    gave; the others are between the user's limits *)
Definition respects (params : list T) (lims : list (limits T)) (v : list T) : Prop :=
  length v = length params /\
  forall j p l x, nth_error params j = Some p -> nth_error lims j = Some l -> nth_error v j = Some x ->
    if fixed l then same x p else le (lim0 l) x /\ le x (lim1 l).
(** the same for the fixed parameters only *)
Definition keeps_fixed (params : list T) (lims : list (limits T)) (v : list T) : Prop :=
  length v = length params /\
  forall j p l x, nth_error params j = Some p -> nth_error lims j = Some l -> nth_error v j = Some x ->
    fixed l = true -> same x p.
(** the limits of every free parameter are in order *)
Definition ordered (lims : list (limits T)) : Prop := forall j l, nth_error lims j = Some l -> fixed l = false -> le (lim0 l) (lim1 l).
Definition all_limited (lims : list (limits T)) : Prop := forall j l, nth_error lims j = Some l -> fixed l = false -> limited0 l = true /\ limited1 l = true.
End S.
