(** What a user of the Levenberg-Marquardt solver relies on. *)
From Coq Require Import ZArith List Bool Reals.
From Verif Require Import Base Num Sums DE_Model LM_Model.
Import ListNotations.
Set Implicit Arguments.

Section S.
Variable T : Type.
Variable lt : T -> T -> bool.

(** no free parameter is below its lower or above its upper limit; [None] means
    that the user gave no limits at all *)
Definition within (pars : option (list (limits T))) (v : list T) : Prop :=
  forall ps j p x, pars = Some ps -> nth_error ps j = Some p -> nth_error v j = Some x -> fixed p = false ->
    (limited0 p = true -> lt x (lim0 p) = false) /\ (limited1 p = true -> lt (lim1 p) x = false).

(** fixed parameters have their starting values *)
Definition keeps (pars : option (list (limits T))) (start v : list T) : Prop :=
  length v = length start /\
  forall ps j p, pars = Some ps -> nth_error ps j = Some p -> fixed p = true -> nth_error v j = nth_error start j.

(** two kinds of mistake in the user's limits *)
Definition empty_interval (le : T -> T -> bool) (p : limits T) : Prop :=
  fixed p = false /\ limited0 p = true /\ limited1 p = true /\ le (lim1 p) (lim0 p) = true.
Definition starts_outside (p : limits T) (x : T) : Prop :=
  (limited0 p = true /\ lt x (lim0 p) = true) \/ (limited1 p = true /\ lt (lim1 p) x = true).
Definition bad_limits (le : T -> T -> bool) (ps : list (limits T)) (start : list T) : Prop :=
  exists j p x, nth_error ps j = Some p /\ nth_error start j = Some x /\
    (empty_interval le p \/ starts_outside p x).
End S.

(** ---- linear algebra, exact arithmetic ---- *)
Local Open Scope R_scope.
(** the inner product of two columns of length [m] *)
Definition inner (m : nat) (u v : list R) : R := rsum m (fun i => nth i u 0 * nth i v 0).
(** entry of row [i], column [k], of the triangular factor: above the diagonal
    it is stored in the matrix, the diagonal is stored separately, below are zeros *)
Definition upper (q : list (list R)) (diag : list R) (i k : nat) : R :=
  if Nat.ltb i k then nth i (nth k q []) 0 else if Nat.eqb i k then nth k diag 0 else 0.
