(** What one step of the Levenberg-Marquardt method should be, in terms of the calls of
    the user's function: exact arithmetic, no reference to how the step is computed. *)
From Coq Require Import ZArith List Bool Reals.
From Verif Require Import Base Num Sums DE_Model LM_Model.
Import ListNotations.
Set Implicit Arguments.
Local Open Scope R_scope.

(** the calls of the function in the order in which they were made: why, at which
    parameters, and the deviates that came back *)
Definition calls := list (why * list R * list R).

(** parameters that are not fixed, in increasing order *)
Definition free_parameters (pars : option (list (limits R))) (n : nat) : list nat :=
  filter (fun j => match pars with None => true | Some ps => match nth_error ps j with Some p => negb (fixed p) | None => false end end) (seq 0 n).
Definition limits_of (pars : option (list (limits R))) (p : nat) : option (limits R) := match pars with Some ps => nth_error ps p | None => None end.

(** calls number [first], [first + 1], ... give the columns of [J], the difference
    quotients of the deviates at [base], where they are [f] *)
Definition jacobian (L : calls) (first m : nat) (free : list nat) (base f : list R) (J : nat -> nat -> R) : Prop :=
  forall j p, nth_error free j = Some p -> exists h g, h <> 0 /\
    nth_error L (first + j)%nat = Some (Derivative, upd base p (nth p base 0 + h), g) /\
    forall i, (i < m)%nat -> J i j = (nth i g 0 - nth i f 0) / h.

(** half the derivative of the sum of squares with respect to parameter [j] *)
Definition slope (m : nat) (f : list R) (J : nat -> nat -> R) (j : nat) : R := rsum m (fun i => nth i f 0 * J i j).
(** the parameter is at a limit and the sum of squares decreases towards the outside *)
Definition blocked (o : option (limits R)) (x s : R) : Prop :=
  exists l, o = Some l /\ ((limited0 l = true /\ x = lim0 l /\ 0 < s) \/ (limited1 l = true /\ x = lim1 l /\ s < 0)).
(** [J'] is [J] without the columns of blocked parameters *)
Definition unblocked (pars : option (list (limits R))) (m : nat) (free : list nat) (base f : list R) (J J' : nat -> nat -> R) : Prop :=
  forall j p, nth_error free j = Some p ->
    (blocked (limits_of pars p) (nth p base 0) (slope m f J j) -> forall i, (i < m)%nat -> J' i j = 0) /\
    (~ blocked (limits_of pars p) (nth p base 0) (slope m f J j) -> forall i, (i < m)%nat -> J' i j = J i j).

(** the sum of squares that the linear model predicts after a step [y], plus the penalty *)
Definition predicted (m n : nat) (f : list R) (J : nat -> nat -> R) (lambda : R) (D y : nat -> R) : R :=
  rsum m (fun i => (nth i f 0 + rsum n (fun j => J i j * y j)) ^ 2) + lambda * rsum n (fun j => (D j * y j) ^ 2).
Definition minimises {A} (F : A -> R) (y : A) : Prop := forall z, F y <= F z.

(** a component that would leave the allowed interval at once is dropped *)
Definition outward (o : option (limits R)) (x y : R) : Prop :=
  exists l, o = Some l /\ ((limited0 l = true /\ x <= lim0 l /\ y < 0) \/ (limited1 l = true /\ lim1 l <= x /\ 0 < y)).
Definition is_limit (o : option (limits R)) (v : R) : Prop :=
  exists l, o = Some l /\ ((limited0 l = true /\ v = lim0 l) \/ (limited1 l = true /\ v = lim1 l)).
Definition eps : R := 22204460 / IZR (10 ^ 23).

(** [v] is reached from [base] by the step [y], shortened by the common factor [alpha] so
    as to stay inside the limits; values next to a limit are moved onto it *)
Definition reached (pars : option (list (limits R))) (free : list nat) (base v : list R) (y : nat -> R) : Prop :=
  exists alpha y', 0 < alpha <= 1 /\ length v = length base /\
    (forall p, ~ In p free -> nth_error v p = nth_error base p) /\
    (forall j p, nth_error free j = Some p ->
      (outward (limits_of pars p) (nth p base 0) (y j) -> y' j = 0) /\ (~ outward (limits_of pars p) (nth p base 0) (y j) -> y' j = y j) /\
      (nth p v 0 = nth p base 0 + alpha * y' j \/
       is_limit (limits_of pars p) (nth p v 0) /\ Rabs (nth p v 0 - (nth p base 0 + alpha * y' j)) <= 2 * eps * (1 + Rabs (nth p v 0)))) /\
    (alpha = 1 \/ exists j p, nth_error free j = Some p /\ eps < Rabs (y j) /\ is_limit (limits_of pars p) (nth p base 0 + alpha * y' j)).

(** the columns are small enough for mp_enorm() to be the Euclidean norm *)
Definition reasonable (m n : nat) (J : nat -> nat -> R) : Prop :=
  forall j, (j < n)%nat -> rsum m (fun i => J i j * J i j) < (13040000000000000000 / INR m) ^ 2.

Definition norm (m : nat) (c : nat -> R) : R := sqrt (rsum m (fun i => c i * c i)).
(** at [v], where the deviates are [f], no free parameter can be changed with profit: it
    is blocked by a limit, or the gradient makes a cosine of at most [tol] *)
Definition stationary (pars : option (list (limits R))) (free : list nat) (m : nat) (tol : R) (v f : list R) (J : nat -> nat -> R) : Prop :=
  forall j p, nth_error free j = Some p ->
    blocked (limits_of pars p) (nth p v 0) (slope m f J j) \/
    Rabs (slope m f J j) <= tol * norm m (fun i => nth i f 0) * norm m (fun i => J i j).

(** call number [b] is the start or a trial, the calls after it are the differences for
    the Jacobian there, and those from there up to (not including) number [k] are trials *)
Definition around (L : calls) (m : nat) (free : list nat) (b k : nat) (base f : list R) (J : nat -> nat -> R) : Prop :=
  (exists w, nth_error L b = Some (w, base, f) /\ (w = Start \/ w = Trial)) /\
  jacobian L (S b) m free base f J /\ (b + length free < k)%nat /\
  (forall i, (b + length free < i < k)%nat -> exists v g, nth_error L i = Some (Trial, v, g)).

(** the point [v] of call number [k] comes from a Levenberg-Marquardt step, made from a
    point that is not stationary *)
Definition lm_step (pars : option (list (limits R))) (free : list nat) (m : nat) (tol : R) (L : calls) (k : nat) (v : list R) : Prop :=
  exists b base f J J', around L m free b k base f J /\ unblocked pars m free base f J J' /\
    (reasonable m (length free) J' -> exists lambda D y, 0 <= lambda /\ (forall j, (j < length free)%nat -> 0 < D j) /\
       minimises (predicted m (length free) f J' lambda D) y /\ reached pars free base v y) /\
    (reasonable m (length free) J' -> rsum m (fun i => nth i f 0 * nth i f 0) < (13040000000000000000 / INR m) ^ 2 -> ~ stationary pars free m tol base f J).

(** [err] are the square roots of the diagonal of the inverse of [J^T J], where columns
    that depend on others up to the relative tolerance [tol] are left out *)
Definition formal_errors (free : list nat) (m : nat) (tol : R) (J : nat -> nat -> R) (err : list R) : Prop :=
  exists (kept : nat -> bool) (C : nat -> nat -> R),
    (forall p, ~ In p free -> nth p err 0 = 0) /\
    (forall j p, nth_error free j = Some p -> if kept j then 0 < C j j /\ nth p err 0 = sqrt (C j j) else nth p err 0 = 0) /\
    (forall j k, (j < length free)%nat -> (k < length free)%nat -> kept j = true -> kept k = true ->
       rsum (length free) (fun l => if kept l then rsum m (fun i => J i j * J i l) * C l k else 0) = if Nat.eqb j k then 1 else 0) /\
    (forall j, (j < length free)%nat -> kept j = false -> exists c k, (k < length free)%nat /\
       norm m (fun i => J i j - rsum (length free) (fun l => if kept l then c l * J i l else 0)) <= tol * norm m (fun i => J i k)).
