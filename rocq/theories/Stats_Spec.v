(** Specification vocabulary for C32-C34 and C56, independent of the model. *)
From Coq Require Import Reals ZArith List Permutation Bool.
From Flocq Require Import Core.Core IEEE754.BinarySingleNaN.
From Verif Require Import Num Sums.
Local Open Scope R_scope.

Definition total (v : list R) : R := rsuml v.
Definition sum_of_squares (v : list R) : R := rsuml (map (fun x => x * x) v).
Definition size (v : list R) : R := INR (length v).
Definition average (v : list R) : R := total v / size v.
(** sample standard deviation, with n-1 in the denominator *)
Definition sample_sd (v : list R) : R :=
  sqrt (rsuml (map (fun x => (x - average v) ^ 2) v) / (size v - 1)).

(** binary64 samples *)
Definition no_nan (v : list F64) : Prop := Forall (fun x => is_nan x = false) v.

(** what the C standard promises of qsort with an ascending comparison *)
Definition sorts (qsort : list F64 -> list F64) : Prop :=
  forall v, no_nan v -> Permutation v (qsort v) /\
    forall i j x y, (i <= j)%nat -> nth_error (qsort v) i = Some x -> nth_error (qsort v) j = Some y -> f_leb x y = true.

(** number of samples satisfying a test, as an integer *)
Definition count (p : F64 -> bool) (v : list F64) : Z := Z.of_nat (length (filter p v)).
