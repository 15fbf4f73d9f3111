(** C32, C33, C34, C56: statistics and the Euclidean norm. *)
From Coq Require Import Reals ZArith List Permutation Bool Lia Lra.
From Flocq Require Import Core.Core IEEE754.BinarySingleNaN.
From Verif Require Import Base Num FloatFacts Sums Stats_Model Stats_Spec Stats_Proof.
Import ListNotations.
Local Open Scope R_scope.

(** ---- C32 ---- *)
(** The textbook formulas, with [stat] either -2 ln L (here: chi^2) or ln L. *)
Theorem C32_formulas : forall stat k n chi,
  AIC_corrected NumR stat k n chi
    = (if chi then stat else -2 * stat) + 2 * IZR k + 2 * IZR k * (IZR k + 1) / (IZR n - IZR k - 1) /\
  BIC NumR stat k n chi = (if chi then stat else -2 * stat) + IZR k * ln (IZR n).
Proof. intros. split; [apply AIC_exact|apply BIC_exact]. Qed.
Print Assumptions C32_formulas.

(** BIC penalises a parameter more than AIC exactly when there are at least 8 data values. *)
Theorem C32_bic_penalty : forall (stat : R) k n (chi : bool), (1 <= k)%Z -> (1 <= n)%Z ->
  ((8 <= n)%Z <-> (if chi then stat else -2 * stat) + 2 * IZR k < BIC NumR stat k n chi).
Proof.
  intros stat k n chi Hk Hn. rewrite BIC_exact, (ln_vs_2 Hn).
  assert (1 <= IZR k) by now apply IZR_le. split; intros H1.
  - apply Rplus_lt_compat_l. nra.
  - apply Rplus_lt_reg_l in H1. nra.
Qed.
Print Assumptions C32_bic_penalty.

(** In binary64 the corrected AIC is infinite or NaN when nData = nParams + 1. *)
Theorem C32_zero_denominator : forall m stat k chi, (1 <= k < 2 ^ 31)%Z ->
  is_finite (AIC_corrected (NumF m) stat k (k + 1) chi) = false.
Proof. exact AIC_zero_den. Qed.
Print Assumptions C32_zero_denominator.

(** ---- C33 (binary64, any library sort) ---- *)
(** No index leaves the array, both ends are samples, lower <= upper, at most
    15.85% of the samples lie strictly below (above) the interval, and the ends
    are not further out than that: at least 15.85% - 0.5001/n are <= lower
    (>= upper). The array is left sorted. *)
Theorem C33_interval : forall m qsort v,
  sorts qsort -> no_nan v -> (1 <= Z.of_nat (length v) < 2 ^ 31)%Z ->
  exists lo hi, ConfidenceInterval (NumF m) qsort v = Ok (lo, hi, qsort v) /\
    In lo v /\ In hi v /\ f_leb lo hi = true /\
    (10000 * count (fun x => f_ltb x lo) v <= 1585 * Z.of_nat (length v))%Z /\
    (10000 * count (fun x => f_ltb hi x) v <= 1585 * Z.of_nat (length v))%Z /\
    (1585 * Z.of_nat (length v) - 5001 <= 10000 * count (fun x => f_leb x lo) v)%Z /\
    (1585 * Z.of_nat (length v) - 5001 <= 10000 * count (fun x => f_leb hi x) v)%Z.
Proof. exact CI_ok. Qed.
Print Assumptions C33_interval.

(** a concrete case: a sort exists, and seven samples *)
Example C33_sort_exists : sorts isort.
Proof. exact isort_sorts. Qed.
Example C33_case : forall m, match ConfidenceInterval (NumF m) isort (map f_ofZ [7; 3; 5; 1; 2; 6; 4]%Z) with
  | Ok (lo, hi, _) => (f_eqb lo (f_ofZ 1) && f_eqb hi (f_ofZ 7))%bool | _ => false end = true.
Proof. intros m. vm_compute. reflexivity. Qed.

(** ---- C34 ---- *)
(** The norm is exact unless the vector mixes components of size at least
    1.304e19/n with non-zero ones of size at most 3.834e-20; then the latter
    are dropped, which lowers the squared norm by at most n * (3.834e-20)^2. *)
Theorem C34_norm : forall x,
  (Forall (fun a => Rabs a < 13040000000000000000 / INR (length x)) x \/
   Forall (fun a => a = 0 \/ 3834 / IZR (10 ^ 23) < Rabs a) x) ->
  mp_enorm NumR x = sqrt (sum_of_squares x).
Proof. exact mp_enorm_exact. Qed.
Print Assumptions C34_norm.

Theorem C34_norm_bounds : forall x,
  0 <= mp_enorm NumR x <= sqrt (sum_of_squares x) /\
  sum_of_squares x - INR (length x) * (3834 / IZR (10 ^ 23) * (3834 / IZR (10 ^ 23))) <= mp_enorm NumR x * mp_enorm NumR x.
Proof. exact mp_enorm_bounds. Qed.
Print Assumptions C34_norm_bounds.

(** The plain claim "always equal" is false: *)
Theorem C34_exact_refuted : exists x, mp_enorm NumR x <> sqrt (sum_of_squares x).
Proof.
  pose (g := 13040000000000000000). pose (d := 3834 / IZR (10 ^ 23)). exists [g; d].
  assert (Dp : 0 < d) by (unfold d; exact RDWARF_pos).
  rewrite (@mp_enorm_drops g d) by (split; [exact Dp|apply Rle_refl] || apply Rle_refl).
  assert (Gp : 0 < g) by (unfold g; lra). intros H.
  assert (E : g * g = sum_of_squares [g; d]).
  { rewrite <- (sqrt_sqrt (sum_of_squares [g; d])) by apply sq_nonneg. now rewrite <- H. }
  unfold sum_of_squares, rsuml in E. cbn [map fold_right] in E. clearbody g d. nra.
Qed.
Print Assumptions C34_exact_refuted.

Example C34_case : mp_enorm NumR [3; -4] = 5.
Proof.
  rewrite C34_norm.
  - replace (sum_of_squares [3; -4]) with (5 * 5) by (unfold sum_of_squares, rsuml; simpl; ring). apply sqrt_square. lra.
  - left. repeat constructor; cbn [length]; rewrite (INR_IZR_INZ 2); change (Z.of_nat 2) with 2%Z.
    + rewrite Rabs_pos_eq; lra.
    + rewrite Rabs_left; lra.
Qed.

(** ---- C56: mean and standard deviation ---- *)
Theorem C56_mean_sd : forall v, Mean NumR v = average v /\ StandardDeviation NumR v = sample_sd v.
Proof. intros v. split; [apply Mean_exact|apply SD_exact]. Qed.
Print Assumptions C56_mean_sd.

(** shifting all samples changes nothing, scaling them scales the deviation *)
Theorem C56_sd_affine : forall v a b, (2 <= length v)%nat ->
  StandardDeviation NumR (map (fun x => a * x + b) v) = Rabs a * StandardDeviation NumR v.
Proof. intros. rewrite !SD_exact. now apply sd_affine. Qed.
Print Assumptions C56_sd_affine.

(** With one sample the code returns NaN (0/0) although it guards against a negative sum. *)
Theorem C56_single_sample_refuted : forall m, is_nan (StandardDeviation (NumF m) [f_ofZ 3]) = true.
Proof. intros m. vm_compute. reflexivity. Qed.
Print Assumptions C56_single_sample_refuted.
