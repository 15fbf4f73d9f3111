(** Specification vocabulary for C11, C26-C31 and C36: what a set of inputs
    (data image, mask, errors, image characteristics) means, independently of
    the way the program processes it. *)
From Coq Require Import Reals ZArith List Bool.
From Flocq Require Import Core.Core IEEE754.BinarySingleNaN.
From Verif Require Import Base Num Sums Fit_Model.
Local Open Scope nat_scope.

Section Spec.
Variable T : Type.
Variable N : Num T.
Notation "0" := (nofZ N 0).
Notation "1" := (nofZ N 1).
Infix "+" := (nadd N). Infix "*" := (nmul N). Infix "/" := (ndiv N).

Definition at_ (l : list T) (z : nat) : T := nth z l 0.
Definition npix (s : setup T) : nat := (s_cols s * s_rows s)%nat.

(** the user's mask marks pixel [z] as good; non-finite mask values never do *)
Definition user_good (s : setup T) (z : nat) : bool :=
  match s_mask s with
  | None => true
  | Some (pix, ty) =>
    if (ty =? 10)%Z then nfin N (at_ pix z) && negb (nltb N 0 (at_ pix z))
    else nfin N (at_ pix z) && negb (nltb N (at_ pix z) 1)
  end.

(** the image characteristics *)
Definition total_gain (s : setup T) : T := s_gain s * s_expTime s * nofZ N (s_nCombined s).
Definition noise_sq (s : setup T) (flux : T) : T :=
  flux / total_gain s
  + nofZ N (s_nCombined s) * (s_readNoise s * s_readNoise s / (total_gain s * total_gain s)).

(** the weight (1/sigma) that follows from the chosen statistic and the inputs *)
Definition given_weight (s : setup T) (z : nat) : T :=
  match s_stat s with
  | ChiUserErrors pix ty =>
    if (ty =? 100)%Z then 1 / at_ pix z
    else if (ty =? 110)%Z then 1 / nsqrt N (at_ pix z)
    else nsqrt N (at_ pix z)
  | ChiDataErrors =>
    let flux := at_ (s_data s) z + s_sky s in
    1 / nsqrt N (noise_sq s (if nltb N flux 0 then 0 else flux))
  | _ => 1
  end.

Definition user_errors (s : setup T) : bool := match s_stat s with ChiUserErrors _ _ => true | _ => false end.

(** the pixels a fit may use: good in the mask, finite data, and (error image
    supplied) finite 1/sigma *)
Definition usable (s : setup T) (z : nat) : bool :=
  user_good s z && nfin N (at_ (s_data s) z) && (if user_errors s then nfin N (given_weight s z) else true).
Definition n_usable (s : setup T) : Z := Z.of_nat (length (filter (usable s) (seq O (npix s)))).

(** inputs of the right shape, as the programs enforce before setup *)
Definition well_formed (s : setup T) : Prop :=
  length (s_data s) = npix s /\
  match s_mask s with
  | None => True
  | Some (pix, ty) => length pix = npix s /\ (ty = 10 \/ ty = 20)%Z
  end /\
  match s_stat s with
  | ChiUserErrors pix ty => length pix = npix s /\ (ty = 100 \/ ty = 110 \/ ty = 120)%Z
  | _ => True
  end /\
  nltb N 0 (s_gain s) = true /\ nleb N 0 (s_readNoise s) = true /\ nltb N 0 (s_expTime s) = true /\
  (1 <= s_nCombined s)%Z /\ nleb N 0 (s_sky s) = true.

Definition chi_statistic (s : setup T) : Prop := match s_stat s with Cash | PMLR => False | _ => True end.

(** the model image has a border of one PSF on each side; pixel (row, col) of
    the data image is pixel (row + nPSFRows, col + nPSFColumns) of it *)
Definition model_size (s : setup T) : nat :=
  match s_psf s with
  | None => npix s
  | Some (pc, pr) => ((s_cols s + 2 * pc) * (s_rows s + 2 * pr))%nat
  end.
Definition model_at (s : setup T) (mv : list T) (z : nat) : T :=
  match s_psf s with
  | None => at_ mv z
  | Some (pc, pr) =>
    at_ mv ((z / s_cols s + pr) * (s_cols s + 2 * pc) + (z mod s_cols s + pc))%nat
  end.

(** inputs that differ at most in the data and error values of pixels that the
    user's mask excludes *)
Definition differ_only_where_masked (s1 s2 : setup T) : Prop :=
  s_cols s1 = s_cols s2 /\ s_rows s1 = s_rows s2 /\ s_psf s1 = s_psf s2 /\
  s_gain s1 = s_gain s2 /\ s_readNoise s1 = s_readNoise s2 /\ s_expTime s1 = s_expTime s2 /\
  s_nCombined s1 = s_nCombined s2 /\ s_sky s1 = s_sky s2 /\ s_mask s1 = s_mask s2 /\
  (forall z, z < npix s1 -> user_good s1 z = true -> at_ (s_data s1) z = at_ (s_data s2) z) /\
  match s_stat s1, s_stat s2 with
  | Cash, Cash | PMLR, PMLR | ChiModelErrors, ChiModelErrors | ChiDataErrors, ChiDataErrors => True
  | ChiUserErrors e1 t1, ChiUserErrors e2 t2 =>
      t1 = t2 /\ forall z, z < npix s1 -> user_good s1 z = true -> at_ e1 z = at_ e2 z
  | _, _ => False
  end.
End Spec.
Arguments at_ {T} N. Arguments npix {T}. Arguments user_good {T} N. Arguments total_gain {T} N. Arguments noise_sq {T} N.
Arguments given_weight {T} N. Arguments user_errors {T}. Arguments usable {T} N. Arguments n_usable {T} N.
Arguments well_formed {T} N. Arguments chi_statistic {T}. Arguments model_size {T}. Arguments model_at {T} N.
Arguments differ_only_where_masked {T} N.

(** a binary64 zero of either sign *)
Definition is_zero (x : F64) : bool := match x with B754_zero _ => true | _ => false end.
(** equal, or both zero *)
Definition same_value (x y : F64) : Prop := x = y \/ (is_zero x = true /\ is_zero y = true).

(** the Poisson maximum-likelihood-ratio term for model counts M and data counts D *)
Definition pmlr_term (M D : R) : R :=
  (2 * (M - D + (if Req_EM_T D 0 then 0 else D * ln (D / M))))%R.

Section Terms.
Variable T : Type.
Variable N : Num T.
Notation "0" := (nofZ N 0).
Infix "+" := (nadd N). Infix "*" := (nmul N). Infix "-" := (nsub N).

(** non-finite data values count as 0 (such pixels are never used) *)
Definition clean_data (s : setup T) (z : nat) : T :=
  if nfin N (at_ N (s_data s) z) then at_ N (s_data s) z else 0.
(** model and data in counts (electrons) *)
Definition counts (s : setup T) (v : T) : T := total_gain N s * (v + s_sky s).
Definition log_counts (M : T) : T := if nleb N M 0 then ndec N 1 25 else nlog N M.
(** the data-only part of the Poisson likelihood ratio *)
Definition data_term (s : setup T) (z : nat) : T :=
  match s_stat s with
  | PMLR => let D := counts s (at_ N (s_data s) z) in if nleb N D 0 then 0 else D * nlog N D - D
  | _ => 0
  end.
(** the unweighted contribution of pixel [z] to the statistic: the residual
    (chi-squared) or the Poisson term *)
Definition pixel_term (s : setup T) (mv : list T) (z : nat) : T :=
  match s_stat s with
  | Cash | PMLR =>
    let M := counts s (model_at N s mv z) in
    M - counts s (clean_data s z) * log_counts M + data_term s z
  | _ => clean_data s z - model_at N s mv z
  end.

(** a bootstrap resample: as many pixel numbers as there are usable pixels *)
Definition resample_ok (s : setup T) (ob : option (list nat)) : Prop :=
  match ob with
  | None => True
  | Some b => Z.of_nat (length b) = n_usable N s /\ Forall (fun i => i < npix s)%nat b
  end.
Definition resampled (o : mobj T) (ob : option (list nat)) : mobj T :=
  match ob with None => o | Some b => with_bootstrap o b end.
(** the pixels that enter the statistic, in order *)
Definition pixels (s : setup T) (ob : option (list nat)) : list nat :=
  match ob with None => seq O (npix s) | Some b => b end.
End Terms.
Arguments clean_data {T} N. Arguments counts {T} N. Arguments log_counts {T} N. Arguments data_term {T} N.
Arguments pixel_term {T} N. Arguments resample_ok {T} N. Arguments resampled {T}. Arguments pixels {T}.

(** what the user's mask value [x] means under the two documented conventions;
    non-finite values count as bad *)
Definition mask_good {T} (N : Num T) (ty : Z) (x : T) : bool :=
  (nfin N x && (if (ty =? 10)%Z then negb (nltb N (nofZ N 0) x) else negb (nltb N x (nofZ N 1))))%bool.
