(** What PSF interpolation is supposed to compute, stated without the model's
    helpers. *)
From Coq Require Import Reals ZArith List.
From Verif Require Export Interp_Model Sums.
Open Scope R_scope.

(** An image of W columns and H rows, stored row by row *)
Definition psf_image (W H : nat) (pix : list R) : Prop :=
  length pix = (W * H)%nat /\ (Z.of_nat W < 2 ^ 31)%Z /\ (Z.of_nat H < 2 ^ 31)%Z.

(** The pixel in column [c] and row [r] *)
Definition pixel (W : nat) (pix : list R) (c r : nat) : R := nth (r * W + c) pix 0.

(** Where the k-th of n columns (or rows) lies relative to the centre *)
Definition position (n k : nat) : R := INR k - (INR n - 1) / 2.

(** A point further out than the outermost pixel centres *)
Definition beyond (n : nat) (t : R) : Prop := (INR n - 1) / 2 < Rabs t.

(** Lanczos' windowed sinc function with [n] lobes on each side, with the
    decimal approximations of pi and of its square that the program uses *)
Definition windowed_sinc (n : nat) (t : R) : R :=
  let PI' := 314159265358979 / IZR (10 ^ 14) in
  let PI2 := 986960440108936 / IZR (10 ^ 14) in
  if Rlt_dec (Rabs t) (1 / IZR (10 ^ 6)) then 1
  else if Rlt_dec (INR n) (Rabs t) then 0
  else INR n * sin (PI' * Rabs t) * sin (PI' * Rabs t / INR n) / (PI2 * Rabs t * Rabs t).

(** An image of [W] x [W] pixels that is its own mirror image in the diagonal *)
Definition diagonal_symmetric (W : nat) (pix : list R) : Prop :=
  forall c r, (c < W)%nat -> (r < W)%nat -> pixel W pix c r = pixel W pix r c.

(** GSL's bicubic spline passes through its data points. (Documented property
    of gsl_interp2d_bicubic, which is not modelled.) *)
Definition passes_through_data (spline : Spline2d R) : Prop :=
  forall xs ys z i j,
    NoDup xs -> NoDup ys -> length z = (length xs * length ys)%nat -> (i < length xs)%nat -> (j < length ys)%nat ->
    spline xs ys z (nth i xs 0) (nth j ys 0) = nth (j * length xs + i) z 0.

(** A function with that property (so the assumption can be met): look the
    coordinates up *)
Fixpoint index_of (x : R) (l : list R) : nat :=
  match l with
  | nil => O
  | a :: t => if Req_EM_T x a then O else S (index_of x t)
  end.
Definition lookup_spline : Spline2d R :=
  fun xs ys z x y => nth (index_of y ys * length xs + index_of x xs) z 0.

(** The interpolators as used on a W x H image *)
Definition psf_at (spline : Spline2d R) (k : Kind) (W H : nat) (pix : list R) (x y : R) : res R :=
  interp_value NumR spline k (make_psf NumR pix (Z.of_nat W) (Z.of_nat H)) x y.

(** number of lobes *)
Definition lobes (k : Kind) : option nat :=
  match k with Bicubic => None | Lanczos2 => Some 2%nat | Lanczos3 => Some 3%nat end.
