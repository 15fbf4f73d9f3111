(** What convolution with a PSF means, and the discrete Fourier transforms FFTW
    computes (FFTW 3 manual, sections 2.4 and 4.8), in exact arithmetic. *)
From Coq Require Import Reals List Arith ZArith Bool.
From Verif Require Import Sums.
Import ListNotations.
Local Open Scope R_scope.

(** pixel (column c, row r) of a row-major image of w columns and h rows, 0 outside *)
Definition zpix (img : list R) (w h : nat) (c r : Z) : R :=
  if ((0 <=? c) && (c <? Z.of_nat w) && (0 <=? r) && (r <? Z.of_nat h))%Z
  then nth (Z.to_nat r * w + Z.to_nat c) img 0 else 0.

(** the convolution of [img] (w x h) with [psf] (pw x ph), at pixel (c, r): every PSF
    pixel times the image value displaced by its offset from the PSF's central
    pixel (pw/2, ph/2) *)
Definition convolved (psf : list R) (pw ph : nat) (img : list R) (w h : nat) (c r : nat) : R :=
  rsum ph (fun k => rsum pw (fun l =>
    nth (k * pw + l) psf 0 *
    zpix img w h (Z.of_nat c - (Z.of_nat l - Z.of_nat (pw / 2))) (Z.of_nat r - (Z.of_nat k - Z.of_nat (ph / 2))))).

(** the sum of the pixels of an array, and the PSF in use: itself, or every pixel
    divided by the sum *)
Definition total (v : list R) : R := rsum (length v) (fun k => nth k v 0).
Definition used_psf (psf : list R) (normalize : bool) : list R :=
  if normalize then map (fun x => x / total psf) psf else psf.

(** the angle 2 pi (u i / nR + v j / nC) *)
Definition angle (nR nC u v i j : nat) : R :=
  2 * PI * (INR u * INR i / INR nR + INR v * INR j / INR nC).

(** real to complex: the columns v <= nC/2 of sum a_ij exp(-angle) *)
Definition dft_r2c (nR nC : nat) (a : list R) : list (R * R) :=
  let half := (nC / 2 + 1)%nat in
  map (fun z => let u := (z / half)%nat in let v := (z mod half)%nat in
    (rsum nR (fun i => rsum nC (fun j => nth (i * nC + j) a 0 * cos (angle nR nC u v i j))),
     - rsum nR (fun i => rsum nC (fun j => nth (i * nC + j) a 0 * sin (angle nR nC u v i j)))))
   (seq 0 (nR * half)).

(** the complex array with Hermitian symmetry of which [h] holds the columns
    v <= nC/2 *)
Definition hermitian (nR nC : nat) (h : list (R * R)) (u v : nat) : R * R :=
  let half := (nC / 2 + 1)%nat in
  if (v <? half)%nat then nth (u * half + v) h (0, 0)
  else let '(a, b) := nth ((nR - u) mod nR * half + (nC - v)) h (0, 0) in (a, - b).

(** complex to real, not normalised: sum H_uv exp(+angle) *)
Definition dft_c2r (nR nC : nat) (h : list (R * R)) : list R :=
  map (fun z => let i := (z / nC)%nat in let j := (z mod nC)%nat in
    rsum nR (fun u => rsum nC (fun v =>
      fst (hermitian nR nC h u v) * cos (angle nR nC u v i j) -
      snd (hermitian nR nC h u v) * sin (angle nR nC u v i j))))
   (seq 0 (nR * nC)).
