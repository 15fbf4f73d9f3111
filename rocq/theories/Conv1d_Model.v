(** Model of profile_fitting/convolver1d.cpp. Definitions only.

    FFTW is outside the model: [fft forward n a] is what executing a plan made by
    fftw_plan_dft_1d(n, ..., FFTW_FORWARD or FFTW_BACKWARD, ...) writes for the complex array [a]; a complex number is the
    pair of its parts. Allocation always succeeds; threads, planner flags and debugging output are left out. Sizes are
    natural numbers. *)
From Coq Require Import ZArith List.
From Verif Require Import Base Num Conv_Model.
Import ListNotations.

Section Conv1d.
Variable T : Type.
Variable N : Num T.
Infix "+" := (nadd N). Infix "*" := (nmul N). Infix "/" := (ndiv N).
Notation "0" := (nofZ N 0).
Notation "1" := (nofZ N 1).
Variable fft : bool -> nat -> list (T * T) -> list (T * T).

(** the normalisation in DoFullSetup, convolver1d.cpp:151-155: the PSF after it *)
Definition Normalize1D (nPixels_psf : nat) (psfPixels : list T) : res (list T) :=
  do psfSum <- for_ nPixels_psf (fun k psfSum => do x <- get psfPixels k; Ok (psfSum + x)) 0;
  for_ nPixels_psf (fun k psfPixels => do x <- get psfPixels k; set psfPixels k (x / psfSum)) psfPixels.

(** ShiftAndWrapPSF, convolver1d.cpp:269-279. The imaginary parts are 0 before and are not changed. *)
Definition ShiftAndWrapPSF1D (psfPixels : list T) (nPixels_psf nPixels_padded : nat) (psf_in_cmplx : list (T * T))
  : res (list (T * T)) :=
  let centerX_psf := Nat.div nPixels_psf 2 in
  for_ nPixels_psf (fun psfPixel psf_in_cmplx =>
    do v <- (do x <- get psfPixels psfPixel; Ok (x, 0));
    set psf_in_cmplx (Nat.modulo (nPixels_padded - centerX_psf + psfPixel)%nat nPixels_padded) v) psf_in_cmplx.

(** DoFullSetup, convolver1d.cpp:86-181, after SetupPSF and SetupProfile: padded size and transform of the PSF *)
Definition DoFullSetup1D (psfPixels : list T) (nPixels_psf nPixels_data : nat) : res (nat * list (T * T)) :=
  let nPixels_padded := (nPixels_data + nPixels_psf - 1)%nat in
  do psfPixels <- Normalize1D nPixels_psf psfPixels;
  do psf_in_cmplx <- ShiftAndWrapPSF1D psfPixels nPixels_psf nPixels_padded (repeat (0, 0) nPixels_padded);
  Ok (nPixels_padded, fft true nPixels_padded psf_in_cmplx).

(** ConvolveProfile, convolver1d.cpp:189-263: the values after the call *)
Definition ConvolveProfile (nPixels_data nPixels_padded : nat) (psf_fft_cmplx : list (T * T)) (pixelVector : list T)
  : res (list T) :=
  let rescaleFactor := 1 / nofZ N (Z.of_nat nPixels_padded) in
  do profile_in_cmplx <- for_ nPixels_data (fun ii profile_in_cmplx =>
    do v <- (do x <- get pixelVector ii; Ok (x, 0));
    set profile_in_cmplx ii v) (repeat (0, 0) nPixels_padded);
  let profile_fft_cmplx := fft true nPixels_padded profile_in_cmplx in
  do multiplied_cmplx <- multiply N nPixels_padded profile_fft_cmplx psf_fft_cmplx;
  let convolvedProfile_cmplx := fft false nPixels_padded multiplied_cmplx in
  for_ nPixels_data (fun ii pixelVector =>
    do v <- (do z <- get convolvedProfile_cmplx ii; let realPart := fst z in Ok (rescaleFactor * realPart));
    set pixelVector ii v) pixelVector.

(** the calls of psfconvolve1d_main.cpp:164-180 and of AddPSFVector1D and CreateModelImage,
    model_object_1d.cpp:263-266, 425-427 *)
Definition convolve1D (psfPixels : list T) (pixelVector : list T) : res (list T) :=
  do s <- DoFullSetup1D psfPixels (length psfPixels) (length pixelVector);
  ConvolveProfile (length pixelVector) (fst s) (snd s) pixelVector.
End Conv1d.
Arguments Normalize1D {T}. Arguments ShiftAndWrapPSF1D {T}. Arguments DoFullSetup1D {T}.
Arguments ConvolveProfile {T}. Arguments convolve1D {T}.
