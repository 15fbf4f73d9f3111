(** Model of core/convolver.cpp and of the PSF part of core/model_object.cpp.
    Definitions only.

    FFTW is outside the model: [r2c nRows nCols a] is what executing a plan made
    by fftw_plan_dft_r2c_2d(nRows, nCols, ...) writes for the real array [a], and
    [c2r nRows nCols h] what a plan of fftw_plan_dft_c2r_2d writes for the
    complex array [h] of nRows x (nCols/2 + 1) elements; a complex number is the
    pair of its parts. Allocation always succeeds; threads, planner flags and
    debugging output are left out. Sizes are natural numbers. *)
From Coq Require Import ZArith List.
From Verif Require Export Base Num.

Section Conv.
Variable T : Type.
Variable N : Num T.
Infix "+" := (nadd N). Infix "-" := (nsub N). Infix "*" := (nmul N). Infix "/" := (ndiv N).
Notation "0" := (nofZ N 0).
Notation "1" := (nofZ N 1).
Variable r2c : nat -> nat -> list T -> list (T * T).
Variable c2r : nat -> nat -> list (T * T) -> list T.

(** the loops over an image: for (i < nRows) for (j < nCols) *)
Definition for2 {S} (nRows nCols : nat) (f : nat -> nat -> S -> res S) (s : S) : res S :=
  for_ nRows (fun i s => for_ nCols (fun j s => f i j s) s) s.

(** core/convolver.cpp:297-303 and core/model_object.cpp:2584-2591: Kahan summation
    of the first [n] elements *)
Definition kahan_total (n : nat) (v : list T) : res T :=
  do r <- for_ n (fun k '(psfSum, storedError) =>
    do x <- get v k;
    let adjustedVal := x - storedError in
    let tempSum := psfSum + adjustedVal in
    Ok (tempSum, (tempSum - psfSum) - adjustedVal)) (0, 0);
  Ok (fst r).
(** core/convolver.cpp:296-306 and NormalizePSF, core/model_object.cpp:2581-2594:
    the array after the call *)
Definition NormalizePSF (n : nat) (v : list T) : res (list T) :=
  do psfSum <- kahan_total n v;
  for_ n (fun k v => do x <- get v k; set v k (x / psfSum)) v.

(** what the Convolver holds after SetupPSF (core/convolver.cpp:171-182) and
    SetupImage (187-194): None when the function has not been called *)
Record psf_info := mkPSF { ps_pixels : list T; ps_cols : nat; ps_rows : nat; ps_normalize : bool }.
(** and what DoFullSetup adds *)
Record plan := mkPlan {
  pl_imCols : nat; pl_imRows : nat; pl_padCols : nat; pl_padRows : nat; pl_psfFFT : list (T * T) }.

(** core/convolver.cpp:421-441. The left operands of % are non-negative: the
    centre is at most half the PSF size and the padded size is no smaller. *)
Definition ShiftAndWrapPSF (pix : list T) (psfCols psfRows padCols padRows : nat) (padded : list T) : res (list T) :=
  let centerX := Nat.div psfCols 2 in
  let centerY := Nat.div psfRows 2 in
  for2 psfRows psfCols (fun i j padded =>
    let destCol := Nat.modulo (padCols - centerX + j)%nat padCols in
    let destRow := Nat.modulo (padRows - centerY + i)%nat padRows in
    do v <- get pix (i * psfCols + j)%nat;
    set padded (destRow * padCols + destCol)%nat v) padded.

(** core/convolver.cpp:201-331: status, the caller's PSF pixels after the call
    (normalisation is done in place) and the plan *)
Definition DoFullSetup (psf : option psf_info) (image : option (nat * nat)) : res (Z * list T * option plan) :=
  match psf, image with
  | Some p, Some (cols, rows) =>
    let padCols := (cols + ps_cols p - 1)%nat in
    let padRows := (rows + ps_rows p - 1)%nat in
    let nPixels_padded := (padCols * padRows)%nat in
    do pix <- (if ps_normalize p then NormalizePSF (ps_cols p * ps_rows p) (ps_pixels p) else Ok (ps_pixels p));
    do padded <- ShiftAndWrapPSF pix (ps_cols p) (ps_rows p) padCols padRows (repeat 0 nPixels_padded);
    Ok (0%Z, pix, Some (mkPlan cols rows padCols padRows (r2c padRows padCols padded)))
  | Some p, None => Ok ((-1)%Z, ps_pixels p, None)
  | None, _ => Ok ((-1)%Z, [], None)
  end.

(** core/convolver.cpp:371-378: product of the two transforms *)
Definition multiply (n : nat) (image_fft psf_fft : list (T * T)) : res (list (T * T)) :=
  for_ n (fun z out =>
    do ab <- get image_fft z; do cd <- get psf_fft z;
    let '(a, b) := ab in let '(c, d) := cd in
    Ok (out ++ [(a * c - b * d, b * c + a * d)])) [].

(** core/convolver.cpp:340-414: the pixels after the call *)
Definition ConvolveImage (p : plan) (pixelVector : list T) : res (list T) :=
  let padCols := pl_padCols p in
  let padRows := pl_padRows p in
  let nPixels_padded := (padCols * padRows)%nat in
  let rescaleFactor := 1 / nofZ N (Z.of_nat nPixels_padded) in
  do padded <- for2 (pl_imRows p) (pl_imCols p) (fun ii jj padded =>
      do v <- get pixelVector (ii * pl_imCols p + jj)%nat;
      set padded (ii * padCols + jj)%nat v) (repeat 0 nPixels_padded);
  do prod <- multiply (padRows * (Nat.div padCols 2 + 1))%nat (r2c padRows padCols padded) (pl_psfFFT p);
  let convolved := c2r padRows padCols prod in
  for2 (pl_imRows p) (pl_imCols p) (fun ii jj pix =>
      do rawValue <- get convolved (ii * padCols + jj)%nat;
      set pix (ii * pl_imCols p + jj)%nat (rescaleFactor * rawValue)) pixelVector.

(** the calls a client makes: SetupPSF, SetupImage, DoFullSetup and ConvolveImage;
    a failed set-up is an [Abort] *)
Definition convolve_with (psf : psf_info) (cols rows : nat) (pixelVector : list T) : res (list T) :=
  do r <- DoFullSetup (Some psf) (Some (cols, rows));
  match snd r with Some p => ConvolveImage p pixelVector | None => Abort end.

(** ModelObject::AddPSFVector, core/model_object.cpp:828-876: the return value,
    the local copy kept for interpolation (None if it was refused) and the PSF
    given to the Convolver. [modelImageSetupDone] is the flag of that name; a
    failed assert is an [Abort]. *)
Definition AddPSFVector (nPixels cols rows : nat) (psfPixels : list T) (normalizePSF modelImageSetupDone : bool)
  : res (Z * option (list T) * option psf_info) :=
  if (Nat.leb 1 nPixels && Nat.leb 1 cols && Nat.leb 1 rows)%bool then
    do r <- for_ nPixels (fun i '(acc : option (list T * T)) =>
      match acc with
      | None => Ok None
      | Some (l, tempSum) => do pixVal <- get psfPixels i;
          Ok (if nfin N pixVal then Some (l ++ [pixVal], tempSum + pixVal) else None)
      end) (Some ([], 0));
    match r with
    | None => Ok ((-1)%Z, None, None)
    | Some (localPix, tempSum) =>
      if (normalizePSF && nleb N tempSum 0)%bool then Ok ((-1)%Z, None, None)
      else
        do localPix <- (if normalizePSF then NormalizePSF nPixels localPix else Ok localPix);
        Ok (if modelImageSetupDone then (-1)%Z else 0%Z, Some localPix, Some (mkPSF psfPixels cols rows normalizePSF))
    end
  else Abort.
End Conv.
Arguments kahan_total {T} N. Arguments NormalizePSF {T} N. Arguments mkPSF {T}. Arguments ps_pixels {T}.
Arguments ps_cols {T}. Arguments ps_rows {T}. Arguments ps_normalize {T}. Arguments mkPlan {T}.
Arguments pl_imCols {T}. Arguments pl_imRows {T}. Arguments pl_padCols {T}. Arguments pl_padRows {T}.
Arguments pl_psfFFT {T}. Arguments ShiftAndWrapPSF {T}. Arguments DoFullSetup {T} N. Arguments multiply {T} N.
Arguments ConvolveImage {T} N. Arguments convolve_with {T} N. Arguments AddPSFVector {T} N.
