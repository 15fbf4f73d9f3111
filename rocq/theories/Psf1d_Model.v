(** Model of how profilefit takes up a PSF profile: reading its file, and the x values for which the model is computed.
    Definitions only. *)
From Coq Require Import ZArith List Ascii Reals.
From Verif Require Import Base StrUtil_Model Profile_Model.
Import ListNotations.

Section Psf.
Variable T : Type.
Variable strtod : str -> T.

(** Read in PSF profile, profilefit_main.cpp:283-313. [nStoredDataVals] is the number of rows stored of the data file.
    Failing to allocate memory is not modelled. *)
Definition get_psf (psfFile : str) (nStoredDataVals : Z) : res (list (row T)) :=
  let nPixels_psf := CountDataLines psfFile in
  if ((nPixels_psf <? 1) || (MAX_N_DATA_VALS <? nPixels_psf))%Z%bool then Abort
  else
    let startDataRow := 0%Z in
    let endDataRow := (nPixels_psf - 1)%Z in
    do r <- ReadDataFile strtod psfFile startDataRow endDataRow nPixels_psf false false;
    let nSavedRows := fst r in
    if (nStoredDataVals <? nSavedRows)%Z then Abort else Ok (snd r).
End Psf.
Arguments get_psf {T}.

(** modelXValues of AddPSFVector1D, model_object_1d.cpp:238-261, in exact arithmetic *)
Definition modelXValues (dataXValues : list R) (nPSFVals : nat) : res (list R) :=
  let nDataVals := length dataXValues in
  do x1 <- get dataXValues 1;
  do x0 <- get dataXValues 0;
  let deltaX := (x1 - x0)%R in
  let newXStart := (x0 - INR nPSFVals * deltaX)%R in
  do xl <- get dataXValues (nDataVals - 1);
  Ok (map (fun i => (newXStart + deltaX * INR i)%R) (seq 0 nPSFVals) ++ dataXValues ++
      map (fun i => (xl + deltaX * INR (i + 1))%R) (seq 0 nPSFVals)).
