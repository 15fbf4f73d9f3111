(** Model of PSF interpolation for point sources:
    function_objects/psf_interpolators.cpp, function_objects/func_pointsource.cpp
    and the part of core/model_object.cpp that chooses an interpolator.
    Definitions only. *)
From Coq Require Import ZArith List String.
From Verif Require Export Base Num.
Import ListNotations.

Section Interp.
Variable T : Type.
Variable N : Num T.
Notation "0" := (nofZ N 0).
Notation "1" := (nofZ N 1).
Notation "2" := (nofZ N 2).
Infix "+" := (nadd N). Infix "-" := (nsub N). Infix "*" := (nmul N). Infix "/" := (ndiv N).

(** psf_interpolators.cpp:30 *)
Definition PI_lit := ndec N 314159265358979 14.
(** psf_interpolators.cpp:31 *)
Definition PI_SQUARED := ndec N 986960440108936 14.

(** What the constructors store (psf_interpolators.cpp:44-64, 110-131,
    200-221): the pixels, the dimensions, the coordinates of the columns and
    rows and the largest allowed offsets. xArray[n] = n - xBound. *)
Record Psf := mkPsf {
  psfData : list T; nColumns : Z; nRows : Z;
  xArray : list T; yArray : list T; xBound : T; yBound : T }.

Definition coordinates (n : Z) (bound : T) : list T :=
  map (fun k => nofZ N (Z.of_nat k) - bound) (seq O (Z.to_nat n)).

Definition make_psf (inputImage : list T) (nCols_image nRows_image : Z) : Psf :=
  let xb := nofZ N (nCols_image - 1)%Z / 2 in
  let yb := nofZ N (nRows_image - 1)%Z / 2 in
  mkPsf inputImage nCols_image nRows_image
    (coordinates nCols_image xb) (coordinates nRows_image yb) xb yb.

(** The test at psf_interpolators.cpp:97, 160, 250 *)
Definition outside (p : Psf) (x y : T) : bool :=
  nltb N x (nneg N (xBound p)) || nltb N (xBound p) x
  || nltb N y (nneg N (yBound p)) || nltb N (yBound p) y.

(** psf_interpolators.cpp:289-295. The quotient of two floating-point numbers
    goes through floor() and is converted to int: undefined when it does not
    fit. [floor] is the truncation, less one for negative non-integers. *)
Definition FindIndex (arr : list T) (xVal : T) : res Z :=
  do a1 <- get arr 1;
  do a0 <- get arr 0;
  let deltaX := a1 - a0 in
  let deltaX_relative := xVal - a0 in
  let v := deltaX_relative / deltaX in
  match ntrunc N v with
  | Some z =>
      let fl := if nltb N v (nofZ N z) then (z - 1)%Z else z in
      if ((- 2 ^ 31 <=? fl)%Z && (fl <=? 2 ^ 31 - 1)%Z)%bool then Ok fl else Undef
  | None => Undef
  end.

(** psf_interpolators.cpp:299-308. [abs] of a double resolves to the
    floating-point overload of <cmath>. *)
Definition Lanczos (x : T) (n : Z) : T :=
  let x_abs := nabs N x in
  if nltb N x_abs (ndec N 1 6) then 1
  else if nltb N (nofZ N n) x_abs then 0
  else (nofZ N n * nsin N (PI_lit * x_abs) * nsin N (PI_lit * x_abs / nofZ N n))
       / (PI_SQUARED * x_abs * x_abs).

(** PsfInterpolator_lanczos2::GetValue (psf_interpolators.cpp:152-192) is
    [lanczos_value 2], PsfInterpolator_lanczos3::GetValue (242-282) is
    [lanczos_value 3]; the two bodies differ in that number only. The pixel
    read is at [i_data_x*nColumns + i_data_y] (lines 185, 275). *)
Definition lanczos_value (n : Z) (p : Psf) (x y : T) : res T :=
  if outside p x y then Ok 0
  else
    do i_data_mid_x <- FindIndex (xArray p) x;
    do i_data_mid_y <- FindIndex (yArray p) y;
    forZ (- n) (n + 1) (fun i newVal =>
      let i_data_x := (i_data_mid_x + i)%Z in
      if ((i_data_x <? 0)%Z || (nColumns p <=? i_data_x)%Z)%bool then Ok (newVal + 0)
      else
        do x_dat <- getZ (xArray p) i_data_x;
        forZ (- n) (n + 1) (fun j newVal =>
          let i_data_y := (i_data_mid_y + j)%Z in
          if ((i_data_y <? 0)%Z || (nRows p <=? i_data_y)%Z)%bool then Ok (newVal + 0)
          else
            do y_dat <- getZ (yArray p) i_data_y;
            let lanczosScaling := Lanczos (x - x_dat) n * Lanczos (y - y_dat) n in
            do d <- getZ (psfData p) (i_data_x * nColumns p + i_data_y)%Z;
            Ok (newVal + lanczosScaling * d)) newVal) 0.

(** GSL's two-dimensional spline, built by gsl_spline2d_init() from the
    coordinates of the columns and rows and the pixels, then evaluated. GSL is
    not modelled: it is an argument. *)
Definition Spline2d := list T -> list T -> list T -> T -> T -> T.

(** PsfInterpolator_bicubic::GetValue, psf_interpolators.cpp:94-102 *)
Definition bicubic_value (spline : Spline2d) (p : Psf) (x y : T) : res T :=
  if outside p x y then Ok 0
  else Ok (spline (xArray p) (yArray p) (psfData p) x y).

(** psf_interpolators.h: kInterpolator_bicubic, kInterpolator_lanczos2, kInterpolator_lanczos3 *)
Inductive Kind := Bicubic | Lanczos2 | Lanczos3.

Definition interp_value (spline : Spline2d) (k : Kind) (p : Psf) (x y : T) : res T :=
  match k with
  | Bicubic => bicubic_value spline p x y
  | Lanczos2 => lanczos_value 2 p x y
  | Lanczos3 => lanczos_value 3 p x y
  end.

(** PointSource::GetValue, func_pointsource.cpp:220-230 *)
Definition PointSource_value (I_tot x0 y0 : T) (oversamplingScale : Z)
    (interp : T -> T -> res T) (x y : T) : res T :=
  let x_diff := nofZ N oversamplingScale * (x - x0) in
  let y_diff := nofZ N oversamplingScale * (y - y0) in
  do normalizedIntensity <- interp x_diff y_diff;
  Ok (I_tot * normalizedIntensity).

(** PointSource::SetExtraParams, func_pointsource.cpp:150-190: the entries of
    the map in key order. Returns the status and the method. The loop never
    looks past the first entry. *)
Open Scope string_scope.
Definition SetExtraParams (m : list (string * string)) (current : Kind) : Z * Kind :=
  match m with
  | nil => (-1, current)%Z
  | (key, v) :: _ =>
      if String.eqb key "method" then
        if String.eqb v "bicubic" || String.eqb v "Bicubic" then (1%Z, Bicubic)
        else if String.eqb v "lanczos2" || String.eqb v "Lanczos2" then (1%Z, Lanczos2)
        else if String.eqb v "lanczos3" || String.eqb v "Lanczos3" then (1%Z, Lanczos3)
        else ((-3)%Z, current)
      else (0%Z, current)
  end.
Close Scope string_scope.

(** ModelObject::SetupPsfInterpolation, model_object.cpp:346-381.
    [psf = None] stands for no PSF having been supplied. *)
Definition SetupPsfInterpolation (psf : option (list T * Z * Z)) (k : Kind)
    : Z * option (Kind * Psf) :=
  match psf with
  | None => ((-1)%Z, None)
  | Some (pix, nc, nr) =>
      if ((nc <? 4)%Z || (nr <? 4)%Z)%bool then ((-2)%Z, None)
      else (0%Z, Some (k, make_psf pix nc nr))
  end.

(** The part of ModelObject::AddFunction that concerns point sources,
    model_object.cpp:294-305: [st] is the interpolator allocated so far, [k]
    the method of the function being added. Returns the status, the new
    allocated interpolator, and the one handed to the function. *)
Definition AddPointSource (psf : option (list T * Z * Z)) (st : option (Kind * Psf)) (k : Kind)
    : Z * option (Kind * Psf) * option (Kind * Psf) :=
  match st with
  | Some i => (0%Z, st, Some i)
  | None =>
      let (status, i) := SetupPsfInterpolation psf k in
      if (status <? 0)%Z then ((-1)%Z, None, None) else (0%Z, i, i)
  end.

(** AddFunction() for each point source in turn, as AddFunctions() does
    (add_functions.cpp:438-447): stops at the first failure. *)
Fixpoint AddPointSources (psf : option (list T * Z * Z)) (st : option (Kind * Psf)) (ks : list Kind)
    : Z * list (option (Kind * Psf)) :=
  match ks with
  | nil => (0%Z, nil)
  | k :: rest =>
      let '(status, st', got) := AddPointSource psf st k in
      if (status <? 0)%Z then (status, nil)
      else let (s, l) := AddPointSources psf st' rest in (s, got :: l)
  end.

(** OversampledRegion::AddPSFVector, oversampled_region.cpp:163-201, for a
    region whose set-up is not complete: the pixels the convolver works with
    ([normalise] stands for what Convolver::SetupPSF does when asked, see
    Conv_Model) and the interpolator, which is built from the caller's pixels. *)
Definition region_AddPSFVector (normalise : list T -> list T) (psfPixels : list T)
    (nColumns_psf nRows_psf : Z) (normalizePSF : bool) : list T * option (Kind * Psf) :=
  (if normalizePSF then normalise psfPixels else psfPixels,
   if ((4 <=? nColumns_psf)%Z && (4 <=? nRows_psf)%Z)%bool
   then Some (Bicubic, make_psf psfPixels nColumns_psf nRows_psf) else None).

End Interp.
Arguments psfData {T}. Arguments nColumns {T}. Arguments nRows {T}.
Arguments xArray {T}. Arguments yArray {T}. Arguments xBound {T}. Arguments yBound {T}.
Arguments Spline2d : clear implicits.
Arguments make_psf {T}. Arguments outside {T}. Arguments coordinates {T}. Arguments FindIndex {T}.
Arguments Lanczos {T}. Arguments lanczos_value {T}. Arguments bicubic_value {T}. Arguments interp_value {T}.
Arguments PointSource_value {T}. Arguments SetupPsfInterpolation {T}. Arguments AddPointSource {T}.
Arguments AddPointSources {T}. Arguments region_AddPSFVector {T}. Arguments PI_lit {T}. Arguments PI_SQUARED {T}.
