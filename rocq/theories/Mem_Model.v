(** Model of core/estimate_memory.cpp and of the sizes of the arrays it
    estimates. Definitions only. *)
From Coq Require Import ZArith List.
From Verif Require Import Base.
Import ListNotations.
Open Scope Z_scope.

Definition INT_MAX := 2 ^ 31 - 1.
(** [int] results are checked: overflow is undefined behaviour. The products
    are of type [long]; they stay within 64 bits for int factors up to the
    factors of 48 applied to them, see [long_]. *)
Definition int_ (z : Z) : res Z := if (- 2 ^ 31 <=? z) && (z <=? INT_MAX) then Ok z else Undef.
Definition long_ (z : Z) : res Z := if (- 2 ^ 63 <=? z) && (z <=? 2 ^ 63 - 1) then Ok z else Undef.

(** estimate_memory.cpp:40-41 *)
Definition FFTW_SIZE := 16.
Definition DOUBLE_SIZE := 8.

(** estimate_memory.cpp:53-76. [floor(n/2)] of an int division truncates
    towards zero: [Z.quot]. *)
Definition EstimateConvolverMemoryUse (nModel_cols nModel_rows nPSF_cols nPSF_rows : Z) : res Z :=
  let nBytesNeeded := nPSF_cols * nPSF_rows in
  do nCols_padded <- int_ (nModel_cols + nPSF_cols - 1);
  do nRows_padded <- int_ (nModel_rows + nPSF_rows - 1);
  let nCols_padded_trimmed := Z.quot nCols_padded 2 + 1 in
  let nPaddedPixels := nCols_padded * nRows_padded in
  let nPaddedPixels_cmplx := nCols_padded_trimmed * nRows_padded in
  long_ (nBytesNeeded + 3 * nPaddedPixels * DOUBLE_SIZE + 3 * nPaddedPixels_cmplx * FFTW_SIZE).

(** What the estimate uses of a PsfOversamplingInfo: scale, PSF size and the
    corrected region coordinates x1, x2, y1, y2 *)
Record Region := mkRegion { rg_scale : Z; rg_cols : Z; rg_rows : Z; rg_x1 : Z; rg_x2 : Z; rg_y1 : Z; rg_y2 : Z }.

(** estimate_memory.cpp:106-122, one turn of the loop *)
Definition region_use (r : Region) : res Z :=
  do deltaX <- int_ (rg_x2 r - rg_x1 r + 1);
  do deltaY <- int_ (rg_y2 r - rg_y1 r + 1);
  do nc <- int_ (deltaX * rg_scale r + 2 * rg_cols r);
  do nr <- int_ (deltaY * rg_scale r + 2 * rg_rows r);
  do e <- EstimateConvolverMemoryUse nc nr (rg_cols r) (rg_rows r);
  long_ (nc * nr * DOUBLE_SIZE + e).

(** estimate_memory.cpp:81-126 *)
Fixpoint EstimatePsfOversamplingMemoryUse (v : list Region) : res Z :=
  match v with
  | [] => Ok 0
  | r :: t => do a <- region_use r; do b <- EstimatePsfOversamplingMemoryUse t; long_ (a + b)
  end.

(** estimate_memory.cpp:131-176 *)
Definition EstimateMemoryUse (nData_cols nData_rows nPSF_cols nPSF_rows nFreeParams : Z)
    (levMarFit cashTerms outputResidual outputModel : bool) : res Z :=
  let nDataPixels := nData_cols * nData_rows in
  let dataSize := nDataPixels * DOUBLE_SIZE in
  do mb <-
    (if 0 <? nPSF_cols then
       do nModel_cols <- int_ (nData_cols + 2 * nPSF_cols);
       do nModel_rows <- int_ (nData_rows + 2 * nPSF_rows);
       do e <- EstimateConvolverMemoryUse nModel_cols nModel_rows nPSF_cols nPSF_rows;
       Ok (nModel_cols * nModel_rows, e)
     else Ok (nDataPixels, 0));
  let (nModelPixels, conv) := mb in
  let modelSize := nModelPixels * DOUBLE_SIZE in
  let b2i (b : bool) := if b then 1 else 0 in
  do nDataSizeAllocs <- int_ ((if levMarFit then 3 + nFreeParams else 0)
                              + b2i cashTerms + b2i outputResidual + b2i outputModel);
  long_ (dataSize + conv + 3 * modelSize + nDataSizeAllocs * dataSize).

(** ---- what is allocated: lists of (number of elements, bytes per element) ---- *)
Definition buffers := list (Z * Z).

(** Convolver::DoFullSetup, core/convolver.cpp:217-242, in the order of the
    calls of fftw_malloc *)
Definition convolver_buffers (nCols_image nRows_image nCols_psf nRows_psf : Z) : buffers :=
  let nColumns_padded := nCols_image + nCols_psf - 1 in
  let nRows_padded := nRows_image + nRows_psf - 1 in
  let nPixels_padded := nColumns_padded * nRows_padded in
  let nCols_trimmed := nColumns_padded / 2 + 1 in
  let nPixels_padded_complex := nRows_padded * nCols_trimmed in
  [(nPixels_padded, 8); (nPixels_padded_complex, 16); (nPixels_padded, 8);
   (nPixels_padded_complex, 16); (nPixels_padded_complex, 16); (nPixels_padded, 8)].

(** A fit of one image. The data image; with a PSF (nCols_psf > 0) the PSF
    image, ModelObject's copy of it (core/model_object.cpp:837) and the
    convolver's arrays; modelVector (model_object.cpp:497-517), weightVector
    (650, 1519, 1554), maskVector (977); with Levenberg-Marquardt
    deviatesVector (1640) and fvec, wa4, fjac (solvers/mpfit.cpp:506-516);
    extraCashTermsVector (1561), residualVector (2325), outputModelVector
    (1316). Arrays whose length is the number of parameters are left out. *)
Definition fit_buffers (nData_cols nData_rows nPSF_cols nPSF_rows nFree : Z)
    (levmar cash residual model : bool) : buffers :=
  let data := (nData_cols * nData_rows, 8) in
  let opt (b : bool) (l : buffers) := if b then l else [] in
  [data; data; data]
  ++ (if 0 <? nPSF_cols then
        let mc := nData_cols + 2 * nPSF_cols in
        let mr := nData_rows + 2 * nPSF_rows in
        [(nPSF_cols * nPSF_rows, 8); (nPSF_cols * nPSF_rows, 8); (mc * mr, 8)]
        ++ convolver_buffers mc mr nPSF_cols nPSF_rows
      else [data])
  ++ opt levmar [data; data; data; (nData_cols * nData_rows * nFree, 8)]
  ++ opt cash [data] ++ opt residual [data] ++ opt model [data].

(** An oversampled region: its PSF image (read by main), the convolver's
    arrays and the region's model image (core/oversampled_region.cpp:232-258;
    the number of base columns is x2 - x1 + 1, core/model_object.cpp:910-945) *)
Definition region_buffers (r : Region) : buffers :=
  let mc := (rg_x2 r - rg_x1 r + 1) * rg_scale r + 2 * rg_cols r in
  let mr := (rg_y2 r - rg_y1 r + 1) * rg_scale r + 2 * rg_rows r in
  (rg_cols r * rg_rows r, 8) :: (mc * mr, 8) :: convolver_buffers mc mr (rg_cols r) (rg_rows r).
