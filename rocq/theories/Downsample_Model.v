(** Model of core/downsample.cpp and of core/oversampled_region.cpp.
    Definitions only. OpenMP loops are run sequentially (their iterations write
    different array elements); debugging output and logging are left out. *)
From Coq Require Import ZArith List.
From Verif Require Export Base Num.
Local Open Scope Z_scope.

Section Downsample.
Variable T : Type.
Variable N : Num T.

(** core/downsample.cpp:54-109. Integer division by zero is undefined. *)
Definition DownsampleAndReplace (oversampledImage : list T)
    (nOversampCols nOversampRows nOversampPSFCols nOversampPSFRows : Z)
    (mainImage : list T) (nMainCols nMainRows nMainPSFCols nMainPSFRows : Z)
    (startX startY oversampleScale : Z) : res (list T) :=
  let j1 := startX - 1 + nMainPSFCols in
  let i1 := startY - 1 + nMainPSFRows in
  if oversampleScale =? 0 then Undef else
  let nCols_subregion := Z.quot (nOversampCols - 2 * nOversampPSFCols) oversampleScale in
  let nRows_subregion := Z.quot (nOversampCols - 2 * nOversampPSFRows) oversampleScale in
  let oversampleArea := nofZ N (oversampleScale * oversampleScale) in
  forZ i1 (i1 + nRows_subregion) (fun i img =>
    forZ j1 (j1 + nCols_subregion) (fun j img =>
      let j_sub := j - j1 in
      let i_sub := i - i1 in
      let jj1 := j_sub * oversampleScale + nOversampPSFCols in
      let ii1 := i_sub * oversampleScale + nOversampPSFRows in
      do binnedFlux <-
        forZ ii1 (ii1 + oversampleScale) (fun ii acc =>
          forZ jj1 (jj1 + oversampleScale) (fun jj acc =>
            do v <- getZ oversampledImage (ii * nOversampCols + jj);
            Ok (nadd N acc v)) acc) (nofZ N 0);
      setZ img (i * nMainCols + j) (ndiv N binnedFlux oversampleArea)) img) mainImage.

(** OversampledRegion after SetupModelImage, core/oversampled_region.cpp:207-273.
    [nPSFColumns], [nPSFRows] are 0 unless AddPSFVector was called (163-199), and
    [doConvolution] is then set; the asserts (213-215) are an [Abort]. *)
Record region := mkRegion {
  rg_x1 : Z; rg_y1 : Z; rg_mainCols : Z; rg_mainRows : Z; rg_mainPSFCols : Z; rg_mainPSFRows : Z;
  rg_scale : Z; rg_subpixFrac : T; rg_startX : T; rg_startY : T;
  rg_nPSFCols : Z; rg_nPSFRows : Z; rg_doConv : bool;
  rg_modelCols : Z; rg_modelRows : Z }.

Definition SetupModelImage (psf : option (Z * Z)) (x1 y1 nBaseColumns nBaseRows nColumnsMain nRowsMain
    nColumnsPSF_main nRowsPSF_main oversampScale : Z) : res region :=
  if (1 <=? nBaseColumns) && (1 <=? nBaseRows) && (1 <=? oversampScale)
     && (1 <=? nColumnsMain) && (1 <=? nRowsMain) && (0 <=? nColumnsPSF_main) && (0 <=? nRowsPSF_main)
  then
    let frac := ndiv N (nofZ N 1) (nofZ N oversampScale) in
    let off := nsub N (nmul N (ndec N 5 1) frac) (ndec N 5 1) in
    let '(pc, pr, conv) := match psf with Some (c, r) => (c, r, true) | None => (0, 0, false) end in
    let nRegionColumns := nBaseColumns * oversampScale in
    let nRegionRows := nBaseRows * oversampScale in
    Ok (mkRegion x1 y1 nColumnsMain nRowsMain nColumnsPSF_main nRowsPSF_main
          oversampScale frac off off pc pr conv
          (if conv then nRegionColumns + 2 * pc else nRegionColumns)
          (if conv then nRegionRows + 2 * pr else nRegionRows))
  else Abort.

(** a FunctionObject: its value at image coordinates and whether it is a point source *)
Record fobj := mkFobj { fo_value : T -> T -> T; fo_point : bool }.

(** the Kahan summation over the functions selected by [sel],
    core/oversampled_region.cpp:317-328 and 393-409 *)
Definition kahan_sum (fs : list fobj) (sel : bool) (x y : T) : T :=
  fst (fold_left (fun '(newValSum, storedError) f =>
         if Bool.eqb (fo_point f) sel then
           let adjVal := nsub N (fo_value f x y) storedError in
           let tempSum := nadd N newValSum adjVal in
           (tempSum, nsub N (nsub N tempSum newValSum) adjVal)
         else (newValSum, storedError)) fs (nofZ N 0, nofZ N 0)).

(** coordinates of model pixel (row i, column j), core/oversampled_region.cpp:311-316 *)
Definition reg_y (r : region) (i : Z) : T :=
  nadd N (nadd N (nofZ N (rg_y1 r)) (rg_startY r)) (nmul N (nofZ N (i - rg_nPSFRows r)) (rg_subpixFrac r)).
Definition reg_x (r : region) (j : Z) : T :=
  nadd N (nadd N (nofZ N (rg_x1 r)) (rg_startX r)) (nmul N (nofZ N (j - rg_nPSFCols r)) (rg_subpixFrac r)).

(** core/oversampled_region.cpp:284-430. [convolve] stands for
    Convolver::ConvolveImage, [pts] for the functions after step 3 has changed
    the interpolator and scale of the point sources. *)
Definition ComputeRegionAndDownsample (r : region) (convolve : list T -> list T)
    (fs pts : list fobj) (mainImage : list T) : res (list T) :=
  let nModelVals := rg_modelCols r * rg_modelRows r in
  let img0 := map (fun k => let k := Z.of_nat k in
      kahan_sum fs false (reg_x r (Z.rem k (rg_modelCols r))) (reg_y r (Z.quot k (rg_modelCols r))))
      (seq 0 (Z.to_nat nModelVals)) in
  let img1 := if rg_doConv r then convolve img0 else img0 in
  let img2 := map (fun '(k, v) => let k := Z.of_nat k in
      nadd N v (kahan_sum pts true (reg_x r (Z.rem k (rg_modelCols r))) (reg_y r (Z.quot k (rg_modelCols r)))))
      (combine (seq 0 (Z.to_nat nModelVals)) img1) in
  DownsampleAndReplace img2 (rg_modelCols r) (rg_modelRows r) (rg_nPSFCols r) (rg_nPSFRows r)
    mainImage (rg_mainCols r) (rg_mainRows r) (rg_mainPSFCols r) (rg_mainPSFRows r)
    (rg_x1 r) (rg_y1 r) (rg_scale r).
End Downsample.
Arguments DownsampleAndReplace {T} N.
Arguments SetupModelImage {T} N.
Arguments kahan_sum {T} N.
Arguments reg_x {T} N. Arguments reg_y {T} N.
Arguments ComputeRegionAndDownsample {T} N.
Arguments fo_value {T}. Arguments fo_point {T}. Arguments mkFobj {T}.
Arguments mkRegion {T}.
Arguments rg_x1 {T}. Arguments rg_y1 {T}. Arguments rg_mainCols {T}. Arguments rg_mainRows {T}.
Arguments rg_mainPSFCols {T}. Arguments rg_mainPSFRows {T}. Arguments rg_scale {T}. Arguments rg_subpixFrac {T}.
Arguments rg_startX {T}. Arguments rg_startY {T}. Arguments rg_nPSFCols {T}. Arguments rg_nPSFRows {T}.
Arguments rg_doConv {T}. Arguments rg_modelCols {T}. Arguments rg_modelRows {T}.
