(** Model of the data, mask, weight and fit-statistic part of ModelObject
    (core/model_object.cpp), of the order in which core/setup_model_object.cpp
    calls it, and of the multi-image sums (core/model_object_multimage.cpp).
    Definitions only.

    A null pointer is the empty list, so that dereferencing it is [Undef].
    Memory allocation always succeeds. The model image is an argument of the
    statistics: CreateModelImage is modelled in another file. Messages on
    stdout/stderr are left out. *)
From Coq Require Import ZArith List Bool.
From Verif Require Export Base Num Stats_Model.

Section Fit.
Variable T : Type.
Variable N : Num T.
Notation "0" := (nofZ N 0).
Notation "1" := (nofZ N 1).
Notation "2" := (nofZ N 2).
Infix "+" := (nadd N). Infix "-" := (nsub N). Infix "*" := (nmul N). Infix "/" := (ndiv N).

(** the data members used here (core/model_object.h) *)
Record mobj := mkObj {
  nDataVals : nat; nDataColumns : nat; nDataRows : nat;
  dataVector : list T; dataValsSet : bool;
  maskExists : bool; maskVector : list T;
  weightValsSet : bool; externalErrors : bool; weightVector : list T;
  extraCash : list T;
  nValid : Z;
  effectiveGain : T; nCombined : T; originalSky : T; readNoise_adu_squared : T;
  dataErrors : bool; modelErrors : bool; useCash : bool; poissonMLR : bool;
  doConvolution : bool; nModelColumns : nat; nModelRows : nat; nPSFColumns : nat; nPSFRows : nat;
  doBootstrap : bool; bootstrapIndices : list nat }.

(** core/model_object.cpp:112-179, the constructor's defaults *)
Definition new_object : mobj :=
  {| nDataVals := 0; nDataColumns := 0; nDataRows := 0; dataVector := []; dataValsSet := false;
     maskExists := false; maskVector := []; weightValsSet := false; externalErrors := false; weightVector := [];
     extraCash := []; nValid := 0;
     effectiveGain := 1; nCombined := 1; originalSky := 0; readNoise_adu_squared := 0;
     dataErrors := true; modelErrors := false; useCash := false; poissonMLR := false;
     doConvolution := false; nModelColumns := 0; nModelRows := 0; nPSFColumns := 0; nPSFRows := 0;
     doBootstrap := false; bootstrapIndices := [] |}.

Definition with_mask (o : mobj) (ex : bool) (m : list T) (nv : Z) : mobj :=
  {| nDataVals := nDataVals o; nDataColumns := nDataColumns o; nDataRows := nDataRows o;
     dataVector := dataVector o; dataValsSet := dataValsSet o;
     maskExists := ex; maskVector := m;
     weightValsSet := weightValsSet o; externalErrors := externalErrors o; weightVector := weightVector o;
     extraCash := extraCash o; nValid := nv;
     effectiveGain := effectiveGain o; nCombined := nCombined o; originalSky := originalSky o;
     readNoise_adu_squared := readNoise_adu_squared o;
     dataErrors := dataErrors o; modelErrors := modelErrors o; useCash := useCash o; poissonMLR := poissonMLR o;
     doConvolution := doConvolution o; nModelColumns := nModelColumns o; nModelRows := nModelRows o;
     nPSFColumns := nPSFColumns o; nPSFRows := nPSFRows o;
     doBootstrap := doBootstrap o; bootstrapIndices := bootstrapIndices o |}.
Definition with_weights (o : mobj) (isset ext : bool) (w : list T) : mobj :=
  {| nDataVals := nDataVals o; nDataColumns := nDataColumns o; nDataRows := nDataRows o;
     dataVector := dataVector o; dataValsSet := dataValsSet o;
     maskExists := maskExists o; maskVector := maskVector o;
     weightValsSet := isset; externalErrors := ext; weightVector := w;
     extraCash := extraCash o; nValid := nValid o;
     effectiveGain := effectiveGain o; nCombined := nCombined o; originalSky := originalSky o;
     readNoise_adu_squared := readNoise_adu_squared o;
     dataErrors := dataErrors o; modelErrors := modelErrors o; useCash := useCash o; poissonMLR := poissonMLR o;
     doConvolution := doConvolution o; nModelColumns := nModelColumns o; nModelRows := nModelRows o;
     nPSFColumns := nPSFColumns o; nPSFRows := nPSFRows o;
     doBootstrap := doBootstrap o; bootstrapIndices := bootstrapIndices o |}.
Definition with_data (o : mobj) (d : list T) : mobj :=
  {| nDataVals := nDataVals o; nDataColumns := nDataColumns o; nDataRows := nDataRows o;
     dataVector := d; dataValsSet := dataValsSet o;
     maskExists := maskExists o; maskVector := maskVector o;
     weightValsSet := weightValsSet o; externalErrors := externalErrors o; weightVector := weightVector o;
     extraCash := extraCash o; nValid := nValid o;
     effectiveGain := effectiveGain o; nCombined := nCombined o; originalSky := originalSky o;
     readNoise_adu_squared := readNoise_adu_squared o;
     dataErrors := dataErrors o; modelErrors := modelErrors o; useCash := useCash o; poissonMLR := poissonMLR o;
     doConvolution := doConvolution o; nModelColumns := nModelColumns o; nModelRows := nModelRows o;
     nPSFColumns := nPSFColumns o; nPSFRows := nPSFRows o;
     doBootstrap := doBootstrap o; bootstrapIndices := bootstrapIndices o |}.
Definition with_extra (o : mobj) (e : list T) : mobj :=
  {| nDataVals := nDataVals o; nDataColumns := nDataColumns o; nDataRows := nDataRows o;
     dataVector := dataVector o; dataValsSet := dataValsSet o;
     maskExists := maskExists o; maskVector := maskVector o;
     weightValsSet := weightValsSet o; externalErrors := externalErrors o; weightVector := weightVector o;
     extraCash := e; nValid := nValid o;
     effectiveGain := effectiveGain o; nCombined := nCombined o; originalSky := originalSky o;
     readNoise_adu_squared := readNoise_adu_squared o;
     dataErrors := dataErrors o; modelErrors := modelErrors o; useCash := useCash o; poissonMLR := poissonMLR o;
     doConvolution := doConvolution o; nModelColumns := nModelColumns o; nModelRows := nModelRows o;
     nPSFColumns := nPSFColumns o; nPSFRows := nPSFRows o;
     doBootstrap := doBootstrap o; bootstrapIndices := bootstrapIndices o |}.
Definition with_flags (o : mobj) (de me uc mlr : bool) : mobj :=
  {| nDataVals := nDataVals o; nDataColumns := nDataColumns o; nDataRows := nDataRows o;
     dataVector := dataVector o; dataValsSet := dataValsSet o;
     maskExists := maskExists o; maskVector := maskVector o;
     weightValsSet := weightValsSet o; externalErrors := externalErrors o; weightVector := weightVector o;
     extraCash := extraCash o; nValid := nValid o;
     effectiveGain := effectiveGain o; nCombined := nCombined o; originalSky := originalSky o;
     readNoise_adu_squared := readNoise_adu_squared o;
     dataErrors := de; modelErrors := me; useCash := uc; poissonMLR := mlr;
     doConvolution := doConvolution o; nModelColumns := nModelColumns o; nModelRows := nModelRows o;
     nPSFColumns := nPSFColumns o; nPSFRows := nPSFRows o;
     doBootstrap := doBootstrap o; bootstrapIndices := bootstrapIndices o |}.
Definition with_characteristics (o : mobj) (eg nc sky rn2 : T) : mobj :=
  {| nDataVals := nDataVals o; nDataColumns := nDataColumns o; nDataRows := nDataRows o;
     dataVector := dataVector o; dataValsSet := dataValsSet o;
     maskExists := maskExists o; maskVector := maskVector o;
     weightValsSet := weightValsSet o; externalErrors := externalErrors o; weightVector := weightVector o;
     extraCash := extraCash o; nValid := nValid o;
     effectiveGain := eg; nCombined := nc; originalSky := sky; readNoise_adu_squared := rn2;
     dataErrors := dataErrors o; modelErrors := modelErrors o; useCash := useCash o; poissonMLR := poissonMLR o;
     doConvolution := doConvolution o; nModelColumns := nModelColumns o; nModelRows := nModelRows o;
     nPSFColumns := nPSFColumns o; nPSFRows := nPSFRows o;
     doBootstrap := doBootstrap o; bootstrapIndices := bootstrapIndices o |}.
Definition with_bootstrap (o : mobj) (b : list nat) : mobj :=
  {| nDataVals := nDataVals o; nDataColumns := nDataColumns o; nDataRows := nDataRows o;
     dataVector := dataVector o; dataValsSet := dataValsSet o;
     maskExists := maskExists o; maskVector := maskVector o;
     weightValsSet := weightValsSet o; externalErrors := externalErrors o; weightVector := weightVector o;
     extraCash := extraCash o; nValid := nValid o;
     effectiveGain := effectiveGain o; nCombined := nCombined o; originalSky := originalSky o;
     readNoise_adu_squared := readNoise_adu_squared o;
     dataErrors := dataErrors o; modelErrors := modelErrors o; useCash := useCash o; poissonMLR := poissonMLR o;
     doConvolution := doConvolution o; nModelColumns := nModelColumns o; nModelRows := nModelRows o;
     nPSFColumns := nPSFColumns o; nPSFRows := nPSFRows o;
     doBootstrap := true; bootstrapIndices := b |}.

(** [for (z = 0; z < n; z++) v[z] = f(z, v[z])] *)
Definition each (n : nat) (f : nat -> T -> res T) (v : list T) : res (list T) :=
  for_ n (fun z v => do x <- get v z; do y <- f z x; set v z y) v.

(** core/model_object.cpp:838-866 (the size part of AddPSFVector; the PSF
    itself is modelled with the convolver) *)
Definition AddPSF_size (o : mobj) (cols rows : nat) : mobj :=
  {| nDataVals := nDataVals o; nDataColumns := nDataColumns o; nDataRows := nDataRows o;
     dataVector := dataVector o; dataValsSet := dataValsSet o;
     maskExists := maskExists o; maskVector := maskVector o;
     weightValsSet := weightValsSet o; externalErrors := externalErrors o; weightVector := weightVector o;
     extraCash := extraCash o; nValid := nValid o;
     effectiveGain := effectiveGain o; nCombined := nCombined o; originalSky := originalSky o;
     readNoise_adu_squared := readNoise_adu_squared o;
     dataErrors := dataErrors o; modelErrors := modelErrors o; useCash := useCash o; poissonMLR := poissonMLR o;
     doConvolution := true; nModelColumns := nModelColumns o; nModelRows := nModelRows o;
     nPSFColumns := cols; nPSFRows := rows;
     doBootstrap := doBootstrap o; bootstrapIndices := bootstrapIndices o |}.

(** core/model_object.cpp:462-478 and SetupModelImage, 488-527 (sizes only) *)
Definition AddImageDataVector (o : mobj) (pix : list T) (cols rows : nat) : mobj :=
  {| nDataVals := cols * rows; nDataColumns := cols; nDataRows := rows;
     dataVector := pix; dataValsSet := true;
     maskExists := maskExists o; maskVector := maskVector o;
     weightValsSet := weightValsSet o; externalErrors := externalErrors o; weightVector := weightVector o;
     extraCash := extraCash o; nValid := Z.of_nat (cols * rows);
     effectiveGain := effectiveGain o; nCombined := nCombined o; originalSky := originalSky o;
     readNoise_adu_squared := readNoise_adu_squared o;
     dataErrors := dataErrors o; modelErrors := modelErrors o; useCash := useCash o; poissonMLR := poissonMLR o;
     doConvolution := doConvolution o;
     nModelColumns := if doConvolution o then (cols + 2 * nPSFColumns o)%nat else cols;
     nModelRows := if doConvolution o then (rows + 2 * nPSFRows o)%nat else rows;
     nPSFColumns := nPSFColumns o; nPSFRows := nPSFRows o;
     doBootstrap := doBootstrap o; bootstrapIndices := bootstrapIndices o |}.

(** core/model_object.cpp:532-547. A failed assert stops the program. *)
Definition AddImageCharacteristics (o : mobj) (gain readNoise expTime : T) (nComb : Z) (sky : T) : res mobj :=
  if (nltb N 0 gain && nleb N 0 readNoise && nltb N 0 expTime && (1 <=? nComb)%Z && nleb N 0 sky)%bool then
    let eg := gain * expTime * nofZ N nComb in
    Ok (with_characteristics o eg (nofZ N nComb) sky (readNoise * readNoise / (eg * eg)))
  else Abort.

(** core/definitions.h *)
Definition WEIGHTS_ARE_SIGMAS := 100%Z.
Definition WEIGHTS_ARE_VARIANCES := 110%Z.
Definition WEIGHTS_ARE_WEIGHTS := 120%Z.
Definition MASK_ZERO_IS_GOOD := 10%Z.
Definition MASK_ZERO_IS_BAD := 20%Z.

(** core/model_object.cpp:573-619. The array has nImageColumns*nImageRows
    elements; the assert compares these with the data image. *)
Definition AddErrorVector (o : mobj) (cols rows : nat) (pix : list T) (inputType : Z) : res mobj :=
  if ((cols =? nDataColumns o) && (rows =? nDataRows o) && (cols * rows =? nDataVals o))%bool then
    if (inputType =? WEIGHTS_ARE_SIGMAS)%Z then
      do w <- each (nDataVals o) (fun _ x => Ok (1 / x)) pix; Ok (with_weights o true true w)
    else if (inputType =? WEIGHTS_ARE_VARIANCES)%Z then
      do w <- each (nDataVals o) (fun _ x => Ok (1 / nsqrt N x)) pix; Ok (with_weights o true true w)
    else if (inputType =? WEIGHTS_ARE_WEIGHTS)%Z then
      do w <- each (nDataVals o) (fun _ x => Ok (nsqrt N x)) pix; Ok (with_weights o true true w)
    else Ok (with_weights o false true pix)
  else Abort.

(** core/model_object.cpp:642-673. A fresh weight vector is used (the vector is
    reused when already allocated; every element is overwritten). *)
Definition GenerateErrorVector (o : mobj) : res mobj :=
  do w <- each (nDataVals o) (fun z _ =>
        do d <- get (dataVector o) z;
        let totalFlux := d + originalSky o in
        let totalFlux := if nltb N totalFlux 0 then 0 else totalFlux in
        let noise_squared := totalFlux / effectiveGain o + nCombined o * readNoise_adu_squared o in
        Ok (1 / nsqrt N noise_squared)) (repeat 0 (nDataVals o));
  Ok (with_weights o true (externalErrors o) w).

(** core/model_object.cpp:695-709 *)
Definition extra_term (o : mobj) (d : T) : T :=
  let dataVal := effectiveGain o * (d + originalSky o) in
  if nleb N dataVal 0 then 0 else dataVal * nlog N dataVal - dataVal.
Definition GenerateExtraCashTerms (o : mobj) : res mobj :=
  do e <- each (nDataVals o) (fun z _ => do d <- get (dataVector o) z; Ok (extra_term o d)) (extraCash o);
  Ok (with_extra o e).

(** core/model_object.cpp:721-787. [bad] is the test of either convention. *)
Definition mask_loop (n : nat) (bad : T -> bool) (pix : list T) : res (list T * Z) :=
  for_ n (fun z '(m, nv) =>
     do x <- get m z;
     if bad x then (do m' <- set m z 0; Ok (m', nv))
     else (do m' <- set m z 1; Ok (m', (nv + 1)%Z))) (pix, 0%Z).
Definition AddMaskVector (o : mobj) (cols rows : nat) (pix : list T) (inputType : Z) : res (Z * mobj) :=
  if ((cols =? nDataColumns o) && (rows =? nDataRows o) && (cols * rows =? nDataVals o))%bool then
    if (inputType =? MASK_ZERO_IS_GOOD)%Z then
      do r <- mask_loop (nDataVals o) (fun x => (negb (nfin N x) || nltb N 0 x)%bool) pix;
      Ok (0%Z, with_mask o true (fst r) (snd r))
    else if (inputType =? MASK_ZERO_IS_BAD)%Z then
      do r <- mask_loop (nDataVals o) (fun x => (negb (nfin N x) || nltb N x 1)%bool) pix;
      Ok (0%Z, with_mask o true (fst r) (snd r))
    else Ok ((-1)%Z, with_mask o false pix 0)
  else Abort.

(** core/model_object.cpp:794-816 *)
Definition ApplyMask (o : mobj) : res mobj :=
  if (weightValsSet o && maskExists o)%bool then
    do w <- each (nDataVals o) (fun z x =>
          do m <- get (maskVector o) z;
          let newVal := m * x in
          Ok (if (negb (nfin N newVal) && neqb N m 0)%bool then 0 else newVal)) (weightVector o);
    Ok (with_weights o (weightValsSet o) (externalErrors o) w)
  else Ok o.

(** core/model_object.cpp:2501-2521 *)
Definition VetDataVector (o : mobj) : res (bool * mobj) :=
  do r <- for_ (nDataVals o) (fun z '(d, bad) =>
        do x <- get d z;
        if negb (nfin N x) then
          do m <- get (maskVector o) z;
          if nltb N 0 m then Ok (d, true)
          else do d' <- set d z 0; Ok (d', bad)
        else Ok (d, bad)) (dataVector o, false);
  Ok (negb (snd r), with_data o (fst r)).

(** core/model_object.cpp:2525-2574 *)
Definition CheckWeightVector (o : mobj) : res bool :=
  do bad <- for_ (nDataVals o) (fun z bad =>
        if maskExists o then
          do m <- get (maskVector o) z;
          if nltb N 0 m then
            do w <- get (weightVector o) z;
            Ok (bad || negb (nfin N w) || nltb N w 0)%bool
          else Ok bad
        else
          do w <- get (weightVector o) z;
          Ok (bad || negb (nfin N w))%bool) false;
  Ok (negb bad).

(** core/model_object.cpp:989-996: mask the unmasked pixels with non-finite data *)
Definition mask_nonfinite_data (o : mobj) : res mobj :=
  do r <- for_ (nDataVals o) (fun z '(m, nv) =>
        do x <- get m z;
        if nltb N 0 x then
          do d <- get (dataVector o) z;
          if negb (nfin N d) then (do m' <- set m z 0; Ok (m', (nv - 1)%Z)) else Ok (m, nv)
        else Ok (m, nv)) (maskVector o, nValid o);
  Ok (with_mask o (maskExists o) (fst r) (snd r)).

(** core/model_object.cpp:1026-1034: mask the unmasked pixels with non-finite weights *)
Definition mask_nonfinite_weights (o : mobj) : res mobj :=
  do r <- for_ (nDataVals o) (fun z '(m, w, nv) =>
        do x <- get m z;
        if nltb N 0 x then
          do y <- get w z;
          if negb (nfin N y) then
            do m' <- set m z 0; do w' <- set w z 0; Ok (m', w', (nv - 1)%Z)
          else Ok (m, w, nv)
        else Ok (m, w, nv)) (maskVector o, weightVector o, nValid o);
  let '(m, w, nv) := r in
  Ok (with_weights (with_mask o (maskExists o) m nv) (weightValsSet o) (externalErrors o) w).

(** core/model_object.cpp:967-1079 *)
Definition FinalSetupForFitting (o : mobj) : res (Z * mobj) :=
  let o := if maskExists o then o else with_mask o true (repeat 1 (nDataVals o)) (nValid o) in
  do o <- mask_nonfinite_data o;
  do o <- (if (negb (useCash o) && dataErrors o && negb (externalErrors o))%bool
           then GenerateErrorVector o else Ok o);
  do o <- (if (useCash o && poissonMLR o)%bool then GenerateExtraCashTerms o else Ok o);
  do o <- (if externalErrors o then mask_nonfinite_weights o else Ok o);
  do o <- ApplyMask o;
  do ok <- CheckWeightVector o;
  let status := if ok then 0%Z else (-1)%Z in
  do r <- (if dataValsSet o then VetDataVector o else Ok (true, o));
  let '(dataOK, o) := r in
  let status := if dataOK then status else (-2)%Z in
  let status := if (nValid o <? 1)%Z then (-3)%Z else status in
  Ok (status, o).

(** core/model_object.cpp:1501-1537 *)
Definition UseModelErrors (o : mobj) : mobj :=
  with_weights (with_flags o false true (useCash o) (poissonMLR o)) true (externalErrors o) (repeat 1 (nDataVals o)).
(** core/model_object.cpp:1541-1578. The extra-terms vector is zeroed only when
    it is allocated here. *)
Definition UseCashStatistic (o : mobj) : mobj :=
  let o1 := with_flags o (dataErrors o) (modelErrors o) true (poissonMLR o) in
  let o2 := with_weights o1 true (externalErrors o) (repeat 1 (nDataVals o)) in
  with_extra o2 (match extraCash o with [] => repeat 0 (nDataVals o) | e => e end).
(** core/model_object.cpp:1583-1587 *)
Definition UsePoissonMLR (o : mobj) : mobj :=
  UseCashStatistic (with_flags o (dataErrors o) (modelErrors o) (useCash o) true).

(** core/model_object.cpp:1592-1613, values of core/definitions.h *)
Definition WhichFitStatistic (o : mobj) (verbose : bool) : Z :=
  if useCash o then (if poissonMLR o then 3 else 2)%Z
  else if verbose then (if modelErrors o then 11 else if externalErrors o then 12 else 10)%Z else 1%Z.

(** The model pixel that goes with data pixel [z]: core/model_object.cpp:1361-1363,
    1450-1452, 1660-1662 and 1732-1734 (with convolution), 1376 etc. (without). *)
Definition zModel (o : mobj) (z : nat) : nat :=
  if doConvolution o then
    let iDataRow := (z / nDataColumns o)%nat in
    let iDataCol := (z - iDataRow * nDataColumns o)%nat in
    (nModelColumns o * (nPSFRows o + iDataRow) + nPSFColumns o + iDataCol)%nat
  else z.

(** core/model_object.cpp:1345-1381 *)
Definition UpdateWeightVector (o : mobj) (modelVector : list T) : res mobj :=
  do w <- each (nDataVals o) (fun z x =>
       do upd <- (if maskExists o then do m <- get (maskVector o) z; Ok (nltb N 0 m) else Ok true);
       if (upd : bool) then
         do v <- get modelVector (zModel o z);
         let totalFlux := v + originalSky o in
         let noise_squared := totalFlux / effectiveGain o + nCombined o * readNoise_adu_squared o in
         Ok (1 / nsqrt N noise_squared)
       else Ok x) (weightVector o);
  Ok (with_weights o (weightValsSet o) (externalErrors o) w).

(** core/model_object.cpp:86 *)
Definition LOG_SMALL_VALUE := ndec N 1 25.

(** core/model_object.cpp:1391-1397 and 1721-1728: the two values and the logarithm *)
Definition logModel (modVal : T) : T := if nleb N modVal 0 then LOG_SMALL_VALUE else nlog N modVal.
(** modVal - dataVal*logModel + extraTerms *)
Definition cash_term (o : mobj) (model data extra : T) : T :=
  let modVal := effectiveGain o * (model + originalSky o) in
  let dataVal := effectiveGain o * (data + originalSky o) in
  modVal - dataVal * logModel modVal + extra.

(** core/model_object.cpp:1386-1401 *)
Definition ComputePoissonMLRDeviate (o : mobj) (modelVector : list T) (i i_model : nat) : res T :=
  do m <- get modelVector i_model;
  do d <- get (dataVector o) i;
  do e <- get (extraCash o) i;
  do w <- get (weightVector o) i;
  Ok (nsqrt N (2 * w * nabs N (cash_term o m d e))).

(** weightVector[z] * (dataVector[z] - modelVector[zModel]) *)
Definition chi_deviate (o : mobj) (modelVector : list T) (i i_model : nat) : res T :=
  do w <- get (weightVector o) i;
  do d <- get (dataVector o) i;
  do m <- get modelVector i_model;
  Ok (w * (d - m)).

(** The number of terms and the pixel of term [z]: core/model_object.cpp:1446-1447,
    1654-1655 (bootstrap) and 1457, 1662 (no bootstrap). *)
Definition nTerms (o : mobj) : nat := if doBootstrap o then Z.to_nat (nValid o) else nDataVals o.
Definition pixel_of (o : mobj) (z : nat) : res nat := if doBootstrap o then get (bootstrapIndices o) z else Ok z.

(** core/model_object.cpp:1413-1496. The four loops (with and without
    convolution, with and without bootstrap) and the loops for the two
    statistics are one loop here. [yResults] is the caller's array and [off]
    where in it the results start. *)
Definition ComputeDeviates (o : mobj) (modelVector : list T) (yResults : list T) (off : nat) : res (mobj * list T) :=
  do o <- (if modelErrors o then UpdateWeightVector o modelVector else Ok o);
  do y <- for_ (nTerms o) (fun z y =>
       do b <- pixel_of o z;
       do v <- (if poissonMLR o then ComputePoissonMLRDeviate o modelVector b (zModel o b)
                else chi_deviate o modelVector b (zModel o b));
       set y (off + z) v) yResults;
  Ok (o, y).

(** core/model_object.cpp:1633-1689. The deviates vector is the internal one of
    nDataVals elements; mp_enorm reads its first [nTerms] elements. *)
Definition ChiSquared (o : mobj) (modelVector : list T) : res (mobj * T) :=
  do o <- (if modelErrors o then UpdateWeightVector o modelVector else Ok o);
  do y <- for_ (nTerms o) (fun z y =>
       do b <- pixel_of o z;
       do v <- chi_deviate o modelVector b (zModel o b);
       set y z v) (repeat 0 (nDataVals o));
  let chi := mp_enorm N (firstn (nTerms o) y) in
  Ok (o, chi * chi).

(** core/model_object.cpp:1703-1775 *)
Definition CashStatistic (o : mobj) (modelVector : list T) : res T :=
  do s <- for_ (nTerms o) (fun z cashStat =>
       do b <- pixel_of o z;
       do m <- get modelVector (zModel o b);
       do d <- get (dataVector o) b;
       do e <- get (extraCash o) b;
       do w <- get (weightVector o) b;
       Ok (cashStat + w * cash_term o m d e)) 0;
  Ok (2 * s).

(** core/model_object.cpp:1620-1626 *)
Definition GetFitStatistic (o : mobj) (modelVector : list T) : res (mobj * T) :=
  if useCash o then (do s <- CashStatistic o modelVector; Ok (o, s)) else ChiSquared o modelVector.

(** core/model_object.cpp:2072-2085. [draw] is the stream of genrand_real2
    values from draw [k] on; [fuel] bounds the number of rejected draws.
    (long)floor of a NaN or infinity is undefined. *)
Fixpoint draw_pixel (fuel : nat) (o : mobj) (draw : nat -> T) (k : nat) : res (nat * nat) :=
  match fuel with
  | O => Fuel
  | S fuel' =>
    match ntrunc N (draw k * nofZ N (Z.of_nat (nDataVals o))) with
    | None => Undef
    | Some n =>
      do w <- getZ (weightVector o) n;
      if nltb N 0 w then Ok (Z.to_nat n, S k) else draw_pixel fuel' o draw (S k)
    end
  end.
(** core/model_object.cpp:2061-2087. floor equals truncation for the
    non-negative products drawn here. *)
Definition MakeBootstrapSample (fuel : nat) (o : mobj) (draw : nat -> T) (k : nat) : res (mobj * nat) :=
  do r <- for_ (Z.to_nat (nValid o)) (fun _ '(l, k) =>
        do p <- draw_pixel fuel o draw k; let '(n, k') := p in Ok (l ++ [n], k')) ([], k);
  let '(l, k') := r in Ok (with_bootstrap o l, k').

(** ---- how the programs put these together ---- *)
(** the choice of statistic: core/setup_model_object.cpp:113-148 *)
Inductive statistic :=
| Cash | PMLR | ChiUserErrors (errorPixels : list T) (errorType : Z) | ChiModelErrors | ChiDataErrors.
Record setup := mkSetup {
  s_cols : nat; s_rows : nat; s_data : list T; s_psf : option (nat * nat);
  s_gain : T; s_readNoise : T; s_expTime : T; s_nCombined : Z; s_sky : T;
  s_mask : option (list T * Z); s_stat : statistic }.

(** core/setup_model_object.cpp:36-157 for a fit (dataPixels not null), then
    FinalSetupForFitting. Oversampling and the Cash/L-M incompatibility check
    are left out. *)
Definition SetupModelObject (s : setup) : res mobj :=
  let o := match s_psf s with Some (c, r) => AddPSF_size new_object c r | None => new_object end in
  let o := AddImageDataVector o (s_data s) (s_cols s) (s_rows s) in
  do o <- AddImageCharacteristics o (s_gain s) (s_readNoise s) (s_expTime s) (s_nCombined s) (s_sky s);
  do o <- match s_mask s with
          | None => Ok o
          | Some (pix, ty) => do r <- AddMaskVector o (s_cols s) (s_rows s) pix ty;
                              if (fst r <? 0)%Z then Abort else Ok (snd r)
          end;
  match s_stat s with
  | Cash => Ok (UseCashStatistic o)
  | PMLR => Ok (UsePoissonMLR o)
  | ChiUserErrors pix ty => AddErrorVector o (s_cols s) (s_rows s) pix ty
  | ChiModelErrors => Ok (UseModelErrors o)
  | ChiDataErrors => Ok o
  end.
Definition prepare (s : setup) : res (Z * mobj) := do o <- SetupModelObject s; FinalSetupForFitting o.

(** ---- several images ---- *)
(** core/model_object_multimage.cpp:359-405. The model images for the parameter
    vectors assembled for each image are arguments. *)
Definition MultiFitStatistic (cash : bool) (objs : list mobj) (models : list (list T)) : res T :=
  for_ (length objs) (fun i s =>
    do o <- get objs i;
    do mv <- get models i;
    if cash then (do v <- CashStatistic o mv; Ok (s + v))
    else (do r <- ChiSquared o mv; Ok (s + snd r))) 0.
(** core/model_object_multimage.cpp:408-441; GetNDataValues() is nDataVals
    (core/model_object.cpp:2216). *)
Definition MultiDeviates (objs : list mobj) (models : list (list T)) (yResults : list T) : res (list T) :=
  do r <- for_ (length objs) (fun i '(y, start) =>
    do o <- get objs i;
    do mv <- get models i;
    do r <- ComputeDeviates o mv y start;
    Ok (snd r, (start + nDataVals o)%nat)) (yResults, O);
  Ok (fst r).
End Fit.
Arguments new_object {T} N. Arguments each {T}. Arguments AddImageDataVector {T}. Arguments AddPSF_size {T}.
Arguments AddImageCharacteristics {T} N. Arguments AddErrorVector {T} N. Arguments GenerateErrorVector {T} N.
Arguments extra_term {T} N. Arguments GenerateExtraCashTerms {T} N. Arguments mask_loop {T} N. Arguments AddMaskVector {T} N.
Arguments ApplyMask {T} N. Arguments VetDataVector {T} N. Arguments CheckWeightVector {T} N.
Arguments mask_nonfinite_data {T} N. Arguments mask_nonfinite_weights {T} N. Arguments FinalSetupForFitting {T} N.
Arguments UseModelErrors {T} N. Arguments UseCashStatistic {T} N. Arguments UsePoissonMLR {T} N.
Arguments WhichFitStatistic {T}. Arguments zModel {T}. Arguments UpdateWeightVector {T} N. Arguments LOG_SMALL_VALUE {T} N.
Arguments logModel {T} N. Arguments cash_term {T} N. Arguments ComputePoissonMLRDeviate {T} N. Arguments chi_deviate {T} N.
Arguments nTerms {T}. Arguments pixel_of {T}. Arguments ComputeDeviates {T} N. Arguments ChiSquared {T} N.
Arguments CashStatistic {T} N. Arguments GetFitStatistic {T} N. Arguments draw_pixel {T} N. Arguments MakeBootstrapSample {T} N.
Arguments SetupModelObject {T} N. Arguments prepare {T} N. Arguments MultiFitStatistic {T} N. Arguments MultiDeviates {T} N.
Arguments Cash {T}. Arguments PMLR {T}. Arguments ChiUserErrors {T}. Arguments ChiModelErrors {T}. Arguments ChiDataErrors {T}.
Arguments mkObj {T}. Arguments with_mask {T}. Arguments with_weights {T}. Arguments with_data {T}. Arguments with_extra {T}.
Arguments with_flags {T}. Arguments with_characteristics {T}. Arguments with_bootstrap {T}. Arguments mkSetup {T}.
Arguments nDataVals {T}. Arguments nDataColumns {T}. Arguments nDataRows {T}. Arguments dataVector {T}. Arguments dataValsSet {T}.
Arguments maskExists {T}. Arguments maskVector {T}. Arguments weightValsSet {T}. Arguments externalErrors {T}. Arguments weightVector {T}.
Arguments extraCash {T}. Arguments nValid {T}. Arguments effectiveGain {T}. Arguments nCombined {T}. Arguments originalSky {T}.
Arguments readNoise_adu_squared {T}. Arguments dataErrors {T}. Arguments modelErrors {T}. Arguments useCash {T}. Arguments poissonMLR {T}.
Arguments doConvolution {T}. Arguments nModelColumns {T}. Arguments nModelRows {T}. Arguments nPSFColumns {T}. Arguments nPSFRows {T}.
Arguments doBootstrap {T}. Arguments bootstrapIndices {T}.
Arguments s_cols {T}. Arguments s_rows {T}. Arguments s_data {T}. Arguments s_psf {T}. Arguments s_gain {T}. Arguments s_readNoise {T}.
Arguments s_expTime {T}. Arguments s_nCombined {T}. Arguments s_sky {T}. Arguments s_mask {T}. Arguments s_stat {T}.
