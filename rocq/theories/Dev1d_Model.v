(** Model of the weights, the mask and the deviates in profile_fitting/model_object_1d.cpp. Definitions only. *)
From Coq Require Import ZArith List Bool.
From Verif Require Import Base Num.
Import ListNotations.

Section Dev1d.
Variable T : Type.
Variable N : Num T.
Infix "-" := (nsub N). Infix "*" := (nmul N). Infix "/" := (ndiv N).
Notation "0" := (nofZ N 0).
Notation "1" := (nofZ N 1).

(** core/definitions.h:78-79 *)
Definition MASK_ZERO_IS_GOOD : Z := 10.
Definition MASK_ZERO_IS_BAD : Z := 20.

(** AddErrorVector1D with WEIGHTS_ARE_SIGMAS, model_object_1d.cpp:142-176. The calls of CheckWeightVector, which end the
    program for weights that are not finite or negative, are not modelled. *)
Definition AddErrorVector1D (sigmas : list T) : list T := map (fun s => 1 / s) sigmas.

(** AddMaskVector1D, model_object_1d.cpp:184-231: mask and nValidDataVals afterwards; an unknown format ends the program
    (profilefit_main.cpp:343-347) *)
Definition AddMaskVector1D (inputType : Z) (inputVector : list T) : res (list T * nat) :=
  if (inputType =? MASK_ZERO_IS_GOOD)%Z then
    let maskVector := map (fun v => if nltb N 0 v then 0 else 1) inputVector in
    Ok (maskVector, length (filter (fun v => negb (nltb N 0 v)) inputVector))
  else if (inputType =? MASK_ZERO_IS_BAD)%Z then
    let maskVector := map (fun v => if nltb N v 1 then 0 else 1) inputVector in
    Ok (maskVector, length (filter (fun v => negb (nltb N v 1)) inputVector))
  else Abort.

(** FinalSetupForFitting, model_object_1d.cpp:277-329 (weights from sigmas, no error vector made), with ApplyMask, core/model_object.cpp:794-816: the weights and
    nValidDataVals afterwards. Loops over vectors are written element by element. *)
Definition FinalSetupForFitting1D (data weights mask : list T) (nValidDataVals : nat) : list T * nat :=
  let bad := fun md : T * T => (nltb N 0 (fst md) && negb (nfin N (snd md)))%bool in
  let nNonFinitePixels := length (filter bad (combine mask data)) in
  let mask := map (fun md => if bad md then 0 else fst md) (combine mask data) in
  let weights := map (fun mw => let newVal := fst mw * snd mw in
                                if (negb (nfin N newVal) && neqb N (fst mw) 0)%bool then 0 else newVal) (combine mask weights) in
  (weights, (nValidDataVals - nNonFinitePixels)%nat).

(** the calls in profilefit_main.cpp:341-358 *)
Definition setup1D (data sigmas : list T) (mask : option (Z * list T)) : res (list T * nat) :=
  let weights := AddErrorVector1D sigmas in
  do m <- (match mask with
           | Some (format, v) => AddMaskVector1D format v
           | None => Ok (map (fun _ => 1) data, length data)
           end);
  Ok (FinalSetupForFitting1D data weights (fst m) (snd m)).

(** ComputeDeviates, model_object_1d.cpp:442-466, after the model has been computed. [bootstrapIndices] is [None] unless
    bootstrap resampling is done; then it is the array that MakeBootstrapSample allocates and fills
    (core/model_object.cpp:2061-2087), which has nValidDataVals elements. *)
Definition ComputeDeviates1D (data weights modelVector : list T) (dataStartOffset : nat) (bootstrapIndices : option (list nat))
    (yResults : list T) : res (list T) :=
  let nDataVals := length data in
  for_ nDataVals (fun z yResults =>
    do i <- (match bootstrapIndices with Some b => get b z | None => Ok z end);
    do w <- get weights i; do d <- get data i; do m <- get modelVector (dataStartOffset + i);
    set yResults z (w * (d - m))) yResults.
End Dev1d.
Arguments AddErrorVector1D {T}. Arguments AddMaskVector1D {T}. Arguments FinalSetupForFitting1D {T}.
Arguments setup1D {T}. Arguments ComputeDeviates1D {T}.
