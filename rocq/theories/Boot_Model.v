(** Model of core/bootstrap_errors.cpp (and of the single-image
    PrintModelParamsHorizontalString it writes its file with). Definitions only.

    The program state that is not of interest here (random-number generator, model object
    with its bootstrap indices) is an abstract "world" W. The model object's UseBootstrap and
    MakeBootstrapSample, the generator's seeding, and the two minimisers are arbitrary
    functions on it. A fit answers a status and the parameter vector it leaves behind.
    The progress bar and the text layout are left out; numbers printed are kept. *)
From Coq Require Import List Arith ZArith Bool String.
From Verif Require Import Base Num Params_Model Stats_Model.
Import ListNotations.
Local Open Scope list_scope.

(** core/bootstrap_errors.cpp:54 *)
Definition MIN_ITERATIONS_FOR_STATISTICS : Z := 3%Z.
(** core/bootstrap_errors.cpp:57-58 *)
Definition imageParamLabels : list string :=
  ["PIXEL_SCALE"; "ROTATION"; "FLUX_SCALE"; "X0"; "Y0"]%string.
(** core/definitions.h:54-56 *)
Definition FITSTAT_CHISQUARE : Z := 1%Z.
Definition FITSTAT_CASH : Z := 2%Z.
Definition FITSTAT_POISSON_MLR : Z := 3%Z.

Section Boot.
Variable T : Type.
Variable N : Num T.
Variable W : Type.
Notation "0" := (nofZ N 0).
Notation "2" := (nofZ N 2).
Infix "+" := (nadd N). Infix "-" := (nsub N). Infix "/" := (ndiv N).

(** what the functions ask the environment for *)
Record env := mkEnv {
  init_genrand : Z -> W -> W;          (* seed the generator *)
  clock : W -> Z;                      (* time(NULL) *)
  UseBootstrap : W -> Z * W;           (* model_object.cpp:2042-2054 *)
  MakeBootstrapSample : W -> W;        (* model_object.cpp:2061-2086, status ignored by the callers *)
  LevMarFit : list T -> W -> Z * list T * W;
  NMSimplexFit : list T -> W -> Z * list T * W }.

(** the parts of the model object that are read: functions' parameter counts, set-start flags,
    offset of the fitted image section *)
Record mo := mkMo { paramSizes : list nat; fsetStartFlags : list bool; imageOffset_X0 : Z; imageOffset_Y0 : Z }.

(** core/model_object.cpp:1982-2000, called on the array of offsets *)
Definition mo_offsets (m : mo) (a : list T) : res (list T) :=
  GetImageOffsets (paramSizes m) (fsetStartFlags m) (nofZ N (imageOffset_X0 m)) (nofZ N (imageOffset_Y0 m))
    (negb (imageOffset_X0 m =? 0)%Z || negb (imageOffset_Y0 m =? 0)%Z) a.

(** core/model_object.cpp:1941-1973; the numbers on the line, in order *)
Definition PrintModelParamsHorizontalString (m : mo) (params : list T) : res (list T) :=
  do out <- for_ (List.length (paramSizes m)) (fun n '(indexOffset, line) =>
    do flag <- get (fsetStartFlags m) n;
    do st <- (if (flag : bool) then
                let k := indexOffset in
                do px <- get params k;
                do py <- get params (k + 1)%nat;
                let x0 := px + nofZ N (imageOffset_X0 m) in
                let y0 := py + nofZ N (imageOffset_Y0 m) in
                Ok ((indexOffset + 2)%nat, line ++ [x0; y0])
              else Ok (indexOffset, line));
    let '(indexOffset, line) := st in
    do nParamsThisFunc <- get (paramSizes m) n;
    do line <- for_ nParamsThisFunc (fun i line =>
      do paramVal <- get params (indexOffset + i)%nat;
      Ok (line ++ [paramVal])) line;
    Ok ((indexOffset + nParamsThisFunc)%nat, line)) (O, []);
  Ok (snd out).

(** core/bootstrap_errors.cpp:174-177 and 270-273 *)
Definition seed_generator (e : env) (rngSeed : Z) (w : W) : W :=
  if (0 <? rngSeed)%Z then init_genrand e rngSeed w else init_genrand e (clock e w) w.

(** core/bootstrap_errors.cpp:210-222 and 299-311 *)
Definition run_fit (e : env) (whichStatistic : Z) (paramsVect : list T) (w : W) : Z * list T * W :=
  if (whichStatistic =? FITSTAT_CHISQUARE)%Z || (whichStatistic =? FITSTAT_POISSON_MLR)%Z
  then LevMarFit e paramsVect w else NMSimplexFit e paramsVect w.

(** core/bootstrap_errors.cpp:208-209 and 297-298 *)
Definition copy_start (nParams : nat) (bestfitParams paramsVect : list T) : res (list T) :=
  for_ nParams (fun i pv => do x <- get bestfitParams i; set pv i x) paramsVect.

(** core/bootstrap_errors.cpp:159-250. [array] is [nParams][nIterations]; the result is the
    number of successful iterations, the array, the lines written to the file and the world. *)
Definition BootstrapErrorsBase (e : env) (m : mo) (nParams : nat) (bestfitParams : list T) (nIterations : nat)
    (whichStatistic : Z) (array : list (list T)) (saveToFile : bool) (rngSeed : Z) (w : W)
    : res (Z * list (list T) * list (list T) * W) :=
  let w := seed_generator e rngSeed w in
  let paramsVect := repeat 0 nParams in
  let paramOffsets := repeat 0 nParams in
  let '(status, w) := UseBootstrap e w in
  if (status <? 0)%Z then Ok ((-1)%Z, array, [], w) else
  do out <- for_ nIterations (fun nIter '(array, lines, nSuccessfulIters, paramsVect, paramOffsets, w) =>
    let w := MakeBootstrapSample e w in
    do paramsVect <- copy_start nParams bestfitParams paramsVect;
    let '(status, paramsVect, w) := run_fit e whichStatistic paramsVect w in
    do paramOffsets <- mo_offsets m paramOffsets;
    if (0 <? status)%Z then
      do array <- for_ nParams (fun i array =>
        do p <- get paramsVect i;
        do o <- get paramOffsets i;
        do row <- get array i;
        do row <- set row nSuccessfulIters (p + o);
        set array i row) array;
      do lines <- (if (saveToFile : bool) then
                     do line <- PrintModelParamsHorizontalString m paramsVect; Ok (lines ++ [line])
                   else Ok lines);
      Ok (array, lines, S nSuccessfulIters, paramsVect, paramOffsets, w)
    else Ok (array, lines, nSuccessfulIters, paramsVect, paramOffsets, w))
    (array, [], O, paramsVect, paramOffsets, w);
  let '(array, lines, nSuccessfulIters, _, _, w) := out in
  Ok (Z.of_nat nSuccessfulIters, array, lines, w).

(** core/bootstrap_errors.cpp:259-336; the array is one-dimensional *)
Definition BootstrapErrorsArrayOnly (e : env) (m : mo) (nParams : nat) (bestfitParams : list T) (nIterations : nat)
    (whichStatistic : Z) (array : list T) (rngSeed : Z) (w : W) : res (Z * list T * W) :=
  let w := seed_generator e rngSeed w in
  let paramsVect := repeat 0 nParams in
  let paramOffsets := repeat 0 nParams in
  let '(status, w) := UseBootstrap e w in
  if (status <? 0)%Z then Ok ((-1)%Z, array, w) else
  do out <- for_ nIterations (fun nIter '(array, nSuccessfulIters, paramsVect, paramOffsets, w) =>
    let w := MakeBootstrapSample e w in
    do paramsVect <- copy_start nParams bestfitParams paramsVect;
    let '(status, paramsVect, w) := run_fit e whichStatistic paramsVect w in
    do paramOffsets <- mo_offsets m paramOffsets;
    if (0 <? status)%Z then
      do array <- for_ nParams (fun j array =>
        do p <- get paramsVect j;
        do o <- get paramOffsets j;
        set array (nSuccessfulIters * nParams + j)%nat (p + o)) array;
      Ok (array, S nSuccessfulIters, paramsVect, paramOffsets, w)
    else Ok (array, nSuccessfulIters, paramsVect, paramOffsets, w))
    (array, O, paramsVect, paramOffsets, w);
  let '(array, nSuccessfulIters, _, _, w) := out in
  Ok (Z.of_nat nSuccessfulIters, array, w).

(** a printed line: the parameter's label and best-fit value and, unless fixed, what was computed *)
Inductive line :=
| Fixed (label : string) (best : T)
| Stat (label : string) (best plus minus lower upper halfwidth mean sigma : T).

(** core/bootstrap_errors.cpp:355-371 (and 401-417, 424-435): one parameter *)
Definition summary_line (qsort : list T -> list T) (bestfitParams sigmas : list T) (fixed : list Z)
    (label : res string) (array : list (list T)) (i : Z) : res (line * list (list T)) :=
  do fx <- getZ fixed i;
  if (fx =? 0)%Z then
    do row <- getZ array i;
    do ci <- ConfidenceInterval N qsort row;
    let '(lower, upper, sorted) := ci in
    do array <- setZ array i sorted;
    do best <- getZ bestfitParams i;
    let plus := upper - best in
    let minus := best - lower in
    let halfwidth := (upper - lower) / 2 in
    do sigma <- getZ sigmas i;
    do l <- label;
    Ok (Stat l best plus minus lower upper halfwidth (Mean N sorted) sigma, array)
  else
    do best <- getZ bestfitParams i;
    do l <- label;
    Ok (Fixed l best, array).

(** core/bootstrap_errors.cpp:339-375. The rows have nIterations entries. GetParameterName
    (model_object.cpp:2186-2193) is read from the list of labels. *)
Definition PrintBootstrapSummary (qsort : list T -> list T) (bestfitParams : list T) (array : list (list T))
    (nParams : nat) (fixed : list Z) (labels : list string) : res (list line) :=
  do sigmas <- for_ nParams (fun i s => do row <- get array i; Ok (s ++ [StandardDeviation N row])) [];
  do out <- for_ nParams (fun i '(lines, array) =>
    do la <- summary_line qsort bestfitParams sigmas fixed (get labels i) array (Z.of_nat i);
    let '(l, array) := la in Ok (lines ++ [l], array)) ([], array);
  Ok (fst out).

(** core/bootstrap_errors.cpp:378-437 *)
Definition PrintBootstrapSummaryMultimfit (qsort : list T -> list T) (bestfitParams : list T) (array : list (list T))
    (nParams : nat) (nImages : Z) (fixed : list Z) (labels : list string) : res (list line) :=
  do sigmas <- for_ nParams (fun i s => do row <- get array i; Ok (s ++ [StandardDeviation N row])) [];
  do out <- forZ 1 nImages (fun n st =>
    for_ N_IMAGE_PARAMS (fun j '(lines, array, i) =>
      let i := (i + 1)%Z in
      do la <- summary_line qsort bestfitParams sigmas fixed (getZ imageParamLabels i) array i;
      let '(l, array) := la in Ok (lines ++ [l], array, i)) st) ([], array, (-1)%Z);
  let '(lines, array, i_last) := out in
  do out <- forZ i_last (Z.of_nat nParams) (fun i '(lines, array) =>
    do la <- summary_line qsort bestfitParams sigmas fixed (getZ labels i) array i;
    let '(l, array) := la in Ok (lines ++ [l], array)) (lines, array);
  Ok (fst out).

(** core/bootstrap_errors.cpp:86-149. The result: number of successful iterations, the printed
    summary (None when there are too few of them), the lines of the file, and the world. *)
Definition BootstrapErrors (qsort : list T -> list T) (e : env) (m : mo) (labels : list string) (nImages : Z)
    (nParams : nat) (bestfitParams : list T) (fixed : list Z) (nIterations : nat) (whichStatistic : Z)
    (saveToFile : bool) (rngSeed : Z) (multimfitMode : bool) (w : W)
    : res (Z * option (list line) * list (list T) * W) :=
  let outputParamArray := repeat (repeat 0 nIterations) nParams in
  do out <- BootstrapErrorsBase e m nParams bestfitParams nIterations whichStatistic outputParamArray saveToFile rngSeed w;
  let '(nSuccessfulIterations, outputParamArray, file, w) := out in
  if (nSuccessfulIterations <? MIN_ITERATIONS_FOR_STATISTICS)%Z then Ok (nSuccessfulIterations, None, file, w)
  else
    do lines <- (if (multimfitMode : bool)
                 then PrintBootstrapSummaryMultimfit qsort bestfitParams outputParamArray nParams nImages fixed labels
                 else PrintBootstrapSummary qsort bestfitParams outputParamArray nParams fixed labels);
    Ok (nSuccessfulIterations, Some lines, file, w).
End Boot.
Arguments mkEnv {T W}. Arguments init_genrand {T W}. Arguments clock {T W}. Arguments UseBootstrap {T W}.
Arguments MakeBootstrapSample {T W}. Arguments LevMarFit {T W}. Arguments NMSimplexFit {T W}.
Arguments mo_offsets {T} N. Arguments PrintModelParamsHorizontalString {T} N.
Arguments seed_generator {T W}. Arguments run_fit {T W}. Arguments copy_start {T}.
Arguments BootstrapErrorsBase {T} N {W}. Arguments BootstrapErrorsArrayOnly {T} N {W}. Arguments BootstrapErrors {T} N {W}.
Arguments Fixed {T}. Arguments Stat {T}. Arguments summary_line {T} N.
Arguments PrintBootstrapSummary {T} N. Arguments PrintBootstrapSummaryMultimfit {T} N.
