(** Model of multimfit and makemultimages after their input files have been read:
    core/model_object_multimage.cpp, core/utilities_multimfit.cpp:31-97,
    core/multimfit_main.cpp:403-472, 497-667, core/makemultimages_main.cpp:264-397 and
    core/print_results_multi.cpp. Definitions only.

    The parameter holder is in Params_Model.v, the reader of the image-info file in
    ImgPar_Model.v, AddFunctions of a single image in Build_Model.v, its data and its fit
    statistic in Fit_Model.v, the text of its parameters in Save_Model.v. Reading and
    saving images, memory estimates, messages and logging are left out. *)
From Coq Require Import ZArith List Bool Ascii String.
From Verif Require Import Base Num StrUtil_Model Fit_Model Config_Model ImgPar_Model Params_Model Build_Model Save_Model Finish_Model.
Import ListNotations.
Local Open Scope string_scope.
Local Open Scope list_scope.

Definition N_IMAGE_PARAMS := Params_Model.N_IMAGE_PARAMS.

(** what main() knows about the shared model: functionList, functionLabelList,
    functionSetIndices (parameterList and paramLimits are in [pout]) *)
Record shared := mkShared { g_names : list str; g_labels : list str; g_starts : list nat }.

(** core/multimfit_main.cpp:403-421 and core/makemultimages_main.cpp:264-283: the function
    list of one image. The entries of the optional-parameter maps are left out: both
    programs pass an empty vector. *)
Definition image_functions {T} (s : shared) (info : ImageInfo T) : res (list str * list str * list nat) :=
  match i_perImage info with
  | None => Ok (g_names s, g_labels s, g_starts s)
  | Some p =>
      for_ (List.length (pi_names p)) (fun j '(names, labels, starts) =>
        do nm <- get (pi_names p) j;
        do lb <- get (pi_labels p) j;
        do st <- get (pi_starts p) j;
        Ok (names ++ [nm], labels ++ [lb], starts ++ [List.length (g_names s) + st]))
      (g_names s, g_labels s, g_starts s)
  end.

(** core/multimfit_main.cpp:441-451 (makemultimages_main.cpp:306-315): the functions of
    the images; [psfs]: size of each image's PSF, if any. [inl]: exit status. *)
Definition image_models {T} (s : shared) (infos : list (ImageInfo T)) (psfs : list (option (Z * Z)))
  : res (Z + list built) :=
  for_ (List.length infos) (fun i (st : Z + list built) =>
    match st with
    | inl z => Ok (inl z)
    | inr models =>
        do info <- get infos i;
        do psf <- get psfs i;
        do fl <- image_functions s info;
        let '(names, labels, starts) := fl in
        do r <- AddFunctions psf names labels starts [];
        match r with
        | (_, Some b) => Ok (inr (models ++ [b]))
        | (_, None) => Ok (inl (-1)%Z)
        end
    end) (inr []).

(** a ModelObjectMultImage: the functions and parameters of its images, its own
    functions, the set starts, number of sets, parameterLabels, nParamsTot and
    nPerImageParamsForModelObjects *)
Record joint := mkJoint {
  j_images : list built;
  j_funcs : list fobj; j_flags : list bool; j_sets : nat;
  j_labels : list str; j_nParamsTot : nat; j_local : list nat }.

(** AddModelObject, core/model_object_multimage.cpp:146-193, for every image: nParamsTot
    and parameterLabels. The buffers allocated there are arguments of the functions below. *)
Definition add_images (images : list built) : res (nat * list str) :=
  for_ (List.length images) (fun i '(n, labels) =>
    if (0 <? i)%nat then
      Ok (n + N_IMAGE_PARAMS, labels ++ map lit ["PIXEL_SCALE"; "ROTATION"; "FLUX_SCALE"; "X0"; "Y0"])
    else Ok (n, labels)) (0, []).

(** AddFunctions (core/add_functions.cpp:389-465) on the joint object, whose AddFunction
    (core/model_object_multimage.cpp:200-216) only appends *)
Definition joint_functions (s : shared) (nImages : nat) : res (Z + list fobj) :=
  for_ (List.length (g_names s)) (fun i (st : Z + list fobj) =>
    match st with
    | inl z => Ok (inl z)
    | inr fs =>
        do nm <- get (g_names s) i;
        match find_class classes nm with
        | None => Ok (inl (-1)%Z)
        | Some c =>
            do lb <- get (g_labels s) i;
            if (nImages <? 1)%nat then Ok (inl (-1)%Z) else Ok (inr (fs ++ [Build_Model.new_object c lb]))
        end
    end) (inr []).

(** core/multimfit_main.cpp:464-472 (makemultimages_main.cpp:324-330) with
    DefineFunctionSets and PopulateParameterNames of core/model_object.cpp and
    FinalModelSetup, core/model_object_multimage.cpp:275-296. nExtra is never negative,
    as every image has the shared functions. *)
Definition joint_model (s : shared) (images : list built) : res (Z + joint) :=
  do a <- add_images images;
  let '(n0, labels0) := a : nat * list str in
  do r <- joint_functions s (List.length images);
  match r with
  | inl z => Ok (inl (-1)%Z)
  | inr fs =>
      do flags <- DefineFunctionSets (List.length fs) (g_starts s);
      do names <- Build_Model.PopulateParameterNames fs flags;
      let sizes := map (fun f => List.length (GetParameterNames f)) fs in
      let nGlobalFuncParams := fold_left Nat.add sizes 0 + 2 * List.length (g_starts s) in
      let extra := map (fun b => b_nParamsTot b - nGlobalFuncParams) images in
      Ok (inr (mkJoint images fs flags (List.length (g_starts s)) (labels0 ++ names)
                (n0 + nParamsTot sizes (g_starts s) + fold_left Nat.add extra 0) extra))
  end.

(** ModelObject::GetParameterName on the joint object, core/model_object.cpp:2186-2193 *)
Definition JointParameterName (j : joint) (i : nat) : res str :=
  if (i <? j_nParamsTot j)%nat then get (j_labels j) i else Ok (lit "<undefined>").

Section Start.
Variable T : Type.
Variable N : Num T.

(** one parameter in CorrectForImageOffsets, e.g. core/utilities_multimfit.cpp:54-59 *)
Definition shift_par (i : nat) (off : Z) (st : list T * list (mp_par T)) : res (list T * list (mp_par T)) :=
  let d := nofZ N off in
  do v <- get (fst st) i;
  do ps <- set (fst st) i (nsub N v d);
  do p <- get (snd st) i;
  do ls <- set (snd st) i (mkPar (p_fixed p) (p_lim0 p) (p_lim1 p)
              (if p_lim0 p then nsub N (p_lo p) d else p_lo p)
              (if p_lim1 p then nsub N (p_hi p) d else p_hi p));
  Ok (ps, ls).

(** CorrectForImageOffsets, core/utilities_multimfit.cpp:34-97; [offs]: the section offsets
    of the images *)
Definition CorrectForImageOffsets (j : joint) (offs : list (Z * Z)) (params : list T) (limits : list (mp_par T))
  : res (list T * list (mp_par T)) :=
  let nImages := List.length (j_images j) in
  let nImageParams := N_IMAGE_PARAMS * (nImages - 1) in
  do st <- for_from 1 (nImages - 1) (fun n st =>
      do o <- get offs n;
      do st <- shift_par (n * N_IMAGE_PARAMS - 2) (fst o) st;
      shift_par (n * N_IMAGE_PARAMS - 2 + 1) (snd o) st) (params, limits);
  do ref <- get offs 0;
  for_from nImageParams (j_nParamsTot j - nImageParams) (fun i st =>
    do name <- JointParameterName j i;
    if str_eqb name (lit "X0") then shift_par i (fst ref) st
    else if str_eqb name (lit "Y0") then shift_par i (snd ref) st
    else Ok st) st.

(** core/multimfit_main.cpp:500-506: the local parameters of all images; those of an image
    without local functions are an empty vector *)
Definition local_values (info : ImageInfo T) : list T := match i_perImage info with None => [] | Some p => pi_params p end.
Definition local_limits (info : ImageInfo T) : list (mp_par T) := match i_perImage info with None => [] | Some p => pi_limits p end.

(** core/multimfit_main.cpp:550-608: parameterInfo *)
Definition parameter_info (nImageDesc nGlobal : nat) (descLimits paramLimits : list (mp_par T)) (infos : list (ImageInfo T))
  : res (list (mp_par T)) :=
  do a <- for_ nImageDesc (fun i a => do p <- get descLimits i; Ok (a ++ [p])) [];
  do a <- for_from nImageDesc nGlobal (fun i a => do p <- get paramLimits (i - nImageDesc); Ok (a ++ [p])) a;
  for_ (List.length infos) (fun n a =>
    do info <- get infos n;
    for_ (List.length (local_values info)) (fun k a => do p <- get (local_limits info) k; Ok (a ++ [p])) a) a.

(** core/multimfit_main.cpp:655-665: paramsVect before the offsets *)
Definition multimfit_params (nParamsTot nImageDesc nGlobal : nat) (desc params locals : list T) : res (list T) :=
  do v <- for_ nImageDesc (fun i v => do x <- get desc i; set v i x) (repeat (nofZ N 0) nParamsTot);
  do v <- for_from nImageDesc (nParamsTot - nImageDesc) (fun i v => do x <- get params (i - nImageDesc); set v i x) v;
  for_from (nImageDesc + nGlobal) (List.length locals) (fun i v => do x <- get locals (i - (nImageDesc + nGlobal)); set v i x) v.

(** ModelObjectMultImage::FinalSetupForFitting, core/model_object_multimage.cpp:299-313:
    status and the prepared objects *)
Definition setup_images (objs : list (mobj T)) : res (Z * list (mobj T)) :=
  for_ (List.length objs) (fun i '(status, done) =>
    if (status <? 0)%Z then Ok (status, done)
    else
      do o <- get objs i;
      do r <- FinalSetupForFitting N o;
      Ok (fst r, done ++ [snd r])) (0%Z, []).

(** core/multimfit_main.cpp:497-667: what the solver gets besides the model object (start
    values, limits, number of free parameters) and the degrees of freedom; [inl]: exit
    status. [desc], [descLimits]: from GetImageDescriptionParams (line 248). *)
Definition begin_multimfit (j : joint) (infos : list (ImageInfo T)) (desc : list T) (descLimits : list (mp_par T))
    (po : pout T) (offs : list (Z * Z)) (objs : list (mobj T)) : res (Z + handover T * Z * list (mobj T)) :=
  let locals := flat_map local_values infos in
  let nImageDesc := List.length desc in
  let nGlobal := List.length (o_params po) in
  if negb (j_nParamsTot j =? nImageDesc + nGlobal + List.length locals)%nat then Ok (inl (-1)%Z)
  else
  do r <- setup_images objs;
  let (status, objs) := r : Z * list (mobj T) in
  if (status <? 0)%Z then Ok (inl (-1)%Z)
  else
  do info <- parameter_info nImageDesc nGlobal descLimits (o_limits po) infos;
  do nFree <- count_free (j_nParamsTot j) info;
  let nValidTotal := fold_left Z.add (map (@nValid T) objs) 0%Z in
  do v <- multimfit_params (j_nParamsTot j) nImageDesc nGlobal desc (o_params po) locals;
  do c <- CorrectForImageOffsets j offs v info;
  Ok (inr (mkHand (fst c) (snd c) nFree, (nValidTotal - nFree)%Z, objs)).

(** core/makemultimages_main.cpp:334-375: the parameter vector; [inl]: exit status *)
Definition makemulti_params (j : joint) (infos : list (ImageInfo T)) (desc : list T) (po : pout T) : res (Z + list T) :=
  let locals := flat_map local_values infos in
  let nImageDesc := List.length desc in
  let nGlobal := List.length (o_params po) in
  if negb (j_nParamsTot j =? nImageDesc + nGlobal + List.length locals)%nat then Ok (inl (-1)%Z)
  else
  do v <- for_ nImageDesc (fun i v => do x <- get desc i; set v i x)
            (repeat (nofZ N 0) (nImageDesc + nGlobal + List.length locals));
  do v <- for_from nImageDesc nGlobal (fun i v => do x <- get (o_params po) (i - nImageDesc); set v i x) v;
  do v <- for_from (nImageDesc + nGlobal) (List.length locals) (fun i v => do x <- get locals (i - (nImageDesc + nGlobal)); set v i x) v;
  Ok (inr v).
End Start.
Arguments shift_par {T}. Arguments CorrectForImageOffsets {T}. Arguments local_values {T}. Arguments local_limits {T}.
Arguments parameter_info {T}. Arguments multimfit_params {T}. Arguments setup_images {T}. Arguments begin_multimfit {T}.
Arguments makemulti_params {T}.

Section Use.
Variable T : Type.
Variable N : Num T.
(** [create i d p]: the model image of image [i] (CreateModelImage followed by
    GetModelImageVector) when SetImageParameters has been given the description [d]
    (pixel scale, rotation, flux scale) and the parameters are [p] *)
Variable create : nat -> T * T * T -> list T -> res (list T).

(** core/model_object_multimage.cpp:377-382 and core/param_holder.cpp: description and
    parameters of image [i]; [buf] is the previous content of its buffer *)
Definition for_image_i (j : joint) (params : list T) (i : nat) (buf : list T) : res (T * T * T * list T) :=
  do d <- DescrForImage N params i;
  do p <- ParamsForImage N params (j_nParamsTot j) (List.length (j_images j)) i
            (map (fun f => List.length (GetParameterNames f)) (j_funcs j)) (j_flags j) (j_sets j) (j_local j) buf;
  Ok (d, p).

(** CreateAllModelImages, core/model_object_multimage.cpp:319-355 *)
Definition CreateAllModelImages (j : joint) (params : list T) (bufs : list (list T)) : res (list (list T)) :=
  for_ (List.length (j_images j)) (fun i out =>
    do buf <- get bufs i;
    do dp <- for_image_i j params i buf;
    do mv <- create i (fst dp) (snd dp);
    Ok (out ++ [mv])) [].

(** GetFitStatistic, core/model_object_multimage.cpp:359-405 *)
Definition JointFitStatistic (cash : bool) (j : joint) (objs : list (mobj T)) (params : list T) (bufs : list (list T)) : res T :=
  for_ (List.length (j_images j)) (fun i s =>
    do buf <- get bufs i;
    do dp <- for_image_i j params i buf;
    do o <- get objs i;
    do mv <- create i (fst dp) (snd dp);
    if cash then (do v <- CashStatistic N o mv; Ok (nadd N s v))
    else (do r <- ChiSquared N o mv; Ok (nadd N s (snd r)))) (nofZ N 0).

(** ComputeDeviates, core/model_object_multimage.cpp:408-441 *)
Definition JointDeviates (j : joint) (objs : list (mobj T)) (params : list T) (bufs : list (list T)) (yResults : list T) : res (list T) :=
  do r <- for_ (List.length (j_images j)) (fun i '(y, startIndex) =>
    do buf <- get bufs i;
    do dp <- for_image_i j params i buf;
    do o <- get objs i;
    do mv <- create i (fst dp) (snd dp);
    do r <- ComputeDeviates N o mv y startIndex;
    Ok (snd r, startIndex + nDataVals o)) (yResults, 0);
  Ok (fst r).

(** core/makemultimages_main.cpp:386-397: name and pixels of the images saved; [dec] is "%d" *)
Definition makemulti_images (dec : nat -> str) (outputImageName : str) (j : joint) (params : list T) (bufs : list (list T))
  : res (list (str * list T)) :=
  do mvs <- CreateAllModelImages j params bufs;
  for_ (List.length (j_images j)) (fun i out =>
    do mv <- get mvs i;
    do name <- PrintToString (c_str outputImageName ++ lit "_" ++ dec i ++ lit ".fits");
    Ok (out ++ [(name, mv)])) [].
End Use.
Arguments for_image_i {T}. Arguments CreateAllModelImages {T}. Arguments JointFitStatistic {T}. Arguments JointDeviates {T}.
Arguments makemulti_images {T}.

(** ---- texts ---- *)
Section Text.
Variable T : Type.
Variable N : Num T.
Variable f4 g g5 g10 : T -> str.
Variable dec : nat -> str.

(** GetParameterStringsForOneImage, core/model_object_multimage.cpp:558-592; [errors]
    starts at the first model parameter, as [paramErrors] does *)
Definition GetParameterStringsForOneImage (j : joint) (offs : list (Z * Z)) (params : list T) (i : nat) (buf : list T)
    (errors : option (list T)) (strings : list str) : res (list str) :=
  do dp <- for_image_i N j params i buf;
  do m <- get (j_images j) i;
  do o <- get offs i;
  let paramErrors := option_map (skipn ((List.length (j_images j) - 1) * N_IMAGE_PARAMS)) errors in
  do r <- Save_Model.PrintModelParamsToStrings N f4 g g5 m (nofZ N (fst o)) (nofZ N (snd o)) (snd dp) paramErrors [] false [] strings;
  Ok (snd r).

(** SaveMultImageParameters, core/print_results_multi.cpp:47-81: name and text of each file *)
Definition SaveMultImageParameters (j : joint) (offs : list (Z * Z)) (files : list str) (params : list T) (bufs : list (list T))
    (outputFilenameRoot : str) (header : list str) : res (list (str * str)) :=
  for_ (List.length (j_images j)) (fun i out =>
    do newFilename <- (if (i =? 0)%nat then PrintToString (c_str outputFilenameRoot ++ lit "_refimage.dat")
                       else PrintToString (c_str outputFilenameRoot ++ lit "_image" ++ dec (i + 1) ++ lit ".dat"));
    do dataFilename <- get files i;
    do buf <- get bufs i;
    do ss <- GetParameterStringsForOneImage j offs params i buf None [];
    Ok (out ++ [(newFilename,
          concat (map (fun h => c_str h ++ NL) header) ++
          NL ++ lit "# MODEL PARAMETERS FOR DATA IMAGE: " ++ c_str dataFilename ++ NL ++ concat (map c_str ss))])) [].

(** PrintSingleImageInfoToStrings, core/print_results_multi.cpp:156-228. An int passed to a
    %g conversion is undefined behaviour. *)
Definition PrintSingleImageInfoToStrings (im : ImageInfo T) (strings : list str) (refImage : bool) (desc : list T) (offset : nat)
    (errs : option (list T)) : res (list str) :=
  let put (s : list str) (cond : bool) (t : str) : res (list str) :=
    if cond then (do l <- PrintToString t; Ok (s ++ [l])) else Ok s in
  let put_name (s : list str) (kw : str) (f : option str) : res (list str) :=
    match f with None => Ok s | Some n => do l <- PrintToString (kw ++ lit "    " ++ c_str n ++ NL); Ok (s ++ [l]) end in
  let s := strings ++ [lit "IMAGE_START" ++ NL] in
  do s <- put_name s (lit "DATA") (i_dataFile im);
  do s <- put s (negb (neqb N (i_originalSky im) (nofZ N 0))) (lit "ORIGINAL_SKY" ++ TAB ++ TAB ++ g (i_originalSky im) ++ NL);
  do s <- put s (negb (neqb N (i_gain im) (nofZ N 1))) (lit "GAIN" ++ TAB ++ TAB ++ g (i_gain im) ++ NL);
  do s <- put s (negb (neqb N (i_readNoise im) (nofZ N 0))) (lit "READNOISE" ++ TAB ++ TAB ++ g (i_readNoise im) ++ NL);
  do s <- (if (i_nCombined im =? 1)%Z then Ok s else Undef);
  do s <- put_name s (lit "MASK") (i_maskFile im);
  do s <- put_name s (lit "ERROR") (i_errorFile im);
  do s <- put_name s (lit "PSF") (i_psfFile im);
  do s <- (match i_overFiles im with
           | [] => Ok s
           | _ :: _ =>
               for_ (List.length (i_overRegions im)) (fun i s =>
                 do s <- (if (i <? List.length (i_overFiles im))%nat then
                            do f <- get (i_overFiles im) i;
                            do l1 <- PrintToString (lit "OVERSAMPLED_PSF         " ++ c_str f ++ NL);
                            do sc <- get (i_overScales im) i;
                            do l2 <- PrintToString (lit "OVERSAMPLE_SCALE        " ++ dec (Z.to_nat sc) ++ NL);
                            Ok (s ++ [l1; l2])
                          else Ok s);
                 do r <- get (i_overRegions im) i;
                 do l3 <- PrintToString (lit "OVERSAMPLED_REGION      " ++ c_str r ++ NL);
                 Ok (s ++ [l3])) s
           end);
  do s <- (if refImage then Ok s
           else
             let par k name : res str :=
               do v <- get desc (k + offset);
               match errs with
               | None => do l <- PrintToString (par_text g [] (lit name) v); Ok (l ++ NL)
               | Some es => do e <- get es (k + offset); do l <- PrintToString (par_text_err g g5 [] (lit name) v e); Ok (l ++ NL)
               end in
             let xy k name : res str :=
               do v <- get desc (k + offset);
               match errs with
               | None => PrintToString (xy_line f4 [] (lit name) v)
               | Some es => do e <- get es (k + offset); PrintToString (xy_line_err f4 [] (lit name) v e)
               end in
             do l0 <- par 0 "PIXEL_SCALE";
             do l1 <- par 1 "IMAGE_PA";
             do l2 <- par 2 "FLUX_SCALE";
             do l3 <- xy 3 "X0";
             do l4 <- xy 4 "Y0";
             Ok (s ++ [l0; l1; l2; l3; l4]));
  Ok (s ++ [NL]).

(** SaveImageInfoParameters, core/print_results_multi.cpp:85-149: the text of the file.
    [errs]: the errors of the joint vector, with the Levenberg-Marquardt solver. Only
    non-negative numbers are printed with [dec]. *)
Definition SaveImageInfoParameters (j : joint) (infos : list (ImageInfo T)) (params : list T) (errs : option (list T))
    (header : list str) : res str :=
  let n := List.length (j_images j) in
  let blank := repeat (nofZ N 0) (n * N_IMAGE_PARAMS) in
  let desc_of v := for_ ((n - 1) * N_IMAGE_PARAMS) (fun i d => do x <- get v i; set d i x) blank in
  do desc <- desc_of params;
  do derrs <- (match errs with None => Ok None | Some e => do d <- desc_of e; Ok (Some d) end);
  do ss <- for_ n (fun i s =>
    let s := if (i =? 0)%nat then s ++ [lit "# Reference image" ++ NL]
             else if (i =? 1)%nat then s ++ [lit "# Additional images" ++ NL] else s in
    do im <- get infos i;
    PrintSingleImageInfoToStrings im s (i =? 0)%nat desc ((i - 1) * N_IMAGE_PARAMS) derrs) [];
  Ok (concat (map (fun h => c_str h ++ NL) header) ++ NL ++ lit "# IMAGE PARAMETERS" ++ NL ++ NL ++ concat (map c_str ss)).

(** PrintModelParamsHorizontalString of the joint object,
    core/model_object_multimage.cpp:646-686 *)
Definition JointHorizontalString (j : joint) (offs : list (Z * Z)) (params : list T) (separator : str) : res str :=
  do off <- get offs 0;
  let nImageParams := (List.length (j_images j) - 1) * N_IMAGE_PARAMS in
  do p0 <- get params 0;
  do s <- PrintToString (g10 p0);
  do s <- for_from 1 (nImageParams - 1) (fun i s =>
      do v <- get params i; do t <- PrintToString (c_str separator ++ g10 v); Ok (s ++ t)) s;
  do r <- for_ (List.length (j_funcs j)) (fun n '(indexOffset, s) =>
      do flag <- get (j_flags j) n;
      do c <- (if (flag : bool) then
                 do px <- get params indexOffset;
                 do py <- get params (indexOffset + 1);
                 do t <- PrintToString (c_str separator ++ g10 (nadd N px (nofZ N (fst off))) ++
                                        c_str separator ++ g10 (nadd N py (nofZ N (snd off))));
                 Ok (indexOffset + 2, s ++ t)
               else Ok (indexOffset, s));
      let '(indexOffset, s) := c in
      do f <- get (j_funcs j) n;
      do s <- for_ (List.length (GetParameterNames f)) (fun i s =>
           do v <- get params (indexOffset + i);
           do t <- PrintToString (c_str separator ++ g10 v);
           Ok (s ++ t)) s;
      Ok (indexOffset + List.length (GetParameterNames f), s)) (nImageParams, s);
  Ok (snd r).

(** GetParamHeader of the joint object, core/model_object_multimage.cpp:696-717 *)
Definition JointParamHeader (j : joint) : res str :=
  do h <- for_from 1 (List.length (j_images j) - 1) (fun n h =>
      do a <- PrintToString (lit "PIXEL_SCALE_IM_" ++ dec (n + 1) ++ TAB);
      do b <- PrintToString (lit "IMAGE_PA_IM_" ++ dec (n + 1) ++ TAB);
      do c <- PrintToString (lit "FLUX_SCALE_IM_" ++ dec (n + 1) ++ TAB);
      do d <- PrintToString (lit "X0_IM_" ++ dec (n + 1) ++ TAB);
      do e <- PrintToString (lit "Y0_IM_" ++ dec (n + 1) ++ TAB);
      Ok (h ++ a ++ b ++ c ++ d ++ e)) (lit "# ");
  do m <- get (j_images j) 0;
  do base <- GetParamHeader dec m;
  Ok (h ++ skipn 2 base).
End Text.
Arguments GetParameterStringsForOneImage {T}. Arguments SaveMultImageParameters {T}. Arguments PrintSingleImageInfoToStrings {T}.
Arguments SaveImageInfoParameters {T}. Arguments JointHorizontalString {T}.
