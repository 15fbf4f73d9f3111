(** Model of what imfit, imfit-mcmc and makeimage do between the command line and the
    model object: core/getimages.cpp, core/setup_model_object.cpp, the checks of the
    main programs, core/psf_oversampling_info.cpp and (for multimfit and
    makemultimages) core/store_psf_oversampling.cpp. Definitions only. Messages are
    left out, except the announcement of the fit statistic. Memory allocation always
    succeeds. *)
From Coq Require Import ZArith List Bool Ascii String.
From Verif Require Export Base Num Conv_Model Fit_Model StrUtil_Model Opt_Model.
Import ListNotations.
Local Open Scope list_scope.

Section Start.
  Variable T : Type.
  Variable N : Num T.
  (** the C library's strtod, the compiler's reading of literals, the number of cores:
      as in Opt_Model *)
  Variable strtod : str -> T.
  Variable dbl : string -> T.
  Variable cores : Z.
  (** core/utilities.cpp:521-524 FileExists: can the file be opened *)
  Variable FileExists : str -> bool.
  (** core/image_io.cpp ReadImageAsVector (cfitsio): columns, rows and pixels of the
      named image, or nothing. GetImageSize, called for the PSF after it was read
      (core/getimages.cpp:124), is taken to return the same size. *)
  Variable ReadImage : str -> option (nat * nat * list T).
  (** core/config_file_parser.cpp ReadConfigFile: the option lines of the named file,
      or nothing if its status is not 0. The functions and parameters are modelled
      elsewhere. *)
  Variable ReadConfig : str -> option (list (str * str)).

  (** core/utilities.cpp:500-515: std::string::find of a literal *)
  Fixpoint has_prefix (s p : str) : bool :=
    match p, s with
    | [], _ => true
    | c :: p, d :: s => ch_eqb c d && has_prefix s p
    | _, [] => false
    end.
  Fixpoint contains (s p : str) : bool :=
    has_prefix s p || match s with [] => false | _ :: t => contains t p end.
  Definition ImageFileExists (name : str) : res bool :=
    let name := c_str name in
    if contains name (lit "ftp://") || contains name (lit "http://") then Ok true
    else do base <- StripBrackets name; Ok (FileExists base).

  (** core/getimages.cpp:34-58: pixels and status *)
  Definition GetAndCheckImage (name : str) (cols_ref rows_ref : nat) : option (list T) * Z :=
    match ReadImage name with
    | None => (None, (-1)%Z)
    | Some (cols, rows, pix) =>
        if (0 <? cols_ref)%nat && (0 <? rows_ref)%nat
           && (negb (cols =? cols_ref)%nat || negb (rows =? rows_ref)%nat)
        then (None, (-2)%Z) else (Some pix, 0%Z)
    end.
  (** core/getimages.cpp:60-104: mask, errors and status *)
  Definition GetMaskAndErrorImages (cols rows : nat) (maskName errorName : str)
    : option (list T) * option (list T) * Z :=
    let (mask, st) := match maskName with
                      | [] => (None, 0%Z)
                      | _ => let (m, st) := GetAndCheckImage maskName cols rows in
                             if (st <? 0)%Z then (m, (-1)%Z) else (m, 1%Z)
                      end in
    if (st <? 0)%Z then (mask, None, (-1)%Z)
    else match errorName with
         | [] => (mask, None, st)
         | _ => let (e, st') := GetAndCheckImage errorName cols rows in
                if (st' <? 0)%Z then (mask, e, (-1)%Z) else (mask, e, (st + 2)%Z)
         end.
  (** core/getimages.cpp:113-132 *)
  Definition GetPsfImage (name : str) : option (nat * nat * list T) :=
    match GetAndCheckImage name 0 0 with
    | (Some pix, _) => match ReadImage name with Some (c, r, _) => Some (c, r, pix) | None => Some (0, 0, pix) end
    | (None, _) => None
    end.

  (** the data members of a PsfOversamplingInfo object (psf_oversampling_info.h);
      [oi_unique]: the pixel array is not that of the object before it.
      psf_oversampling_info.cpp:38-47: the PSF is always to be normalised. *)
  Record oinfo := mkOinfo { oi_offset : Z * Z; oi_region : str; oi_psf : psf_info T; oi_unique : bool; oi_scale : Z }.

  (** the loops of core/getimages.cpp:163-197 and store_psf_oversampling.cpp:80-105.
      Before the first reading, PSF and scale are uninitialised. A null result is a
      PSF file that cannot be read. *)
  Definition collect (offset : Z * Z) (names regions : list str) (scales : list Z) (nRegions : nat)
    : res (option (list oinfo)) :=
    do r <- for_ nRegions (fun nn acc =>
      match acc with
      | None => Ok None
      | Some (l, cur) =>
          do region <- get regions nn;
          if (nn =? 0)%nat || (1 <? List.length names)%nat then
            do name <- get names nn;
            match ReadImage name with
            | None => Ok None
            | Some (c, r, pix) =>
                do scale <- get scales nn;
                let p := mkPSF pix c r true in
                Ok (Some (l ++ [mkOinfo offset region p true scale], Some (p, scale)))
            end
          else
            match cur with
            | None => Undef
            | Some (p, scale) => Ok (Some (l ++ [mkOinfo offset region p false scale], cur))
            end
      end) (Some ([], @None (psf_info T * Z)));
    Ok (option_map fst r).
  (** core/getimages.cpp:138-199; nothing is a negative status *)
  Definition GetOversampledPsfInfo (o : opts T) (offset : Z * Z) : res (option (list oinfo)) :=
    do nRegions <- as_int (o K_nOversampleRegions);
    let names := strs (o K_psfOversampledFileNames) in
    let scales := ints (o K_psfOversamplingScales) in
    if (nRegions <? 1)%Z then Ok None
    else if negb (List.length names =? List.length scales)%nat then Ok None
    else if (1 <? List.length names)%nat && negb (Z.of_nat (List.length names) =? nRegions)%Z then Ok None
    else collect offset names (strs (o K_psfOversampleRegions)) scales (Z.to_nat nRegions).
  (** core/store_psf_oversampling.cpp:44-108; the arguments are the members of the
      ImageInfo object. AddImageOffset is not called. *)
  Definition ExtractAndStorePsfOversampling (names regions : list str) (scales : list Z) (regionSet : bool)
    : res (option (list oinfo)) :=
    if negb (List.length names =? List.length scales)%nat then Ok None
    else if (1 <? List.length names)%nat && negb (List.length names =? List.length regions)%nat then Ok None
    else if negb regionSet then Ok None
    else collect (0, 0)%Z names regions scales (List.length regions).

  (** psf_oversampling_info.cpp:194-204 *)
  Definition GetCorrectedRegionCoords (i : oinfo) : res (Z * Z * Z * Z) :=
    do c <- GetAllCoordsFromBracket (oi_region i);
    let '(x1, x2, y1, y2) := c in
    Ok (x1 - fst (oi_offset i), x2 - fst (oi_offset i), y1 - snd (oi_offset i), y2 - snd (oi_offset i))%Z.

  (** one call of ModelObject::AddOversampledPsfInfo: the contents of the pixel array at
      the time of the call, the region and the scale (the arguments of
      Image_Model.AddOversampledPsfInfo) *)
  Record region_call := mkCall { rc_psf : psf_info T; rc_x1 : Z; rc_x2 : Z; rc_y1 : Z; rc_y2 : Z; rc_scale : Z }.

  (** setup_model_object.cpp:96-105: the calls for all regions, on an image of cols x rows.
      [prev] is the content of the previous object's array: setting up the convolver
      normalises it in place (convolver.cpp:296-306, oversampled_region.cpp:174).
      model_object.cpp:894-927: failed asserts abort, non-finite pixels end the program
      (the null result). *)
  Fixpoint AddOversampledPsfs (cols rows : nat) (infos : list oinfo) (prev : list T) : res (option (list region_call)) :=
    match infos with
    | [] => Ok (Some [])
    | i :: rest =>
        let p := if oi_unique i then oi_psf i
                 else mkPSF prev (ps_cols (oi_psf i)) (ps_rows (oi_psf i)) (ps_normalize (oi_psf i)) in
        do c <- GetCorrectedRegionCoords i;
        let '(x1, x2, y1, y2) := c in
        if Nat.leb 1 (ps_cols p) && Nat.leb 1 (ps_rows p) && (x1 <? x2)%Z && (y1 <? y2)%Z && (1 <=? oi_scale i)%Z then
          if forallb (nfin N) (ps_pixels p) then
            if (Z.max x1 1 <=? Z.min x2 (Z.of_nat cols))%Z && (Z.max y1 1 <=? Z.min y2 (Z.of_nat rows))%Z then
              do after <- (if ps_normalize p then NormalizePSF N (ps_cols p * ps_rows p) (ps_pixels p) else Ok (ps_pixels p));
              do r <- AddOversampledPsfs cols rows rest after;
              Ok (option_map (cons (mkCall p x1 x2 y1 y2 (oi_scale i))) r)
            else Abort
          else Ok None
        else Abort
    end.

  (** What the object that SetupModelObject returns was given *)
  Record job := mkJob {
    j_object : mobj T;
    j_psf : option (psf_info T);
    j_regions : list region_call }.
  Inductive started := Ended (status : Z) | Started (j : job).

  Definition as_real (v : val T) : res T := match v with VR x => Ok x | _ => Undef end.
  Definition as_str (v : val T) : res str := match v with VS s => Ok s | _ => Undef end.

  (** setup_model_object.cpp:36-157 for a fit. A null mask or error array is the empty
      list. *)
  Definition SetupFit (o : opts T) (cols rows : nat) (dataPixels : list T) (psf : option (nat * nat * list T))
      (maskPixels errorPixels : option (list T)) (infos : list oinfo) : res started :=
    do psfPresent <- as_bool (o K_psfImagePresent);
    do normalize <- as_bool (o K_normalizePSF);
    do r <- (if psfPresent then
               match psf with
               | Some (c, r, pix) => do a <- AddPSFVector N (c * r) c r pix normalize false; Ok (fst (fst a), snd a)
               | None => Undef
               end
             else Ok (0%Z, None));
    let (st, ps) := r : Z * option (psf_info T) in
    if (st <? 0)%Z then Ok (Ended (-1))
    else
    let m := match ps with Some p => AddPSF_size (new_object N) (ps_cols p) (ps_rows p) | None => new_object N end in
    let m := AddImageDataVector m dataPixels cols rows in
    do gain <- as_real (o K_gain); do readNoise <- as_real (o K_readNoise); do expTime <- as_real (o K_expTime);
    do nComb <- as_int (o K_nCombined); do sky <- as_real (o K_originalSky);
    do m <- AddImageCharacteristics N m gain readNoise expTime nComb sky;
    do oversampling <- as_bool (o K_psfOversampling);
    do calls <- (if oversampling then AddOversampledPsfs cols rows infos [] else Ok (Some []));
    match calls with
    | None => Ok (Ended (-1))
    | Some calls =>
      do maskPresent <- as_bool (o K_maskImagePresent);
      do maskFormat <- as_int (o K_maskFormat);
      do r <- (if maskPresent then AddMaskVector N m cols rows (match maskPixels with Some p => p | None => [] end) maskFormat
               else Ok (0%Z, m));
      let (st, m) := r : Z * mobj T in
      if (st <? 0)%Z then Ok (Ended (-1))
      else
      do cash <- as_bool (o K_useCashStatistic); do mlr <- as_bool (o K_usePoissonMLR);
      do solver <- as_int (o K_solver); do statOnly <- as_bool (o K_printFitStatisticOnly);
      do noise <- as_bool (o K_noiseImagePresent); do errorType <- as_int (o K_errorType);
      do modelErr <- as_bool (o K_useModelForErrors);
      if cash then
        if (solver =? MPFIT_SOLVER)%Z && negb statOnly then Ok (Ended (-1))
        else Ok (Started (mkJob (UseCashStatistic N m) ps calls))
      else if mlr then Ok (Started (mkJob (UsePoissonMLR N m) ps calls))
      else if noise then
        do m <- AddErrorVector N m cols rows (match errorPixels with Some p => p | None => [] end) errorType;
        Ok (Started (mkJob m ps calls))
      else if modelErr then Ok (Started (mkJob (UseModelErrors N m) ps calls))
      else Ok (Started (mkJob m ps calls))
    end.

  (** imfit_main.cpp:957-990 and mcmc_main.cpp:888-922 *)
  Definition RequestedFilesPresent (o : opts T) : res bool :=
    let image (present : bool) (k : key) := if present then (do n <- as_str (o k); ImageFileExists n) else Ok true in
    do c <- as_str (o K_configFileName);
    do b1 <- image true K_imageFileName;
    do pm <- as_bool (o K_maskImagePresent); do b2 <- image pm K_maskFileName;
    do pn <- as_bool (o K_noiseImagePresent); do b3 <- image pn K_noiseFileName;
    do pp <- as_bool (o K_psfImagePresent); do b4 <- image pp K_psfFileName;
    Ok (FileExists (c_str c) && b1 && b2 && b3 && b4).

  (** imfit_main.cpp:156-250 and mcmc_main.cpp:158-255 *)
  Definition start_fit (p : program) (argv : list str) : res started :=
    do x <- options_of T strtod dbl cores p argv;
    match x with
    | Exit z => Ok (Ended z)
    | Run o =>
      do present <- RequestedFilesPresent o;
      if negb present then Ok (Ended (-1))
      else
      do cname <- as_str (o K_configFileName);
      match ReadConfig cname with
      | None => Ok (Ended (-1))
      | Some cfg =>
        do o <- HandleConfigFileOptions strtod cfg o;
        do noImage <- as_bool (o K_noImage);
        if noImage then Ok (Ended (-1))
        else
        do name <- as_str (o K_imageFileName);
        match ReadImage name with
        | None => Ok (Ended (-1))
        | Some (cols, rows, pix) =>
          do offset <- DetermineImageOffset name;
          do mname <- as_str (o K_maskFileName); do ename <- as_str (o K_noiseFileName);
          let '(mask, errors, st) := GetMaskAndErrorImages cols rows mname ename in
          if (st <? 0)%Z then Ok (Ended (-1))
          else
          do psfPresent <- as_bool (o K_psfImagePresent); do pname <- as_str (o K_psfFileName);
          let psf := if psfPresent then GetPsfImage pname else None in
          if psfPresent && match psf with None => true | Some _ => false end then Ok (Ended (-1))
          else
          do over <- as_bool (o K_psfOversampling); do overImage <- as_bool (o K_psfOversampledImagePresent);
          do infos <- (if over && overImage then GetOversampledPsfInfo o offset else Ok (Some []));
          match infos with
          | None => Ok (Ended (-1))
          | Some infos => SetupFit o cols rows pix psf mask errors infos
          end
        end
      end
    end.

  (** imfit_main.cpp:369-380: the fit statistic that imfit announces before the fit *)
  Inductive announcement := ACash | APoisson | AModelErrors | AErrorImage | ADataErrors.
  Definition announce (o : opts T) : res announcement :=
    do cash <- as_bool (o K_useCashStatistic); do mlr <- as_bool (o K_usePoissonMLR);
    do modelErr <- as_bool (o K_useModelForErrors); do noise <- as_bool (o K_noiseImagePresent);
    Ok (if cash then ACash else if mlr then APoisson else if modelErr then AModelErrors
        else if noise then AErrorImage else ADataErrors).
End Start.
Arguments mkOinfo {T}. Arguments oi_offset {T}. Arguments oi_region {T}. Arguments oi_psf {T}. Arguments oi_unique {T}.
Arguments oi_scale {T}. Arguments mkCall {T}. Arguments rc_psf {T}. Arguments rc_x1 {T}. Arguments rc_x2 {T}.
Arguments rc_y1 {T}. Arguments rc_y2 {T}. Arguments rc_scale {T}. Arguments mkJob {T}. Arguments j_object {T}.
Arguments j_psf {T}. Arguments j_regions {T}. Arguments Ended {T}. Arguments Started {T}. Arguments as_real {T}.
Arguments as_str {T}. Arguments GetAndCheckImage {T}. Arguments GetMaskAndErrorImages {T}. Arguments GetPsfImage {T}.
Arguments collect {T}. Arguments GetOversampledPsfInfo {T}. Arguments ExtractAndStorePsfOversampling {T}.
Arguments GetCorrectedRegionCoords {T}. Arguments AddOversampledPsfs {T} N. Arguments SetupFit {T} N.
Arguments RequestedFilesPresent {T}. Arguments start_fit {T} N. Arguments announce {T}.
