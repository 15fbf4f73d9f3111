(** Model of the program makeimage: core/makeimage_main.cpp (main and DetermineFluxes)
    with what it calls in setup_model_object.cpp and model_object.cpp. Definitions only.

    Left out: messages, the pixel values printed by --printimage, the subsampling switch
    (what a function computes is an argument), and the time measured by --timing.
    Memory allocation succeeds, cfitsio accepts every file name, and fopen succeeds.
    Arithmetic on image sizes is exact. Images are computed by one thread (C64 is about
    several); the sums for the fluxes by [nThreads]. *)
From Coq Require Import ZArith List Bool Ascii String.
From Verif Require Export Base Num Conv_Model StrUtil_Model Config_Model Build_Model Save_Model Opt_Model Start_Model.
From Verif Require Image_Model Par_Model.
Import ListNotations.
Local Open Scope string_scope.
Local Open Scope list_scope.

(** what a run leaves behind, in order *)
Inductive product (T : Type) :=
| PImage (name : str) (cols rows : Z) (pixels : list T) (comments : list str)   (* a FITS file *)
| PPrinted (lines : list str)                                                   (* on the terminal *)
| PText (name : str) (lines : list str).                                        (* a text file *)
Arguments PImage {T}. Arguments PPrinted {T}. Arguments PText {T}.

Section Make.
  Variable T : Type.
  Variable N : Num T.
  (** FFTW's transforms, as in Conv_Model *)
  Variable r2c : nat -> nat -> list T -> list (T * T).
  Variable c2r : nat -> nat -> list (T * T) -> list T.
  (** core/psf_interpolators.cpp: the interpolator of the given type
      (core/model_object.cpp:362-377) for PSF pixels with their numbers of columns and
      rows; regions use the bicubic one *)
  Variable interpolator : Z -> list T -> nat -> nat -> T -> T -> T.
  (** what the functions compute, by class name *)
  Variable implement : str -> Par_Model.component T.
  (** as in Start_Model *)
  Variable strtod : str -> T.
  Variable dbl : string -> T.
  Variable cores : Z.
  Variable FileExists : str -> bool.
  Variable ReadImage : str -> option (nat * nat * list T).
  Variable GetImageSize : str -> option (Z * Z).
  (** core/config_file_parser.cpp ReadConfigFile: the option lines, and the functions and
      parameters of the named file; nothing if its status is not 0 *)
  Variable ReadConfig : str -> option (list (str * str) * pout T).
  (** C library: log10, and printf's %10.4e, %6.4f, %12.5f, %12.3e, %g and %d *)
  Variable log10 : T -> T.
  Variables e4 f4 f5 e3 g : T -> str.
  Variable dec : nat -> str.
  (** TimeStamp(), progName *)
  Variables timestamp progName : str.
  (** threads of the flux sums, and the order of their steps for each function *)
  Variables nThreads chunk : nat.
  Variable sched : nat -> list nat.
  (** what uninitialised variables contain: nColumns_psf and nRows_psf of main (line 100),
      and the interpolator pointers of function objects *)
  Variable junk : Z * Z.
  Variable garbage : list (T -> T -> T).

  (** core/image_io.cpp:314-370 SaveVectorAsImage reads nColumns * nRows values. A negative
      size is refused by cfitsio. *)
  Definition save_image (name : str) (cols rows : Z) (pixels : list T) (notes : list str) : res (list (product T)) :=
    if (cols <? 0)%Z || (rows <? 0)%Z then Ok []
    else if (Z.of_nat (List.length pixels) <? cols * rows)%Z then Undef
    else Ok [PImage name cols rows (firstn (Z.to_nat (cols * rows)) pixels) notes].

  (** setup_model_object.cpp:96-105 *)
  Definition add_regions (m : Image_Model.model T) (calls : list (region_call T)) : res (Z * Image_Model.model T) :=
    for_ (List.length calls) (fun i x =>
      let (status, m) := x : Z * Image_Model.model T in
      if (status <? 0)%Z then Ok (status, m)
      else
      do c <- get calls i;
      Image_Model.AddOversampledPsfInfo N r2c c2r m (rc_psf c) (interpolator 1)
        (rc_x1 c) (rc_x2 c) (rc_y1 c) (rc_y2 c) (rc_scale c)) (0%Z, m).

  (** setup_model_object.cpp:36-105 without data: [inl] is the exit status; [inr] the
      object (still without functions) and its local copy of the PSF. Masks cannot be
      given to makeimage. *)
  Definition SetupModelObject (o : opts T) (cols rows : Z) (psf : option (nat * nat * list T)) (infos : list (oinfo T))
    : res (Z + Image_Model.model T * option (list T * nat * nat)) :=
    do psfPresent <- as_bool (o K_psfImagePresent);
    do normalize <- as_bool (o K_normalizePSF);
    do r <- (if psfPresent then
               match psf with
               | Some (c, r, pix) =>
                 do a <- AddPSFVector N (c * r) c r pix normalize false;
                 let '(status, local, p) := a in
                 Ok (status, option_map (fun l => (l, c, r)) local, p)
               | None => Undef
               end
             else Ok (0%Z, None, None));
    let '(status, local, p) := r : Z * option (list T * nat * nat) * option (psf_info T) in
    if (status <? 0)%Z then Ok (inl (-1)%Z)
    else
    do s <- Image_Model.SetupModelImage N r2c [] [] p (fun _ _ => nofZ N 0) (Z.to_nat cols) (Z.to_nat rows);
    match s with
    | (status, Some m) =>
      if (status <? 0)%Z then Ok (inl (-1)%Z)
      else
      do oversampling <- as_bool (o K_psfOversampling);
      do calls <- (if oversampling then AddOversampledPsfs N (Z.to_nat cols) (Z.to_nat rows) infos [] else Ok (Some []));
      match calls with
      | None => Ok (inl (-1)%Z)
      | Some calls =>
        do a <- add_regions m calls;
        Ok (if (fst a <? 0)%Z then inl (-1)%Z else inr (snd a, local))
      end
    | (_, None) => Ok (inl (-1)%Z)
    end.

  (** core/model_object.cpp:279-308 and 346-381: the object with its functions. Point
      sources share the interpolator made for the first of them; evaluating one without an
      interpolator is undefined behaviour, here of the whole. *)
  Definition add_functions (m : Image_Model.model T) (local : option (list T * nat * nat)) (b : built) : res (Image_Model.model T) :=
    do interp <- (match find is_point (b_funcs b) with
                  | None => Ok (fun _ _ => nofZ N 0)
                  | Some f =>
                    match fo_interp f, local with
                    | Some t, Some (pix, c, r) => Ok (interpolator t pix c r)
                    | _, _ => Undef
                    end
                  end);
    Ok (Image_Model.mkModel (map (fun f => Par_Model.co_func (implement (c_name (fo_class f)))) (b_funcs b)) (b_flags b)
          (Image_Model.mo_dataCols m) (Image_Model.mo_dataRows m) (Image_Model.mo_psf m) interp (Image_Model.mo_regions m)).

  (** core/makeimage_main.cpp:726-817 *)
  Definition NO_MAGNITUDES : T := nofZ N (-10000).                     (* definitions.h:30 *)
  Definition pad25 (s : str) : str := s ++ repeat (ascii_of_nat 32) (25 - List.length s).
  (** lines 767-785 *)
  Definition flux_line (zp : T) (name : str) (label : str) (flux fraction : T) : res str :=
    do a <- PrintToString (pad25 (c_str name) ++ lit " " ++ e4 flux);
    do b <- (if negb (neqb N zp NO_MAGNITUDES) && nltb N (nofZ N 0) flux
             then PrintToString (lit "   " ++ f4 (nsub N zp (nmul N (ndec N 25 1) (log10 flux))))
             else PrintToString (lit "      ---"));
    do c <- (if nleb N (ndec N 1 4) fraction || neqb N fraction (nofZ N 0)
             then PrintToString (f5 fraction) else PrintToString (e3 fraction));
    do d <- (match label with [] => Ok [] | _ => PrintToString (lit "    " ++ c_str label) end);
    Ok (a ++ b ++ c ++ d ++ NL).
  Definition columHeaderLine : str := lit "Component                 Flux        Magnitude   Fraction   Label" ++ NL.
  Definition columHeaderLine_for_file : str := lit "# Component               Flux        Magnitude   Fraction   Label" ++ NL.
  Definition DetermineFluxes (o : opts T) (b : built) (params : list T) : res (list (product T)) :=
    do printFluxes <- as_bool (o K_printFluxes); do saveFluxes <- as_bool (o K_saveFluxes);
    do size <- as_int (o K_estimationImageSize); do zp <- as_real (o K_magZeroPoint);
    let nComponents := List.length (b_funcs b) in
    do r <- Par_Model.FindTotalFluxes N nThreads chunk (map (fun f => implement (c_name (fo_class f))) (b_funcs b)) (b_flags b)
              params (Z.to_nat size) (Z.to_nat size) (repeat (nofZ N 0) nComponents) sched;
    let (totalFlux, fluxes) := r : T * list T in
    do lines <- for_ (S nComponents) (fun n lines =>
        do l <- (if (n =? nComponents)%nat then
                   do l <- flux_line zp (lit "Total") [] totalFlux (nofZ N 1); Ok (NL ++ l)
                 else
                   do f <- get (b_funcs b) n; do thisFlux <- get fluxes n;
                   flux_line zp (c_name (fo_class f)) (fo_label f) thisFlux (ndiv N thisFlux totalFlux));
        Ok (lines ++ [l])) [];
    do out2 <- (if saveFluxes then
                  do name <- as_str (o K_saveFluxesFileName); do cname <- as_str (o K_configFileName);
                  do h1 <- PrintToString (lit "# Fluxes estimated on " ++ timestamp ++ lit " by " ++ c_str progName ++ NL);
                  do h2 <- PrintToString (lit "# Using config file " ++ c_str cname ++ NL);
                  do h3 <- (if negb (neqb N zp NO_MAGNITUDES) then do h <- PrintToString (lit "# (photometric zero point = " ++ g zp ++ lit ")" ++ NL); Ok [h] else Ok []);
                  Ok [PText (c_str name) (h1 :: h2 :: h3 ++ [lit "#" ++ NL; columHeaderLine_for_file] ++ map c_str lines)]
                else Ok []);
    Ok ((if printFluxes then [PPrinted (columHeaderLine :: map c_str lines)] else []) ++ out2).

  (** core/utilities.cpp:121-159 with the default mode: the comments in the headers *)
  Definition PrepareImageComments (o : opts T) : res (list str) :=
    do cname <- as_str (o K_configFileName); do psfPresent <- as_bool (o K_psfImagePresent); do pname <- as_str (o K_psfFileName);
    do a <- PrintToString (lit "Model image generated by " ++ c_str progName);
    do b <- PrintToString (lit "Using config file " ++ c_str cname);
    do c <- (if psfPresent then do c <- PrintToString (lit "Using convolution with PSF image " ++ c_str pname); Ok [c] else Ok []);
    Ok (a :: b :: c).

  (** core/makeimage_main.cpp:305-349: the images of the single functions *)
  Definition single_images (comments : list str) (root : str) (cols rows : Z) (m : Image_Model.model T) (b : built) (params : list T) (st : Image_Model.state T)
    : res (list (product T) * Image_Model.state T) :=
    for_ (List.length (b_funcs b)) (fun i x =>
      let (out, st) := x : list (product T) * Image_Model.state T in
      do r <- Image_Model.GetSingleFunctionImage N r2c c2r m st params i;
      let (pix, st) := r : list T * Image_Model.state T in
      do f <- get (b_funcs b) i;
      let name := c_str (c_name (fo_class f)) in
      do currentFilename <- PrintToString (c_str root ++ dec (S i) ++ lit "_" ++ name ++ lit ".fits");
      do header <- PrintToString (lit "FUNCTION " ++ name);
      do header <- (match fo_label f with
                    | [] => Ok header
                    | l => PrintToString (c_str header ++ lit " # LABEL " ++ c_str l)
                    end);
      do s <- save_image currentFilename cols rows pix (comments ++ [header]);
      Ok (out ++ s, st)) ([], st).

  (** core/makeimage_main.cpp:262-374 *)
  Definition make (o : opts T) (cols rows : Z) (psfSize : Z * Z) (m : Image_Model.model T) (b : built) (params : list T)
    : res (list (product T)) :=
    do printFluxes <- as_bool (o K_printFluxes); do saveFluxes <- as_bool (o K_saveFluxes);
    do saveImage <- as_bool (o K_saveImage); do printImages <- as_bool (o K_printImages);
    do expanded <- as_bool (o K_saveExpandedImage); do all <- as_bool (o K_saveAllFunctions);
    do name <- as_str (o K_outputImageName); do root <- as_str (o K_functionRootName);
    do timing <- as_int (o K_timingIterations);
    let printFluxesOnly := (printFluxes || saveFluxes) && negb saveImage && negb printImages in
    let st := Image_Model.initial N m garbage in
    do x <- (if printFluxesOnly then Ok ([], st)
             else
             do st <- Image_Model.CreateModelImage N r2c c2r m st params;
             do comments <- (if saveImage then PrepareImageComments o else Ok []);
             do out1 <- (if saveImage then
                           do v <- Image_Model.GetModelImageVector m st; save_image name cols rows v comments
                         else Ok []);
             do out2 <- (if saveImage && expanded then
                           save_image (lit "expanded_" ++ name) (cols + 2 * fst psfSize) (rows + 2 * snd psfSize)
                             (Image_Model.st_vec st) comments
                         else Ok []);
             do y <- (if saveImage && all then single_images comments root cols rows m b params st else Ok ([], st));
             Ok (out1 ++ out2 ++ fst y, snd y));
    let (images, st) := x : list (product T) * Image_Model.state T in
    do tables <- (if printFluxes || saveFluxes then DetermineFluxes o b params else Ok []);
    do _ <- for_ (Z.to_nat timing) (fun _ st => Image_Model.CreateModelImage N r2c c2r m st params) st;
    Ok (images ++ tables).

  (** core/makeimage_main.cpp:97-390: the exit status and what was written *)
  Definition makeimage (argv : list str) : res (Z * list (product T)) :=
    do x <- options_of T strtod dbl cores Makeimage argv;
    match x with
    | Exit z => Ok (z, [])
    | Run o =>
      do cname <- as_str (o K_configFileName);
      if negb (FileExists (c_str cname)) then Ok ((-1)%Z, [])
      else
      match ReadConfig cname with
      | None => Ok ((-1)%Z, [])
      | Some (cfg, po) =>
        do y <- HandleConfigFileOptions_makeimage strtod cfg o;
        match y with
        | Exit z => Ok (z, [])
        | Run o =>
          do s <- image_size GetImageSize o;
          match s with
          | End_ z => Ok (z, [])
          | Size cols rows =>
            do psfPresent <- as_bool (o K_psfImagePresent); do pname <- as_str (o K_psfFileName);
            let psf := if psfPresent then GetPsfImage ReadImage pname else None in
            if psfPresent && match psf with None => true | Some _ => false end then Ok ((-1)%Z, [])
            else
            do over <- as_bool (o K_psfOversampling); do overImage <- as_bool (o K_psfOversampledImagePresent);
            do infos <- (if over && overImage then GetOversampledPsfInfo ReadImage o (0, 0)%Z else Ok (Some []));
            match infos with
            | None => Ok ((-1)%Z, [])
            | Some infos =>
              do r <- SetupModelObject o cols rows psf infos;
              match r with
              | inl z => Ok (z, [])
              | inr (m, local) =>
                do a <- AddFunctions (option_map (fun p => (Z.of_nat (snd (fst p)), Z.of_nat (snd p))) local)
                          (o_names po) (o_labels po) (o_starts po) (o_opt po);
                match a with
                | (status, Some b) =>
                  if (status <? 0)%Z then Ok ((-1)%Z, [])
                  else if negb (b_nParamsTot b =? List.length (o_params po))%nat then Ok ((-1)%Z, [])
                  else
                  do m <- add_functions m local b;
                  do out <- make o cols rows (match psf with Some (c, r, _) => (Z.of_nat c, Z.of_nat r) | None => junk end)
                              m b (o_params po);
                  Ok (0%Z, out)
                | (_, None) => Ok ((-1)%Z, [])
                end
              end
            end
          end
        end
      end
    end.
End Make.
Arguments save_image {T}. Arguments add_regions {T}. Arguments SetupModelObject {T}. Arguments add_functions {T}.
Arguments NO_MAGNITUDES {T}. Arguments flux_line {T}. Arguments DetermineFluxes {T}. Arguments PrepareImageComments {T}. Arguments single_images {T}.
Arguments make {T}. Arguments makeimage {T}.
