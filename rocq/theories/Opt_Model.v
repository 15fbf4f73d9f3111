(** Model of the command-line handling of the five programs: ProcessInput of
    core/imfit_main.cpp, mcmc_main.cpp, makeimage_main.cpp, multimfit_main.cpp and
    makemultimages_main.cpp, the option classes core/options_*.h, NotANumber of
    core/utilities.cpp and HandleConfigFileOptions. Definitions only. Printing and
    the usage texts are left out. The builds modelled are those with NLopt and
    without USE_LOGGING. *)
From Verif Require Export CmdLine_Model CmdLine_Spec.
Local Open Scope list_scope.

(** The data members of the option classes that ProcessInput can set
    (core/options_base.h:84-143, options_imfit.h:64-92, options_mcmc.h:84-111,
    options_makeimage.h:55-82, options_multimfit.h:58-90,
    options_makemultimages.h:68-100). A member of a base class that a derived class
    declares again (MCMCOptions::noImage and imageFileName) is one member here: only
    the derived one is read. *)
Inductive key :=
  | K_noConfigFile | K_configFileName | K_noImage | K_imageFileName | K_psfImagePresent
  | K_psfFileName | K_normalizePSF | K_psfOversampling | K_psfOversampledImagePresent
  | K_psfOversampledFileNames | K_psfOversamplingScales | K_oversampleRegionSet
  | K_nOversampleRegions | K_psfOversampleRegions | K_noiseImagePresent | K_noiseFileName
  | K_errorType | K_maskImagePresent | K_maskFileName | K_maskFormat | K_subsamplingFlag
  | K_gainSet | K_gain | K_readNoiseSet | K_readNoise | K_expTimeSet | K_expTime
  | K_nCombinedSet | K_nCombined | K_originalSkySet | K_originalSky | K_printFitStatisticOnly
  | K_solver | K_useModelForErrors | K_useCashStatistic | K_usePoissonMLR | K_maxThreads
  | K_maxThreadsSet | K_rngSeed | K_debugLevel | K_verbose | K_loggingOn
  (* ImfitOptions *)
  | K_saveModel | K_outputModelFileName | K_saveResidualImage | K_outputResidualFileName
  | K_saveWeightImage | K_outputWeightFileName | K_saveBestFitParams
  | K_outputParameterFileName | K_ftolSet | K_ftol | K_nloptSolverName | K_useLHS
  | K_printImages | K_doBootstrap | K_bootstrapIterations | K_saveBootstrap
  | K_outputBootstrapFileName
  (* MCMCOptions *)
  | K_appendToOutput | K_outputFileRoot | K_nChains | K_maxEvals | K_nBurnIn | K_nGelmanEvals
  | K_GRScaleReductionLimit | K_mcmcNoise | K_mcmc_bstar
  (* MakeimageOptions *)
  | K_noOutputImageName | K_outputImageName | K_functionRootName | K_noRefImage
  | K_referenceImageName | K_noImageDimensions | K_nColumnsSet | K_nRowsSet | K_nColumns
  | K_nRows | K_magZeroPoint | K_saveImage | K_saveExpandedImage | K_saveAllFunctions
  | K_printFluxes | K_estimationImageSize | K_saveFluxes | K_saveFluxesFileName
  | K_timingIterations
  (* MultimfitOptions, MakeMultimagesOptions *)
  | K_imageInfoFile | K_imageInfoFile_exists | K_outputParameterRootName.
Scheme Boolean Equality for key.

(** a member's value; [VUninit]: the constructors leave the member uninitialised *)
Inductive val (T : Type) :=
| VB (b : bool) | VZ (z : Z) | VR (x : T) | VS (s : str) | VSs (l : list str) | VZs (l : list Z) | VUninit.
Arguments VB {T}. Arguments VZ {T}. Arguments VR {T}. Arguments VS {T}. Arguments VSs {T}.
Arguments VZs {T}. Arguments VUninit {T}.

(** core/utilities_pub.h: the restrictions of NotANumber *)
Inductive restriction := kAnyInt | kNonzeroInt | kPosInt | kAnyReal | kPosReal.

(** C library [isdigit]: undefined for a negative [char] (here: a character above 127) *)
Definition isdigit (c : ascii) : res bool :=
  if (nat_of_ascii c <? 128)%nat then Ok (is_digit c) else Undef.

(** core/utilities.cpp:564-611; the string from position [index] on. The end of the
    string is the NUL character. *)
Fixpoint NotANumber (s : str) (r : restriction) : res bool :=
  match s with
  | [] => Ok true
  | c :: t =>
      match r with
      | kAnyInt => if ch_eqb c dash then NotANumber t kAnyInt
                   else do d <- isdigit c; Ok (negb d)
      | kNonzeroInt => if ch_eqb c dash then Ok false else do d <- isdigit c; Ok (negb d)
      | kPosInt => do d <- isdigit c; Ok (negb (d && negb (ch_eqb c (ascii_of_nat 48))))
      | kAnyReal => if ch_eqb c dash then NotANumber t kAnyReal
                    else if ch_eqb c (ascii_of_nat 46) then NotANumber t kAnyInt
                    else do d <- isdigit c; Ok (negb d)
      | kPosReal => if ch_eqb c dash then Ok true
                    else if ch_eqb c (ascii_of_nat 46) then NotANumber t kAnyInt
                    else do d <- isdigit c; Ok (negb d)
      end
  end.

(** C library [atol] (undefined when the value does not fit in [long]), and its
    result stored in an [int] (which keeps the low 32 bits) or in an
    [unsigned long] *)
Definition atol (s : str) : res Z :=
  let s1 := skip_spaces s in
  let v := match s1 with
           | c :: t => if ch_eqb c (ascii_of_nat 45) then (- read_digits t 0)%Z
                       else if ch_eqb c (ascii_of_nat 43) then read_digits t 0
                       else read_digits s1 0
           | [] => 0%Z
           end in
  if ((- 2 ^ 63 <=? v) && (v <? 2 ^ 63))%Z then Ok v else Undef.
Definition to_int (z : Z) : Z := ((z + 2 ^ 31) mod 2 ^ 32 - 2 ^ 31)%Z.
Definition to_ulong (z : Z) : Z := (z mod 2 ^ 64)%Z.

(** solvers/nlopt_fit.cpp:89-110 *)
Definition ValidNLOptSolverName (s : str) : bool :=
  existsb (str_eqb s) (map lit ["COBYLA"; "BOBYQA"; "NEWUOA"; "PRAXIS"; "NM"; "SBPLX"]%string).

(** core/imfit_main.cpp, core/mcmc_main.cpp, core/makeimage_main.cpp,
    core/multimfit_main.cpp, core/makemultimages_main.cpp *)
Inductive program := Imfit | Mcmc | Makeimage | Multimfit | Makemultimages.

Inductive conv := Atoi | AtolInt | AtolUlong | Strtod.

Section Options.
  Variable T : Type.
  (** [strtod text]: the C library's reading of a decimal number ([atof] is the same
      function). [dbl text]: the double that the compiler makes of a literal. *)
  Variable strtod : str -> T.
  Variable dbl : string -> T.
  (** core/count_cpu_cores.cpp GetPhysicalCoreCount, the default of maxThreads *)
  Variable cores : Z.

  Definition opts := key -> val T.
  Definition put (o : opts) (k : key) (v : val T) : opts := fun k' => if key_beq k' k then v else o k'.
  Definition puts (o : opts) (a : list (key * val T)) : opts :=
    fold_left (fun o kv => put o (fst kv) (snd kv)) a o.

  (** exit(code), or go on with these options *)
  Inductive outcome := Exit (code : Z) | Run (o : opts).

  Definition convert (c : conv) (s : str) : res (val T) :=
    match c with
    | Atoi => do z <- atoi (c_str s); Ok (VZ z)
    | AtolInt => do z <- atol (c_str s); Ok (VZ (to_int z))
    | AtolUlong => do z <- atol (c_str s); Ok (VZ (to_ulong z))
    | Strtod => Ok (VR (strtod (c_str s)))
    end.

  (** One [if] statement of ProcessInput:
      [SExit n e]       if (FlagSet(n) [|| CommandLineEmpty()]) exit(1);
      [SFlag ns a]      if (FlagSet(n) || ...) { assignments a }
      [SArg k a]        if (nArguments() > 0) { k = GetArgument(0); a }
      [SText n k a]     if (OptionSet(n)) { k = GetTargetString(n); a }
      [SName n k a]     the same, and exit(1) unless the text is an NLopt solver's name
      [SNum n r c k a]  if (OptionSet(n)) { if (NotANumber(GetTargetString(n), 0, r)) exit(1);
                                            k = c(GetTargetString(n)); a }
      [STexts n k cnt a] if (OptionSet(n)) { a; for each target: k.push_back(target), ++cnt }
      [SNums n r c k]   if (OptionSet(n)) for each target: check, convert, k.push_back
      [SDims]           if (nColumns && nRows) noImageDimensions = false *)
  Inductive step :=
  | SExit (n : str) (orEmpty : bool)
  | SFlag (ns : list str) (a : list (key * val T))
  | SArg (k : key) (a : list (key * val T))
  | SText (n : str) (k : key) (a : list (key * val T))
  | SName (n : str) (k : key) (a : list (key * val T))
  | SNum (n : str) (r : restriction) (c : conv) (k : key) (a : list (key * val T))
  | STexts (n : str) (k : key) (cnt : option key) (a : list (key * val T))
  | SNums (n : str) (r : restriction) (c : conv) (k : key)
  | SDims.

  Definition any_flag (p : clp) (ns : list str) : res bool :=
    fold_left (fun b n => do b <- b; do f <- FlagSet p n; Ok (b || f)) ns (Ok false).

  (** the content of a member of type vector<string>, vector<int>, int; a member
      never holds a value of another type *)
  Definition strs (v : val T) : list str := match v with VSs l => l | _ => [] end.
  Definition ints (v : val T) : list Z := match v with VZs l => l | _ => [] end.
  Definition int_of (v : val T) : Z := match v with VZ z => z | _ => 0%Z end.
  Definition push_str (o : opts) (k : key) (s : str) : opts := put o k (VSs (strs (o k) ++ [s])).
  Definition push_int (o : opts) (k : key) (v : val T) : opts := put o k (VZs (ints (o k) ++ [int_of v])).
  Definition incr (o : opts) (k : option key) : opts :=
    match k with None => o | Some k => put o k (VZ (int_of (o k) + 1)) end.
  Definition as_int (v : val T) : res Z := match v with VZ z => Ok z | _ => Undef end.

  Definition run_step (p : clp) (st : step) (o : opts) : res outcome :=
    match st with
    | SExit n e =>
        do b <- FlagSet p n;
        if b || (e && cl_empty p) then Ok (Exit 1) else Ok (Run o)
    | SFlag ns a =>
        do b <- any_flag p ns;
        if b then Ok (Run (puts o a)) else Ok (Run o)
    | SArg k a =>
        if (0 <? nArguments p)%nat then do s <- GetArgument p 0; Ok (Run (puts (put o k (VS s)) a))
        else Ok (Run o)
    | SText n k a =>
        do b <- OptionSet p n;
        if b then do s <- GetTargetString p n 0; Ok (Run (puts (put o k (VS s)) a))
        else Ok (Run o)
    | SName n k a =>
        do b <- OptionSet p n;
        if b then
          do s <- GetTargetString p n 0;
          if ValidNLOptSolverName s then Ok (Run (puts (put o k (VS s)) a)) else Ok (Exit 1)
        else Ok (Run o)
    | SNum n r c k a =>
        do b <- OptionSet p n;
        if b then
          do s <- GetTargetString p n 0;
          do bad <- NotANumber s r;
          if bad then Ok (Exit 1)
          else do v <- convert c s; Ok (Run (puts (put o k v) a))
        else Ok (Run o)
    | STexts n k cnt a =>
        do b <- OptionSet p n;
        if b then
          do m <- GetNTargets p n;
          do o <- for_ m (fun i o =>
            do s <- GetTargetString p n i; Ok (incr (push_str o k s) cnt)) (puts o a);
          Ok (Run o)
        else Ok (Run o)
    | SNums n r c k =>
        do b <- OptionSet p n;
        if b then
          do m <- GetNTargets p n;
          for_ m (fun i x =>
            match x with
            | Exit z => Ok (Exit z)
            | Run o =>
                do s <- GetTargetString p n i;
                do bad <- NotANumber s r;
                if bad then Ok (Exit 1) else do v <- convert c s; Ok (Run (push_int o k v))
            end) (Run o)
        else Ok (Run o)
    | SDims =>
        do nc <- as_int (o K_nColumns); do nr <- as_int (o K_nRows);
        if negb (nc =? 0)%Z && negb (nr =? 0)%Z then Ok (Run (put o K_noImageDimensions (VB false)))
        else Ok (Run o)
    end.

  Fixpoint run_steps (p : clp) (sts : list step) (o : opts) : res outcome :=
    match sts with
    | [] => Ok (Run o)
    | st :: t => do x <- run_step p st o; match x with Exit z => Ok (Exit z) | Run o => run_steps p t o end
    end.

  (** ProcessInput: the registrations, ParseCommandLine with unrecognised options as
      errors, then the [if] statements in order. imfit_main.cpp:605-662 *)
  Definition flag1 (n : string) : reg := mkReg true false [lit n].
  Definition flag2 (n s : string) : reg := mkReg true false [lit n; lit s].
  Definition option1 (n : string) : reg := mkReg false false [lit n].
  Definition option2 (n s : string) : reg := mkReg false false [lit n; lit s].
  Definition queue1 (n : string) : reg := mkReg false true [lit n].
  Definition add_all (regs : list reg) (p : clp) : clp :=
    fold_left (fun p r => AddObj (rg_flag r) (rg_queue r) (rg_names r) p) regs p.

  Definition ProcessInput (regs : list reg) (sts : list step) (o : opts) (argv : list str) : res outcome :=
    do r <- ParseCommandLine argv (UnrecognizedAreErrors (add_all regs newParser));
    if (fst r <? 0)%Z then Ok (Exit 1) else run_steps (snd r) sts o.

  (** definitions.h:66-79 *)
  Definition MPFIT_SOLVER := 1%Z.
  Definition DIFF_EVOLN_SOLVER := 2%Z.
  Definition NMSIMPLEX_SOLVER := 3%Z.
  Definition GENERIC_NLOPT_SOLVER := 5%Z.
  Definition WEIGHTS_ARE_SIGMAS := 100%Z.
  Definition WEIGHTS_ARE_VARIANCES := 110%Z.
  Definition WEIGHTS_ARE_WEIGHTS := 120%Z.
  Definition MASK_ZERO_IS_GOOD := 10%Z.
  Definition MASK_ZERO_IS_BAD := 20%Z.

  Local Open Scope string_scope.
  Local Open Scope list_scope.
  Notation "'flag:' n" := (SFlag [lit n]) (at level 9).
  Definition on (k : key) : list (key * val T) := [(k, VB true)].
  Definition off (k : key) : list (key * val T) := [(k, VB false)].
  Definition text_ (s : string) : val T := VS (lit s).

  (** options_base.h:31-81, constructor of OptionsBase; members without an initialiser
      there: configFileName (a std::string: empty), the vectors (empty) and the three
      statistic switches (bool: uninitialised) *)
  Definition base_defaults : opts := fun k =>
    match k with
    | K_noConfigFile | K_noImage => VB true
    | K_configFileName | K_imageFileName | K_psfFileName | K_noiseFileName | K_maskFileName => text_ ""
    | K_psfImagePresent | K_psfOversampling | K_psfOversampledImagePresent | K_oversampleRegionSet
    | K_noiseImagePresent | K_maskImagePresent | K_gainSet | K_readNoiseSet | K_expTimeSet
    | K_nCombinedSet | K_originalSkySet | K_printFitStatisticOnly | K_maxThreadsSet | K_loggingOn => VB false
    | K_normalizePSF | K_subsamplingFlag => VB true
    | K_psfOversampledFileNames | K_psfOversampleRegions => VSs []
    | K_psfOversamplingScales => VZs []
    | K_nOversampleRegions | K_rngSeed | K_maxThreads | K_debugLevel => VZ 0
    | K_errorType => VZ WEIGHTS_ARE_SIGMAS
    | K_maskFormat => VZ MASK_ZERO_IS_GOOD
    | K_gain | K_expTime => VR (dbl "1.0")
    | K_readNoise | K_originalSky => VR (dbl "0.0")
    | K_nCombined | K_verbose => VZ 1
    | K_solver => VZ MPFIT_SOLVER
    | _ => VUninit
    end.

  (** every main: options->maxThreads = GetPhysicalCoreCount(); maxThreadsSet = true
      (imfit_main.cpp:170-171, mcmc_main.cpp:160-161, makeimage_main.cpp:127-128,
      multimfit_main.cpp:192-193, makemultimages_main.cpp:136-137) *)
  Definition with_cores (o : opts) : opts := puts o [(K_maxThreads, VZ cores); (K_maxThreadsSet, VB true)].

  (** options_imfit.h:22-58 *)
  Definition imfit_defaults : opts := with_cores (puts base_defaults [
    (K_configFileName, text_ "imfit_config.dat");
    (K_saveModel, VB false); (K_outputModelFileName, text_ "");
    (K_saveResidualImage, VB false); (K_outputResidualFileName, text_ "");
    (K_saveWeightImage, VB false); (K_outputWeightFileName, text_ "");
    (K_saveBestFitParams, VB true); (K_outputParameterFileName, text_ "bestfit_parameters_imfit.dat");
    (K_useModelForErrors, VB false); (K_useCashStatistic, VB false); (K_usePoissonMLR, VB false);
    (K_ftolSet, VB false); (K_ftol, VR (dbl "1.0e-8")); (K_nloptSolverName, text_ "NM"); (K_useLHS, VB false);
    (K_printImages, VB false); (K_doBootstrap, VB false); (K_bootstrapIterations, VZ 0);
    (K_saveBootstrap, VB false); (K_outputBootstrapFileName, text_ "")]).

  (** options_mcmc.h:22-81 *)
  Definition mcmc_defaults : opts := with_cores (puts base_defaults [
    (K_configFileName, text_ "imfit_config.dat");
    (K_noImage, VB true); (K_imageFileName, text_ "");
    (K_psfImagePresent, VB false); (K_psfFileName, text_ ""); (K_psfOversampledImagePresent, VB false);
    (K_oversampleRegionSet, VB false); (K_nOversampleRegions, VZ 0);
    (K_noiseImagePresent, VB false); (K_noiseFileName, text_ ""); (K_errorType, VZ WEIGHTS_ARE_SIGMAS);
    (K_maskImagePresent, VB false); (K_maskFileName, text_ ""); (K_maskFormat, VZ MASK_ZERO_IS_GOOD);
    (K_subsamplingFlag, VB true); (K_saveModel, VB false); (K_saveResidualImage, VB false);
    (K_gainSet, VB false); (K_gain, VR (dbl "1.0")); (K_readNoiseSet, VB false); (K_readNoise, VR (dbl "0.0"));
    (K_expTimeSet, VB false); (K_expTime, VR (dbl "1.0")); (K_nCombinedSet, VB false); (K_nCombined, VZ 1);
    (K_originalSkySet, VB false); (K_originalSky, VR (dbl "0.0"));
    (K_useModelForErrors, VB false); (K_useCashStatistic, VB false); (K_usePoissonMLR, VB false);
    (K_appendToOutput, VB false); (K_outputFileRoot, text_ "mcmc_out"); (K_nChains, VZ (-1));
    (K_maxEvals, VZ 100000); (K_nBurnIn, VZ 5000); (K_nGelmanEvals, VZ 5000);
    (K_GRScaleReductionLimit, VR (dbl "1.01")); (K_mcmcNoise, VR (dbl "0.01")); (K_mcmc_bstar, VR (dbl "1.0e-6"))]).

  (** options_makeimage.h:22-52 *)
  Definition makeimage_defaults : opts := with_cores (puts base_defaults [
    (K_configFileName, text_ ""); (K_noOutputImageName, VB true); (K_outputImageName, text_ "modelimage.fits");
    (K_functionRootName, text_ ""); (K_noRefImage, VB true); (K_referenceImageName, text_ "");
    (K_noImageDimensions, VB true); (K_nColumnsSet, VB false); (K_nRowsSet, VB false);
    (K_nColumns, VZ 0); (K_nRows, VZ 0); (K_magZeroPoint, VR (dbl "-10000.0"));
    (K_printImages, VB false); (K_saveImage, VB true); (K_saveExpandedImage, VB false);
    (K_saveAllFunctions, VB false); (K_printFluxes, VB false); (K_estimationImageSize, VZ 5000);
    (K_saveFluxes, VB false); (K_saveFluxesFileName, text_ ""); (K_timingIterations, VZ 0)]).

  (** options_multimfit.h:22-55. The constructor initialises neither
      useModelForErrors nor useCashStatistic nor usePoissonMLR. *)
  Definition multimfit_defaults : opts := with_cores (puts base_defaults [
    (K_configFileName, text_ "imfit_config.dat");
    (K_saveModel, VB false); (K_outputModelFileName, text_ "");
    (K_saveResidualImage, VB false); (K_outputResidualFileName, text_ "");
    (K_saveWeightImage, VB false); (K_outputWeightFileName, text_ "");
    (K_saveBestFitParams, VB true); (K_outputParameterFileName, text_ "bestfit_parameters_imfit.dat");
    (K_outputParameterRootName, text_ "bestfit_parameters_multimfit");
    (K_imageInfoFile_exists, VB false); (K_imageInfoFile, text_ "");
    (K_ftolSet, VB false); (K_ftol, VR (dbl "1.0e-8")); (K_nloptSolverName, text_ "NM");
    (K_printImages, VB false); (K_doBootstrap, VB false); (K_bootstrapIterations, VZ 0);
    (K_saveBootstrap, VB false); (K_outputBootstrapFileName, text_ ""); (K_loggingOn, VB false)]).

  (** options_makemultimages.h:23-66; note that the constructor sets maxThreads and
      maxThreadsSet, before the main program sets them again. imageInfoFile is a
      std::string without initialiser: empty. *)
  Definition makemultimages_defaults : opts := with_cores (puts base_defaults [
    (K_noConfigFile, VB true); (K_configFileName, text_ "");
    (K_noOutputImageName, VB true); (K_outputImageName, text_ "modelimage_multi");
    (K_functionRootName, text_ ""); (K_noRefImage, VB true); (K_referenceImageName, text_ "");
    (K_subsamplingFlag, VB true); (K_noImageDimensions, VB true); (K_nColumnsSet, VB false);
    (K_nRowsSet, VB false); (K_nColumns, VZ 0); (K_nRows, VZ 0);
    (K_psfImagePresent, VB false); (K_psfFileName, text_ ""); (K_psfOversampledImagePresent, VB false);
    (K_oversampleRegionSet, VB false); (K_nOversampleRegions, VZ 0); (K_magZeroPoint, VR (dbl "-10000.0"));
    (K_printImages, VB false); (K_saveImage, VB true); (K_saveExpandedImage, VB false);
    (K_saveAllFunctions, VB false); (K_printFluxes, VB false); (K_estimationImageSize, VZ 5000);
    (K_timingIterations, VZ 0); (K_maxThreadsSet, VB false); (K_maxThreads, VZ 0);
    (K_imageInfoFile_exists, VB false); (K_imageInfoFile, text_ "")]).

  (** the statements that imfit (I), mcmc (C) and makeimage (M) have in common, each
      written once: help and version I:675-703 C:618-646 M:499-527 *)
  Definition info_steps : list step := [
    SExit (lit "help") true; SExit (lit "version") false; SExit (lit "list-functions") false;
    SExit (lit "list-parameters") false; SExit (lit "sample-config") false ].
  (** I:712-724 C:648-660 (also multimfit:1034-1046) *)
  Definition statistic_steps : list step := [
    flag: "model-errors" (on K_useModelForErrors);
    flag: "cashstat" (on K_useCashStatistic);
    SFlag [lit "poisson-mlr"; lit "mlr"] (on K_usePoissonMLR) ].
  (** I:760-777 C:667-684 (also multimfit:1075-1096) *)
  Definition verbosity_steps : list step := [
    flag: "silent" [(K_verbose, VZ (-1))]; flag: "quiet" [(K_verbose, VZ 0)]; flag: "loud" [(K_verbose, VZ 2)] ].
  Definition image_type_steps : list step := [
    flag: "errors-are-variances" [(K_errorType, VZ WEIGHTS_ARE_VARIANCES)];
    flag: "errors-are-weights" [(K_errorType, VZ WEIGHTS_ARE_WEIGHTS)];
    flag: "mask-zero-is-bad" [(K_maskFormat, VZ MASK_ZERO_IS_BAD)] ].
  (** I:793-831 C:700-738 M:553-587 *)
  Definition oversampling_steps : list step := [
    STexts (lit "overpsf") K_psfOversampledFileNames None
      [(K_psfOversampling, VB true); (K_psfOversampledImagePresent, VB true)];
    SNums (lit "overpsf_scale") kPosInt Atoi K_psfOversamplingScales;
    STexts (lit "overpsf_region") K_psfOversampleRegions (Some K_nOversampleRegions) (on K_oversampleRegionSet) ].
  (** I:858-907 C:745-794 *)
  Definition noise_steps : list step := [
    SNum (lit "sky") kAnyReal Strtod K_originalSky (on K_originalSkySet);
    SNum (lit "gain") kPosReal Strtod K_gain (on K_gainSet);
    SNum (lit "readnoise") kPosReal Strtod K_readNoise (on K_readNoiseSet);
    SNum (lit "exptime") kPosReal Strtod K_expTime (on K_expTimeSet);
    SNum (lit "ncombined") kPosInt Atoi K_nCombined (on K_nCombinedSet) ].
  (** I:926-941 C:857-872 *)
  Definition threads_step : step := SNum (lit "max-threads") kPosInt AtolInt K_maxThreads (on K_maxThreadsSet).
  Definition seed_step : step := SNum (lit "seed") kPosInt AtolUlong K_rngSeed [].

  (** imfit_main.cpp:605-651 *)
  Definition imfit_regs : list reg := [
    flag2 "help" "h"; flag2 "version" "v"; flag1 "list-functions"; flag1 "list-parameters";
    flag1 "sample-config"; flag1 "printimage"; flag1 "chisquare-only"; flag1 "fitstat-only";
    flag1 "errors-are-variances"; flag1 "errors-are-weights"; flag1 "mask-zero-is-bad";
    flag1 "no-normalize"; flag1 "no-subsampling"; flag1 "model-errors"; flag1 "cashstat";
    flag1 "poisson-mlr"; flag1 "mlr"; flag1 "nm"; option1 "nlopt"; flag1 "de"; flag1 "de-lhs";
    flag1 "quiet"; flag1 "silent"; flag1 "loud"; option1 "noise"; option1 "mask"; option1 "psf";
    queue1 "overpsf"; queue1 "overpsf_scale"; queue1 "overpsf_region"; option1 "save-params";
    option1 "save-model"; option1 "save-residual"; option1 "save-weights"; option1 "sky"; option1 "gain";
    option1 "readnoise"; option1 "exptime"; option1 "ncombined"; option1 "ftol"; option1 "bootstrap";
    option1 "save-bootstrap"; option2 "config" "c"; option1 "max-threads"; option1 "seed" ].
  (** imfit_main.cpp:666-942 *)
  Definition imfit_steps : list step :=
    [ SArg K_imageFileName (off K_noImage) ] ++ info_steps ++
    [ flag: "printimage" (on K_printImages);
      flag: "chisquare-only" (on K_printFitStatisticOnly);
      flag: "fitstat-only" (on K_printFitStatisticOnly) ] ++ statistic_steps ++
    [ flag: "nm" [(K_solver, VZ NMSIMPLEX_SOLVER)];
      SName (lit "nlopt") K_nloptSolverName [(K_solver, VZ GENERIC_NLOPT_SOLVER)];
      flag: "de" [(K_solver, VZ DIFF_EVOLN_SOLVER)];
      flag: "de-lhs" [(K_solver, VZ DIFF_EVOLN_SOLVER); (K_useLHS, VB true)];
      flag: "no-normalize" (off K_normalizePSF);
      flag: "no-subsampling" (off K_subsamplingFlag) ] ++ verbosity_steps ++ image_type_steps ++
    [ SText (lit "config") K_configFileName [];
      SText (lit "noise") K_noiseFileName (on K_noiseImagePresent);
      SText (lit "psf") K_psfFileName (on K_psfImagePresent) ] ++ oversampling_steps ++
    [ SText (lit "mask") K_maskFileName (on K_maskImagePresent);
      SText (lit "save-model") K_outputModelFileName (on K_saveModel);
      SText (lit "save-residual") K_outputResidualFileName (on K_saveResidualImage);
      SText (lit "save-weights") K_outputWeightFileName (on K_saveWeightImage);
      SText (lit "save-params") K_outputParameterFileName (on K_saveBestFitParams) ] ++ noise_steps ++
    [ SNum (lit "ftol") kPosReal Strtod K_ftol (on K_ftolSet);
      SNum (lit "bootstrap") kPosInt AtolInt K_bootstrapIterations (on K_doBootstrap);
      SText (lit "save-bootstrap") K_outputBootstrapFileName (on K_saveBootstrap);
      threads_step; seed_step ].

  (** mcmc_main.cpp:555-594 and 609-872 *)
  Definition mcmc_regs : list reg := [
    flag2 "help" "h"; flag2 "version" "v"; flag1 "list-functions"; flag1 "list-parameters";
    flag1 "sample-config"; flag1 "errors-are-variances"; flag1 "errors-are-weights";
    flag1 "mask-zero-is-bad"; flag1 "no-normalize"; flag1 "no-subsampling"; flag1 "model-errors";
    flag1 "cashstat"; flag1 "poisson-mlr"; flag1 "mlr"; flag1 "quiet"; flag1 "silent"; flag1 "loud";
    option1 "noise"; option1 "mask"; option1 "psf"; queue1 "overpsf"; queue1 "overpsf_scale";
    queue1 "overpsf_region"; option1 "sky"; option1 "gain"; option1 "readnoise"; option1 "exptime";
    option1 "ncombined"; option2 "config" "c"; option2 "output" "o"; flag1 "append"; option1 "nchains";
    option1 "max-chain-length"; option1 "burnin-length"; option1 "gelman-evals";
    option1 "gelman-rubin-limit"; option1 "uniform-offset"; option1 "gaussian-offset";
    option1 "max-threads"; option1 "seed" ].
  Definition mcmc_steps : list step :=
    [ SArg K_imageFileName (off K_noImage) ] ++ info_steps ++ statistic_steps ++
    [ flag: "no-normalize" (off K_normalizePSF);
      flag: "no-subsampling" (off K_subsamplingFlag) ] ++ verbosity_steps ++ image_type_steps ++
    [ SText (lit "config") K_configFileName [];
      SText (lit "noise") K_noiseFileName (on K_noiseImagePresent);
      SText (lit "psf") K_psfFileName (on K_psfImagePresent) ] ++ oversampling_steps ++
    [ SText (lit "mask") K_maskFileName (on K_maskImagePresent) ] ++ noise_steps ++
    [ SText (lit "output") K_outputFileRoot [];
      flag: "append" (on K_appendToOutput);
      SNum (lit "nchains") kPosInt AtolInt K_nChains [];
      SNum (lit "max-chain-length") kPosInt AtolInt K_maxEvals [];
      SNum (lit "burnin-length") kPosInt AtolInt K_nBurnIn [];
      SNum (lit "gelman-evals") kPosInt AtolInt K_nGelmanEvals [];
      SNum (lit "gelman-rubin-limit") kPosReal Strtod K_GRScaleReductionLimit [];
      SNum (lit "uniform-offset") kPosReal Strtod K_mcmcNoise [];
      SNum (lit "gaussian-offset") kPosReal Strtod K_mcmc_bstar [];
      threads_step; seed_step ].

  (** makeimage_main.cpp:449-477 and 491-669 *)
  Definition makeimage_regs : list reg := [
    flag2 "help" "h"; flag2 "version" "v"; flag1 "list-functions"; flag1 "list-parameters";
    flag1 "sample-config"; flag1 "printimage"; flag1 "save-expanded"; flag1 "no-normalize";
    flag1 "no-subsampling"; flag1 "print-fluxes"; flag1 "nosave"; option2 "output" "o"; option1 "ncols";
    option1 "nrows"; option1 "refimage"; option1 "psf"; queue1 "overpsf"; queue1 "overpsf_scale";
    queue1 "overpsf_region"; option1 "zero-point"; option1 "estimation-size"; option1 "save-fluxes";
    option1 "output-functions"; option1 "timing"; option1 "max-threads"; option1 "debug" ].
  Definition makeimage_steps : list step :=
    [ SArg K_configFileName (off K_noConfigFile) ] ++ info_steps ++
    [ flag: "printimage" (on K_printImages);
      flag: "save-expanded" (on K_saveExpandedImage);
      flag: "no-normalize" (off K_normalizePSF);
      flag: "no-subsampling" (off K_subsamplingFlag);
      flag: "nosave" (off K_saveImage);
      flag: "print-fluxes" [(K_printFluxes, VB true); (K_saveImage, VB false)];
      SText (lit "output") K_outputImageName (off K_noOutputImageName);
      SText (lit "refimage") K_referenceImageName (off K_noRefImage);
      SText (lit "psf") K_psfFileName (on K_psfImagePresent) ] ++ oversampling_steps ++
    [ SNum (lit "ncols") kPosInt AtolInt K_nColumns (on K_nColumnsSet);
      SNum (lit "nrows") kPosInt AtolInt K_nRows (on K_nRowsSet);
      SNum (lit "zero-point") kAnyReal Strtod K_magZeroPoint [];
      SNum (lit "estimation-size") kPosInt AtolInt K_estimationImageSize [];
      SText (lit "save-fluxes") K_saveFluxesFileName (on K_saveFluxes);
      SText (lit "output-functions") K_functionRootName (on K_saveAllFunctions);
      SNum (lit "timing") kPosInt AtolInt K_timingIterations (off K_saveImage);
      threads_step;
      SNum (lit "debug") kAnyInt AtolInt K_debugLevel [];
      SDims ].

  (** multimfit_main.cpp:941-976 and 991-1165 *)
  Definition multimfit_regs : list reg := [
    flag2 "help" "h"; flag2 "version" "v"; flag1 "list-functions"; flag1 "list-parameters";
    flag1 "sample-config"; flag1 "printimage"; flag1 "chisquare-only"; flag1 "fitstat-only";
    flag1 "errors-are-variances"; flag1 "errors-are-weights"; flag1 "mask-zero-is-bad";
    flag1 "nosubsampling"; flag1 "model-errors"; flag1 "cashstat"; flag1 "poisson-mlr"; flag1 "mlr";
    flag1 "nm"; option1 "nlopt"; flag1 "de"; flag1 "quiet"; flag1 "silent"; flag1 "loud"; flag1 "logging";
    option1 "save-params-root"; option1 "save-model"; option1 "save-residual"; option1 "save-weights";
    option1 "ftol"; option1 "bootstrap"; option1 "save-bootstrap"; option2 "config" "c";
    option2 "image-info" "i"; option1 "max-threads"; option1 "seed" ].
  Definition multimfit_steps : list step :=
    info_steps ++
    [ flag: "printimage" (on K_printImages);
      flag: "chisquare-only" (on K_printFitStatisticOnly);
      flag: "fitstat-only" (on K_printFitStatisticOnly) ] ++ statistic_steps ++
    [ flag: "nm" [(K_solver, VZ NMSIMPLEX_SOLVER)];
      SName (lit "nlopt") K_nloptSolverName [(K_solver, VZ GENERIC_NLOPT_SOLVER)];
      flag: "de" [(K_solver, VZ DIFF_EVOLN_SOLVER)];
      flag: "nosubsampling" (off K_subsamplingFlag) ] ++ verbosity_steps ++
    [ flag: "logging" (on K_loggingOn) ] ++ image_type_steps ++
    [ SText (lit "config") K_configFileName [];
      SText (lit "image-info") K_imageInfoFile (on K_imageInfoFile_exists);
      SText (lit "save-model") K_outputModelFileName (on K_saveModel);
      SText (lit "save-residual") K_outputResidualFileName (on K_saveResidualImage);
      SText (lit "save-weights") K_outputWeightFileName (on K_saveWeightImage);
      SText (lit "save-params-root") K_outputParameterRootName (on K_saveBestFitParams);
      SNum (lit "ftol") kPosReal Strtod K_ftol (on K_ftolSet);
      SNum (lit "bootstrap") kPosInt AtolInt K_bootstrapIterations (on K_doBootstrap);
      SText (lit "save-bootstrap") K_outputBootstrapFileName (on K_saveBootstrap);
      threads_step; seed_step ].

  (** makemultimages_main.cpp:475-492 and 507-605 *)
  Definition makemultimages_regs : list reg := [
    flag2 "help" "h"; flag2 "version" "v"; flag1 "list-functions"; flag1 "list-parameters";
    flag1 "sample-config"; flag1 "save-expanded"; flag1 "nosubsampling"; flag1 "nosave";
    option1 "image-info"; option2 "output" "o"; option1 "estimation-size"; option1 "output-functions";
    option1 "timing"; option1 "max-threads"; option1 "debug" ].
  Definition makemultimages_steps : list step :=
    [ SArg K_configFileName (off K_noConfigFile) ] ++ info_steps ++
    [ flag: "save-expanded" (on K_saveExpandedImage);
      flag: "nosubsampling" (off K_subsamplingFlag);
      flag: "nosave" (off K_saveImage);
      SText (lit "image-info") K_imageInfoFile (on K_imageInfoFile_exists);
      SText (lit "output") K_outputImageName (off K_noOutputImageName);
      SNum (lit "estimation-size") kPosInt AtolInt K_estimationImageSize [];
      SText (lit "output-functions") K_functionRootName (on K_saveAllFunctions);
      SNum (lit "timing") kPosInt AtolInt K_timingIterations (off K_saveImage);
      threads_step;
      SNum (lit "debug") kAnyInt AtolInt K_debugLevel [];
      SDims ].

  Definition imfit_options := ProcessInput imfit_regs imfit_steps imfit_defaults.
  Definition mcmc_options := ProcessInput mcmc_regs mcmc_steps mcmc_defaults.
  Definition makeimage_options := ProcessInput makeimage_regs makeimage_steps makeimage_defaults.
  Definition multimfit_options := ProcessInput multimfit_regs multimfit_steps multimfit_defaults.
  Definition makemultimages_options := ProcessInput makemultimages_regs makemultimages_steps makemultimages_defaults.

  (** the five programs *)
  Definition options_of (p : program) : list str -> res outcome :=
    match p with
    | Imfit => imfit_options | Mcmc => mcmc_options | Makeimage => makeimage_options
    | Multimfit => multimfit_options | Makemultimages => makemultimages_options
    end.

  (** imfit_main.cpp:997-1063 and (the same text) mcmc_main.cpp:927-993; the options are
      those that ReadConfigFile returned, in file order. Reading an uninitialised
      switch is undefined. *)
  Definition as_bool (v : val T) : res bool := match v with VB b => Ok b | _ => Undef end.
  Definition config_entry (o : opts) (set_ : key) (k : key) (c : conv) (v : str) : res opts :=
    do b <- as_bool (o set_);
    if b then Ok o else do x <- convert c v; Ok (put o k x).
  Definition HandleConfigFileOptions (cfg : list (str * str)) (o : opts) : res opts :=
    fold_left (fun r nv => do o <- r;
      let (n, v) := nv : str * str in
      if str_eqb n (lit "GAIN") then config_entry o K_gainSet K_gain Strtod v
      else if str_eqb n (lit "READNOISE") then config_entry o K_readNoiseSet K_readNoise Strtod v
      else if str_eqb n (lit "EXPTIME") then config_entry o K_expTimeSet K_expTime Strtod v
      else if str_eqb n (lit "ORIGINAL_SKY") then config_entry o K_originalSkySet K_originalSky Strtod v
      else if str_eqb n (lit "NCOMBINED") then config_entry o K_nCombinedSet K_nCombined Atoi v
      else Ok o) cfg (Ok o).

  (** makeimage_main.cpp:680-723 *)
  Definition size_entry (o : opts) (set_ : key) (k : key) (v : str) : res outcome :=
    do b <- as_bool (o set_);
    if b then Ok (Run o)
    else
      do bad <- NotANumber v kPosInt;
      if bad then Ok (Exit 1) else do x <- convert Atoi v; Ok (Run (put o k x)).
  Definition HandleConfigFileOptions_makeimage (cfg : list (str * str)) (o : opts) : res outcome :=
    fold_left (fun r nv => do x <- r;
      match x with
      | Exit z => Ok (Exit z)
      | Run o =>
          let (n, v) := nv : str * str in
          if str_eqb n (lit "NCOLS") || str_eqb n (lit "NCOLUMNS") then size_entry o K_nColumnsSet K_nColumns v
          else if str_eqb n (lit "NROWS") then size_entry o K_nRowsSet K_nRows v
          else Ok (Run o)
      end) cfg (Ok (Run o)).

  (** makeimage_main.cpp:144-146 and 168-205: the size of the image to make.
      [GetImageSize name] (core/image_io.cpp) is the size of an existing image, or
      nothing. The results are the size, or the status with which main ends. *)
  Variable GetImageSize : str -> option (Z * Z).
  Inductive sized := Size (ncols nrows : Z) | End_ (status : Z).
  Definition image_size (o : opts) : res sized :=
    do printFluxes <- as_bool (o K_printFluxes); do saveFluxes <- as_bool (o K_saveFluxes);
    do saveImage <- as_bool (o K_saveImage); do printImages <- as_bool (o K_printImages);
    let printFluxesOnly := (printFluxes || saveFluxes) && negb saveImage && negb printImages in
    do nc <- as_int (o K_nColumns); do nr <- as_int (o K_nRows);
    do nodim <- as_bool (o K_noImageDimensions); do noref <- as_bool (o K_noRefImage);
    let nodim := if (0 <? nc)%Z && (0 <? nr)%Z then false else nodim in
    if noref && nodim && saveImage then Ok (End_ (-1))
    else
      let (nc, nr) := if noref && nodim then (2%Z, 2%Z) else (nc, nr) in
      if negb printFluxesOnly && nodim then
        match o K_referenceImageName with
        | VS name => match GetImageSize name with Some (a, b) => Ok (Size a b) | None => Ok (End_ (-1)) end
        | _ => Undef
        end
      else Ok (Size nc nr).
End Options.
Arguments Exit {T}. Arguments Run {T}. Arguments put {T}. Arguments puts {T}. Arguments convert {T}.
Arguments SExit {T}. Arguments SFlag {T}. Arguments SArg {T}. Arguments SText {T}. Arguments SName {T}.
Arguments SNum {T}. Arguments STexts {T}. Arguments SNums {T}. Arguments SDims {T}.
Arguments strs {T}. Arguments ints {T}. Arguments int_of {T}. Arguments push_str {T}. Arguments push_int {T}.
Arguments incr {T}. Arguments as_int {T}. Arguments as_bool {T}. Arguments run_step {T}. Arguments run_steps {T}.
Arguments ProcessInput {T}. Arguments config_entry {T}. Arguments HandleConfigFileOptions {T}.
Arguments size_entry {T}. Arguments HandleConfigFileOptions_makeimage {T}. Arguments image_size {T}.
