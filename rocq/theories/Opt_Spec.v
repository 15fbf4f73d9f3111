(** What each option of the five programs means, stated on the words of the command
    line and on the members of the options object only. *)
From Coq Require Import Ascii String List ZArith Bool.
From Verif Require Import CmdLine_Spec Opt_Model.
Import ListNotations.
Local Open Scope string_scope.
Local Open Scope list_scope.

Definition wd (s : string) : word := list_ascii_of_string s.
Definition word_eq_dec : forall a b : word, {a = b} + {a <> b} := list_eq_dec ascii_dec.
Definition named (ns : list string) (n : word) : bool :=
  if in_dec word_eq_dec n (map wd ns) then true else false.

(** the option sheet of a program: kind and names of everything it accepts *)
Inductive kind :=
| Stop       (* prints something and ends the program *)
| Flag       (* a switch *)
| Text       (* one text, e.g. a file name *)
| Solver     (* the name of an NLopt solver *)
| Count      (* a positive integer *)
| Seed       (* a positive integer, up to 2^63-1 *)
| Int        (* an integer *)
| PosReal    (* a number without sign *)
| Real       (* a number *)
| Texts      (* may be given several times *)
| Counts.    (* may be given several times *)
Definition sheet := list (kind * list string).

Definition is_flag (k : kind) : bool := match k with Stop | Flag => true | _ => false end.
Definition is_queue (k : kind) : bool := match k with Texts | Counts => true | _ => false end.
Definition sheet_regs (sh : sheet) : list reg :=
  map (fun e => mkReg (is_flag (fst e)) (is_queue (fst e)) (map wd (snd e))) sh.

Definition imfit_sheet : sheet := [
  (Stop, ["help"; "h"]); (Stop, ["version"; "v"]); (Stop, ["list-functions"]); (Stop, ["list-parameters"]);
  (Stop, ["sample-config"]);
  (Text, ["config"; "c"]); (Text, ["noise"]); (Text, ["mask"]); (Text, ["psf"]); (Flag, ["no-normalize"]);
  (Texts, ["overpsf"]); (Counts, ["overpsf_scale"]); (Texts, ["overpsf_region"]);
  (Text, ["save-params"]); (Text, ["save-model"]); (Text, ["save-residual"]); (Text, ["save-weights"]);
  (Real, ["sky"]); (PosReal, ["gain"]); (PosReal, ["readnoise"]); (PosReal, ["exptime"]); (Count, ["ncombined"]);
  (Flag, ["errors-are-variances"]); (Flag, ["errors-are-weights"]); (Flag, ["mask-zero-is-bad"]);
  (Flag, ["model-errors"]); (Flag, ["cashstat"]); (Flag, ["poisson-mlr"]); (Flag, ["mlr"]); (PosReal, ["ftol"]);
  (Flag, ["nm"]); (Solver, ["nlopt"]); (Flag, ["de"]); (Flag, ["de-lhs"]);
  (Count, ["bootstrap"]); (Text, ["save-bootstrap"]); (Flag, ["chisquare-only"]); (Flag, ["fitstat-only"]);
  (Flag, ["quiet"]); (Flag, ["silent"]); (Flag, ["loud"]); (Count, ["max-threads"]); (Seed, ["seed"]);
  (Flag, ["no-subsampling"]); (Flag, ["printimage"]) ].

Definition mcmc_sheet : sheet := [
  (Stop, ["help"; "h"]); (Stop, ["version"; "v"]); (Stop, ["list-functions"]); (Stop, ["list-parameters"]);
  (Stop, ["sample-config"]);
  (Text, ["config"; "c"]); (Text, ["noise"]); (Text, ["mask"]); (Text, ["psf"]); (Flag, ["no-normalize"]);
  (Texts, ["overpsf"]); (Counts, ["overpsf_scale"]); (Texts, ["overpsf_region"]);
  (Real, ["sky"]); (PosReal, ["gain"]); (PosReal, ["readnoise"]); (PosReal, ["exptime"]); (Count, ["ncombined"]);
  (Flag, ["errors-are-variances"]); (Flag, ["errors-are-weights"]); (Flag, ["mask-zero-is-bad"]);
  (Flag, ["model-errors"]); (Flag, ["cashstat"]); (Flag, ["poisson-mlr"]); (Flag, ["mlr"]);
  (Text, ["output"; "o"]); (Flag, ["append"]); (Count, ["nchains"]); (Count, ["max-chain-length"]);
  (Count, ["burnin-length"]); (Count, ["gelman-evals"]); (PosReal, ["gelman-rubin-limit"]);
  (PosReal, ["uniform-offset"]); (PosReal, ["gaussian-offset"]);
  (Flag, ["quiet"]); (Flag, ["silent"]); (Flag, ["loud"]); (Count, ["max-threads"]); (Seed, ["seed"]);
  (Flag, ["no-subsampling"]) ].

Definition makeimage_sheet : sheet := [
  (Stop, ["help"; "h"]); (Stop, ["version"; "v"]); (Stop, ["list-functions"]); (Stop, ["list-parameters"]);
  (Stop, ["sample-config"]);
  (Text, ["output"; "o"]); (Text, ["refimage"]); (Text, ["psf"]); (Flag, ["no-normalize"]);
  (Texts, ["overpsf"]); (Counts, ["overpsf_scale"]); (Texts, ["overpsf_region"]);
  (Count, ["ncols"]); (Count, ["nrows"]); (Real, ["zero-point"]); (Count, ["estimation-size"]);
  (Flag, ["print-fluxes"]); (Text, ["save-fluxes"]); (Text, ["output-functions"]); (Flag, ["nosave"]);
  (Count, ["timing"]); (Count, ["max-threads"]); (Int, ["debug"]);
  (Flag, ["printimage"]); (Flag, ["save-expanded"]); (Flag, ["no-subsampling"]) ].

Definition multimfit_sheet : sheet := [
  (Stop, ["help"; "h"]); (Stop, ["version"; "v"]); (Stop, ["list-functions"]); (Stop, ["list-parameters"]);
  (Stop, ["sample-config"]);
  (Text, ["config"; "c"]); (Text, ["image-info"; "i"]);
  (Text, ["save-params-root"]); (Text, ["save-model"]); (Text, ["save-residual"]); (Text, ["save-weights"]);
  (Flag, ["errors-are-variances"]); (Flag, ["errors-are-weights"]); (Flag, ["mask-zero-is-bad"]);
  (Flag, ["model-errors"]); (Flag, ["cashstat"]); (Flag, ["poisson-mlr"]); (Flag, ["mlr"]); (PosReal, ["ftol"]);
  (Flag, ["nm"]); (Solver, ["nlopt"]); (Flag, ["de"]);
  (Count, ["bootstrap"]); (Text, ["save-bootstrap"]); (Flag, ["chisquare-only"]); (Flag, ["fitstat-only"]);
  (Flag, ["quiet"]); (Flag, ["silent"]); (Flag, ["loud"]); (Flag, ["logging"]);
  (Count, ["max-threads"]); (Seed, ["seed"]); (Flag, ["nosubsampling"]); (Flag, ["printimage"]) ].

Definition makemultimages_sheet : sheet := [
  (Stop, ["help"; "h"]); (Stop, ["version"; "v"]); (Stop, ["list-functions"]); (Stop, ["list-parameters"]);
  (Stop, ["sample-config"]);
  (Text, ["image-info"]); (Text, ["output"; "o"]); (Count, ["estimation-size"]); (Text, ["output-functions"]);
  (Count, ["timing"]); (Count, ["max-threads"]); (Int, ["debug"]);
  (Flag, ["nosave"]); (Flag, ["save-expanded"]); (Flag, ["nosubsampling"]) ].

(** what a command line says about a switch and about an option *)
Definition given (its : list item) (ns : list string) : bool :=
  existsb (fun it => match it with UFlag n => named ns n | _ => false end) its.
Definition values (its : list item) (ns : list string) : list word :=
  flat_map (fun it => match it with UOpt n v | UOptEq n v => if named ns n then [v] else [] | _ => [] end) its.

(** numbers *)
Definition code (c : ascii) : nat := nat_of_ascii c.
Definition Dig (c : ascii) : Prop := (48 <= code c <= 57)%nat.
Definition decimal (v : word) : Z := fold_left (fun a c => (10 * a + (Z.of_nat (code c) - 48))%Z) v 0%Z.
Definition integer (v : word) : Z :=
  match v with
  | c :: d => if Ascii.eqb c (ascii_of_nat 45) then (- decimal d)%Z else decimal v
  | [] => 0%Z
  end.
Definition Positive (v : word) (most : Z) : Prop :=
  v <> [] /\ Forall Dig v /\ (forall c d, v = c :: d -> code c <> 48%nat) /\ (decimal v <= most)%Z.
(** digits, or a point followed by a digit, at the start *)
Definition Number (v : word) : Prop :=
  (exists c d, v = c :: d /\ Dig c) \/ (exists c d, v = ascii_of_nat 46 :: c :: d /\ Dig c).
Definition no_nul (v : word) : Prop := ~ In (ascii_of_nat 0) v.
Definition solver_names : list word := map wd ["COBYLA"; "BOBYQA"; "NEWUOA"; "PRAXIS"; "NM"; "SBPLX"].

Definition Good (k : kind) (v : word) : Prop :=
  match k with
  | Solver => In v solver_names
  | Count | Counts => Positive v (2 ^ 31 - 1)
  | Seed => Positive v (2 ^ 63 - 1)
  | Int => v <> [] /\ Forall Dig v /\ (decimal v <= 2 ^ 31 - 1)%Z \/
           exists d, v = ascii_of_nat 45 :: d /\ d <> [] /\ Forall Dig d /\ (decimal d <= 2 ^ 31)%Z
  | PosReal => no_nul v /\ Number v
  | Real => no_nul v /\ (Number v \/ exists d, v = ascii_of_nat 45 :: d /\ Number d)
  | _ => True
  end.
(** texts that do not even begin like a number of the kind; [starts] is the set of
    characters with which the kind may begin *)
Definition Alien (starts : ascii -> Prop) (v : word) : Prop :=
  forall c d, v = c :: d -> (code c < 128)%nat /\ ~ starts c.
Definition Bad (k : kind) (v : word) : Prop :=
  match k with
  | Solver => ~ In v solver_names
  | Count | Counts | Seed => Alien (fun c => 49 <= code c <= 57)%nat v
  | Int => Alien (fun c => Dig c \/ c = ascii_of_nat 45) v
  | PosReal => Alien (fun c => Dig c \/ c = ascii_of_nat 46) v
  | Real => Alien (fun c => Dig c \/ c = ascii_of_nat 46 \/ c = ascii_of_nat 45) v
  | _ => False
  end.
(** of an option given several times only the first value counts, except for the
    options that may be repeated *)
Definition counted (k : kind) (vs : list word) : list word := if is_queue k then vs else firstn 1 vs.

Definition Accepted (sh : sheet) (its : list item) : Prop :=
  its <> [] /\
  (forall ns, In (Stop, ns) sh -> given its ns = false) /\
  (forall k ns, In (k, ns) sh -> Forall (Good k) (counted k (values its ns))).
Definition Refused (sh : sheet) (its : list item) : Prop :=
  (forall k ns, In (k, ns) sh -> Forall (fun v => Good k v \/ Bad k v) (counted k (values its ns))) /\
  (its = [] \/
   (exists ns, In (Stop, ns) sh /\ given its ns = true) \/
   (exists k ns, In (k, ns) sh /\ Exists (Bad k) (counted k (values its ns)))).

(** the command line [ws] says [its], in the language of the sheet *)
Definition Says (sh : sheet) (its : list item) (ws : list word) : Prop :=
  Line (sheet_regs sh) its ws /\ Forall (fun it => forall w, it <> UUnknown w) its.

(** the sheet of each program *)
Definition sheet_of (p : program) : sheet :=
  match p with
  | Imfit => imfit_sheet | Mcmc => mcmc_sheet | Makeimage => makeimage_sheet
  | Multimfit => multimfit_sheet | Makemultimages => makemultimages_sheet
  end.

Section Meaning.
  Variable T : Type.
  Variable strtod : word -> T.
  Variable dbl : string -> T.
  Variable cores : Z.
  Variable its : list item.

  Notation "'?' ns" := (given its ns) (at level 9).
  Definition has (n : string) : bool := match values its [n] with [] => false | _ => true end.
  Definition text (ns : list string) (default : string) : val T :=
    match values its ns with v :: _ => VS v | [] => VS (wd default) end.
  Definition count (n : string) (default : Z) : val T :=
    match values its [n] with v :: _ => VZ (integer v) | [] => VZ default end.
  Definition real (n : string) (default : string) : val T :=
    match values its [n] with v :: _ => VR (strtod v) | [] => VR (dbl default) end.
  Definition argument (default : string) : val T :=
    match positional its with w :: _ => VS w | [] => VS (wd default) end.
  Definition no_argument : bool := match positional its with [] => true | _ => false end.

  (** the members that all five programs have; [None] where a program differs *)
  Definition oversampling_member (k : key) : option (val T) :=
    match k with
    | K_psfOversampling | K_psfOversampledImagePresent => Some (VB (has "overpsf"))
    | K_psfOversampledFileNames => Some (VSs (values its ["overpsf"]))
    | K_psfOversamplingScales => Some (VZs (map integer (values its ["overpsf_scale"])))
    | K_oversampleRegionSet => Some (VB (has "overpsf_region"))
    | K_nOversampleRegions => Some (VZ (Z.of_nat (List.length (values its ["overpsf_region"]))))
    | K_psfOversampleRegions => Some (VSs (values its ["overpsf_region"]))
    | K_psfFileName => Some (text ["psf"] "")
    | K_psfImagePresent => Some (VB (has "psf"))
    | K_normalizePSF => Some (VB (negb (?["no-normalize"])))
    | _ => None
    end.
  (** members concerning the data image, for imfit and imfit-mcmc *)
  Definition data_member (k : key) : option (val T) :=
    match k with
    | K_imageFileName => Some (argument "")
    | K_noImage => Some (VB no_argument)
    | K_noiseFileName => Some (text ["noise"] "")
    | K_noiseImagePresent => Some (VB (has "noise"))
    | K_maskFileName => Some (text ["mask"] "")
    | K_maskImagePresent => Some (VB (has "mask"))
    | K_gain => Some (real "gain" "1.0") | K_gainSet => Some (VB (has "gain"))
    | K_readNoise => Some (real "readnoise" "0.0") | K_readNoiseSet => Some (VB (has "readnoise"))
    | K_expTime => Some (real "exptime" "1.0") | K_expTimeSet => Some (VB (has "exptime"))
    | K_originalSky => Some (real "sky" "0.0") | K_originalSkySet => Some (VB (has "sky"))
    | K_nCombined => Some (count "ncombined" 1) | K_nCombinedSet => Some (VB (has "ncombined"))
    | _ => None
    end.
  (** members that the three fitting programs share *)
  Definition fitting_member (k : key) : option (val T) :=
    match k with
    | K_errorType => Some (VZ (if ?["errors-are-weights"] then 120 else if ?["errors-are-variances"] then 110 else 100))
    | K_maskFormat => Some (VZ (if ?["mask-zero-is-bad"] then 20 else 10))
    | K_verbose => Some (VZ (if ?["loud"] then 2 else if ?["quiet"] then 0 else if ?["silent"] then -1 else 1))
    | K_rngSeed => Some (count "seed" 0)
    | K_configFileName => Some (text ["config"; "c"] "imfit_config.dat")
    | _ => None
    end.
  Definition statistic_member (k : key) : option (val T) :=
    match k with
    | K_useModelForErrors => Some (VB (?["model-errors"]))
    | K_useCashStatistic => Some (VB (?["cashstat"]))
    | K_usePoissonMLR => Some (VB (?["poisson-mlr"] || ?["mlr"]))
    | _ => None
    end.
  (** imfit and multimfit *)
  Definition solver_member (k : key) : option (val T) :=
    match k with
    | K_solver => Some (VZ (if ?["de"] || ?["de-lhs"] then 2 else if has "nlopt" then 5 else if ?["nm"] then 3 else 1))
    | K_nloptSolverName => Some (text ["nlopt"] "NM")
    | K_ftol => Some (real "ftol" "1.0e-8") | K_ftolSet => Some (VB (has "ftol"))
    | K_printFitStatisticOnly => Some (VB (?["chisquare-only"] || ?["fitstat-only"]))
    | K_printImages => Some (VB (?["printimage"]))
    | K_saveModel => Some (VB (has "save-model"))
    | K_outputModelFileName => Some (text ["save-model"] "")
    | K_saveResidualImage => Some (VB (has "save-residual"))
    | K_outputResidualFileName => Some (text ["save-residual"] "")
    | K_saveWeightImage => Some (VB (has "save-weights"))
    | K_outputWeightFileName => Some (text ["save-weights"] "")
    | K_saveBestFitParams => Some (VB true)
    | K_outputParameterFileName => Some (text ["save-params"] "bestfit_parameters_imfit.dat")
    | K_doBootstrap => Some (VB (has "bootstrap"))
    | K_bootstrapIterations => Some (count "bootstrap" 0)
    | K_saveBootstrap => Some (VB (has "save-bootstrap"))
    | K_outputBootstrapFileName => Some (text ["save-bootstrap"] "")
    | _ => None
    end.
  (** makeimage and makemultimages *)
  Definition making_member (k : key) : option (val T) :=
    match k with
    | K_configFileName => Some (argument "")
    | K_noConfigFile => Some (VB no_argument)
    | K_noOutputImageName => Some (VB (negb (match values its ["output"; "o"] with [] => false | _ => true end)))
    | K_functionRootName => Some (text ["output-functions"] "")
    | K_saveAllFunctions => Some (VB (has "output-functions"))
    | K_noRefImage => Some (VB (negb (has "refimage")))
    | K_referenceImageName => Some (text ["refimage"] "")
    | K_nColumns => Some (count "ncols" 0) | K_nColumnsSet => Some (VB (has "ncols"))
    | K_nRows => Some (count "nrows" 0) | K_nRowsSet => Some (VB (has "nrows"))
    | K_noImageDimensions => Some (VB (negb (has "ncols" && has "nrows")))
    | K_magZeroPoint => Some (real "zero-point" "-10000.0")
    | K_printImages => Some (VB (?["printimage"]))
    | K_saveImage => Some (VB (negb (?["nosave"] || ?["print-fluxes"] || has "timing")))
    | K_saveExpandedImage => Some (VB (?["save-expanded"]))
    | K_printFluxes => Some (VB (?["print-fluxes"]))
    | K_estimationImageSize => Some (count "estimation-size" 5000)
    | K_timingIterations => Some (count "timing" 0)
    | K_debugLevel => Some (count "debug" 0)
    | _ => None
    end.
  Definition imageinfo_member (ns : list string) (k : key) : option (val T) :=
    match k with
    | K_imageInfoFile => Some (text ns "")
    | K_imageInfoFile_exists => Some (VB (match values its ns with [] => false | _ => true end))
    | _ => None
    end.
  (** everything else: untouched by the command line *)
  Definition common_member (k : key) : option (val T) :=
    match k with
    | K_maxThreads => Some (count "max-threads" cores) | K_maxThreadsSet => Some (VB true)
    | K_noConfigFile | K_noImage => Some (VB true)
    | K_configFileName | K_imageFileName | K_noiseFileName | K_maskFileName => Some (VS [])
    | K_noiseImagePresent | K_maskImagePresent | K_gainSet | K_readNoiseSet | K_expTimeSet | K_nCombinedSet
    | K_originalSkySet | K_printFitStatisticOnly | K_loggingOn => Some (VB false)
    | K_errorType => Some (VZ 100) | K_maskFormat => Some (VZ 10)
    | K_gain | K_expTime => Some (VR (dbl "1.0")) | K_readNoise | K_originalSky => Some (VR (dbl "0.0"))
    | K_nCombined | K_verbose | K_solver => Some (VZ 1)
    | K_rngSeed | K_debugLevel => Some (VZ 0)
    | _ => None
    end.
  Fixpoint first_of (l : list (key -> option (val T))) (k : key) : val T :=
    match l with [] => VUninit | f :: t => match f k with Some v => v | None => first_of t k end end.

  Definition imfit_meaning : key -> val T := first_of [
    oversampling_member; data_member; fitting_member; statistic_member; solver_member;
    (fun k => match k with
      | K_useLHS => Some (VB (?["de-lhs"]))
      | K_subsamplingFlag => Some (VB (negb (?["no-subsampling"])))
      | _ => None end);
    common_member ].
  Definition mcmc_meaning : key -> val T := first_of [
    oversampling_member; data_member; fitting_member; statistic_member;
    (fun k => match k with
      | K_outputFileRoot => Some (text ["output"; "o"] "mcmc_out")
      | K_appendToOutput => Some (VB (?["append"]))
      | K_nChains => Some (count "nchains" (-1))
      | K_maxEvals => Some (count "max-chain-length" 100000)
      | K_nBurnIn => Some (count "burnin-length" 5000)
      | K_nGelmanEvals => Some (count "gelman-evals" 5000)
      | K_GRScaleReductionLimit => Some (real "gelman-rubin-limit" "1.01")
      | K_mcmcNoise => Some (real "uniform-offset" "0.01")
      | K_mcmc_bstar => Some (real "gaussian-offset" "1.0e-6")
      | K_saveModel | K_saveResidualImage => Some (VB false)
      | K_subsamplingFlag => Some (VB (negb (?["no-subsampling"])))
      | _ => None end);
    common_member ].
  Definition makeimage_meaning : key -> val T := first_of [
    oversampling_member; making_member;
    (fun k => match k with
      | K_outputImageName => Some (text ["output"; "o"] "modelimage.fits")
      | K_saveFluxes => Some (VB (has "save-fluxes"))
      | K_saveFluxesFileName => Some (text ["save-fluxes"] "")
      | K_subsamplingFlag => Some (VB (negb (?["no-subsampling"])))
      | _ => None end);
    common_member ].
  (** in multimfit the statistic switches have a value only if the switch is given *)
  Definition multimfit_meaning : key -> val T := first_of [
    oversampling_member; fitting_member; solver_member; imageinfo_member ["image-info"; "i"];
    (fun k => match k with
      | K_outputParameterRootName => Some (text ["save-params-root"] "bestfit_parameters_multimfit")
      | K_loggingOn => Some (VB (?["logging"]))
      | K_useModelForErrors => if ?["model-errors"] then Some (VB true) else None
      | K_useCashStatistic => if ?["cashstat"] then Some (VB true) else None
      | K_usePoissonMLR => if ?["poisson-mlr"] || ?["mlr"] then Some (VB true) else None
      | K_subsamplingFlag => Some (VB (negb (?["nosubsampling"])))
      | _ => None end);
    common_member ].
  Definition makemultimages_meaning : key -> val T := first_of [
    oversampling_member; making_member; imageinfo_member ["image-info"];
    (fun k => match k with
      | K_outputImageName => Some (text ["output"; "o"] "modelimage_multi")
      | K_subsamplingFlag => Some (VB (negb (?["nosubsampling"])))
      | _ => None end);
    common_member ].
  Definition meaning_of (p : program) : key -> val T :=
    match p with
    | Imfit => imfit_meaning | Mcmc => mcmc_meaning | Makeimage => makeimage_meaning
    | Multimfit => multimfit_meaning | Makemultimages => makemultimages_meaning
    end.
End Meaning.

(** command line before configuration file before default. [last_value cfg names]
    is the value of the last line of the file with one of the keywords. *)
Definition last_value (cfg : list (word * word)) (names : list string) : option word :=
  fold_left (fun r nv => if named names (fst nv) then Some (snd nv) else r) cfg None.

Section Configured.
  Variable T : Type.
  Variable strtod : word -> T.
  Variable dbl : string -> T.
  Variable its : list item.
  Variable cfg : list (word * word).

  Definition config_real (opt keyword default : string) : val T :=
    match values its [opt], last_value cfg [keyword] with
    | v :: _, _ => VR (strtod v)
    | [], Some v => VR (strtod v)
    | [], None => VR (dbl default)
    end.
  Definition config_count (opt : string) (keywords : list string) (default : Z) : val T :=
    match values its [opt], last_value cfg keywords with
    | v :: _, _ => VZ (integer v)
    | [], Some v => VZ (integer v)
    | [], None => VZ default
    end.
  (** imfit and imfit-mcmc; [before] is what the command line alone says *)
  Definition fit_configured (before : key -> val T) (k : key) : val T :=
    match k with
    | K_gain => config_real "gain" "GAIN" "1.0"
    | K_readNoise => config_real "readnoise" "READNOISE" "0.0"
    | K_expTime => config_real "exptime" "EXPTIME" "1.0"
    | K_originalSky => config_real "sky" "ORIGINAL_SKY" "0.0"
    | K_nCombined => config_count "ncombined" ["NCOMBINED"] 1
    | _ => before k
    end.
  Definition size_configured (before : key -> val T) (k : key) : val T :=
    match k with
    | K_nColumns => config_count "ncols" ["NCOLS"; "NCOLUMNS"] 0
    | K_nRows => config_count "nrows" ["NROWS"] 0
    | _ => before k
    end.
  (** lines of the configuration file that are used because the command line is silent *)
  Definition Used (opt : string) (keywords : list string) (v : word) : Prop :=
    values its [opt] = [] /\ exists n, In (n, v) cfg /\ named keywords n = true.
  Definition SizeLine (v : word) : Prop := Used "ncols" ["NCOLS"; "NCOLUMNS"] v \/ Used "nrows" ["NROWS"] v.
  Definition size_of (opt : string) (keywords : list string) : option Z :=
    match values its [opt], last_value cfg keywords with
    | v :: _, _ => Some (integer v)
    | [], Some v => Some (integer v)
    | [], None => None
    end.
End Configured.

(** makeimage: which size the image gets. [saving]: an image is to be saved;
    [fluxes]: only fluxes are wanted *)
Definition saving (its : list item) : bool :=
  negb (given its ["nosave"] || given its ["print-fluxes"] || has its "timing").
Definition fluxes (its : list item) : bool :=
  (given its ["print-fluxes"] || has its "save-fluxes") && negb (saving its) && negb (given its ["printimage"]).
Definition size_wanted (GetImageSize : word -> option (Z * Z)) (its : list item) (cfg : list (word * word)) : sized :=
  match size_of its cfg "ncols" ["NCOLS"; "NCOLUMNS"], size_of its cfg "nrows" ["NROWS"], values its ["refimage"] with
  | Some a, Some b, _ => Size a b
  | _, _, [] => if fluxes its then Size 2 2 else End_ (-1)
  | a, b, r :: _ =>
      if fluxes its then Size (match a with Some a => a | None => 0 end) (match b with Some b => b | None => 0 end)
      else match GetImageSize r with Some (a, b) => Size a b | None => End_ (-1) end
  end.
