(** Model of core/imageparams_file_parser.cpp and of class ImageInfo
    (core/definitions_multimage.h:28-113). Definitions only.

    Simplifications: messages on stderr are left out except that the pairs of
    error code and line number handed to ReportConfigError are kept. [strtod],
    [strtol] (base 0, narrowed to int) are arguments. A file name together with
    its "_present" flag is an option; the counters nOversampledFileNames,
    nOversamplingScales and nOversampleRegions are the lengths of the lists they
    accompany, and psfOversampledImage_present / oversampleRegionSet say that the
    list is not empty. [maskBadIsZero] is maskFormat == MASK_ZERO_IS_BAD;
    [errorType] is 0 sigmas, 1 variances, 2 weights. A file is the list of its
    lines as delivered by [getline]. *)

From Verif Require Export Config_Model.
Local Open Scope list_scope.

(** the per-image-function fields of ImageInfo; [None] there is
    perImageFunctionsExist == false *)
Record perImage_ (T : Type) := mkPerImage {
  pi_names : list str; pi_labels : list str; pi_starts : list nat;
  pi_params : list T; pi_limFound : bool; pi_limits : list (mp_par T) }.
Arguments mkPerImage {T}. Arguments pi_names {T}. Arguments pi_labels {T}. Arguments pi_starts {T}.
Arguments pi_params {T}. Arguments pi_limFound {T}. Arguments pi_limits {T}.

Section Info.
  Variable T : Type.
  (** core/definitions_multimage.h:28-113, the members; each [set_x i v] is the
      assignment [i.x = v] *)
  Record ImageInfo := mkInfo {
    i_dataFile : option str;
    i_maskFile : option str;
    i_maskBadIsZero : bool;
    i_errorFile : option str;
    i_errorType : Z;
    i_psfFile : option str;
    i_weight : T;
    i_gain : T;
    i_readNoise : T;
    i_originalSky : T;
    i_expTime : T;
    i_nCombined : Z;
    i_x0 : T;
    i_y0 : T;
    i_nColumns : Z;
    i_nRows : Z;
    i_pixelScale : T;
    i_intensityScale : T;
    i_rotation : T;
    i_overFiles : list str;
    i_overScales : list Z;
    i_overRegions : list str;
    i_perImage : option (perImage_ T);
    i_pixelScaleLim : mp_par T;
    i_rotationLim : mp_par T;
    i_intensityScaleLim : mp_par T;
    i_x0Lim : mp_par T;
    i_y0Lim : mp_par T }.
  Definition set_dataFile (i : ImageInfo) (v : option str) : ImageInfo :=
    mkInfo v (i_maskFile i) (i_maskBadIsZero i) (i_errorFile i) (i_errorType i) (i_psfFile i) (i_weight i) (i_gain i) (i_readNoise i) (i_originalSky i) (i_expTime i) (i_nCombined i) (i_x0 i) (i_y0 i) (i_nColumns i) (i_nRows i) (i_pixelScale i) (i_intensityScale i) (i_rotation i) (i_overFiles i) (i_overScales i) (i_overRegions i) (i_perImage i) (i_pixelScaleLim i) (i_rotationLim i) (i_intensityScaleLim i) (i_x0Lim i) (i_y0Lim i).
  Definition set_maskFile (i : ImageInfo) (v : option str) : ImageInfo :=
    mkInfo (i_dataFile i) v (i_maskBadIsZero i) (i_errorFile i) (i_errorType i) (i_psfFile i) (i_weight i) (i_gain i) (i_readNoise i) (i_originalSky i) (i_expTime i) (i_nCombined i) (i_x0 i) (i_y0 i) (i_nColumns i) (i_nRows i) (i_pixelScale i) (i_intensityScale i) (i_rotation i) (i_overFiles i) (i_overScales i) (i_overRegions i) (i_perImage i) (i_pixelScaleLim i) (i_rotationLim i) (i_intensityScaleLim i) (i_x0Lim i) (i_y0Lim i).
  Definition set_maskBadIsZero (i : ImageInfo) (v : bool) : ImageInfo :=
    mkInfo (i_dataFile i) (i_maskFile i) v (i_errorFile i) (i_errorType i) (i_psfFile i) (i_weight i) (i_gain i) (i_readNoise i) (i_originalSky i) (i_expTime i) (i_nCombined i) (i_x0 i) (i_y0 i) (i_nColumns i) (i_nRows i) (i_pixelScale i) (i_intensityScale i) (i_rotation i) (i_overFiles i) (i_overScales i) (i_overRegions i) (i_perImage i) (i_pixelScaleLim i) (i_rotationLim i) (i_intensityScaleLim i) (i_x0Lim i) (i_y0Lim i).
  Definition set_errorFile (i : ImageInfo) (v : option str) : ImageInfo :=
    mkInfo (i_dataFile i) (i_maskFile i) (i_maskBadIsZero i) v (i_errorType i) (i_psfFile i) (i_weight i) (i_gain i) (i_readNoise i) (i_originalSky i) (i_expTime i) (i_nCombined i) (i_x0 i) (i_y0 i) (i_nColumns i) (i_nRows i) (i_pixelScale i) (i_intensityScale i) (i_rotation i) (i_overFiles i) (i_overScales i) (i_overRegions i) (i_perImage i) (i_pixelScaleLim i) (i_rotationLim i) (i_intensityScaleLim i) (i_x0Lim i) (i_y0Lim i).
  Definition set_errorType (i : ImageInfo) (v : Z) : ImageInfo :=
    mkInfo (i_dataFile i) (i_maskFile i) (i_maskBadIsZero i) (i_errorFile i) v (i_psfFile i) (i_weight i) (i_gain i) (i_readNoise i) (i_originalSky i) (i_expTime i) (i_nCombined i) (i_x0 i) (i_y0 i) (i_nColumns i) (i_nRows i) (i_pixelScale i) (i_intensityScale i) (i_rotation i) (i_overFiles i) (i_overScales i) (i_overRegions i) (i_perImage i) (i_pixelScaleLim i) (i_rotationLim i) (i_intensityScaleLim i) (i_x0Lim i) (i_y0Lim i).
  Definition set_psfFile (i : ImageInfo) (v : option str) : ImageInfo :=
    mkInfo (i_dataFile i) (i_maskFile i) (i_maskBadIsZero i) (i_errorFile i) (i_errorType i) v (i_weight i) (i_gain i) (i_readNoise i) (i_originalSky i) (i_expTime i) (i_nCombined i) (i_x0 i) (i_y0 i) (i_nColumns i) (i_nRows i) (i_pixelScale i) (i_intensityScale i) (i_rotation i) (i_overFiles i) (i_overScales i) (i_overRegions i) (i_perImage i) (i_pixelScaleLim i) (i_rotationLim i) (i_intensityScaleLim i) (i_x0Lim i) (i_y0Lim i).
  Definition set_weight (i : ImageInfo) (v : T) : ImageInfo :=
    mkInfo (i_dataFile i) (i_maskFile i) (i_maskBadIsZero i) (i_errorFile i) (i_errorType i) (i_psfFile i) v (i_gain i) (i_readNoise i) (i_originalSky i) (i_expTime i) (i_nCombined i) (i_x0 i) (i_y0 i) (i_nColumns i) (i_nRows i) (i_pixelScale i) (i_intensityScale i) (i_rotation i) (i_overFiles i) (i_overScales i) (i_overRegions i) (i_perImage i) (i_pixelScaleLim i) (i_rotationLim i) (i_intensityScaleLim i) (i_x0Lim i) (i_y0Lim i).
  Definition set_gain (i : ImageInfo) (v : T) : ImageInfo :=
    mkInfo (i_dataFile i) (i_maskFile i) (i_maskBadIsZero i) (i_errorFile i) (i_errorType i) (i_psfFile i) (i_weight i) v (i_readNoise i) (i_originalSky i) (i_expTime i) (i_nCombined i) (i_x0 i) (i_y0 i) (i_nColumns i) (i_nRows i) (i_pixelScale i) (i_intensityScale i) (i_rotation i) (i_overFiles i) (i_overScales i) (i_overRegions i) (i_perImage i) (i_pixelScaleLim i) (i_rotationLim i) (i_intensityScaleLim i) (i_x0Lim i) (i_y0Lim i).
  Definition set_readNoise (i : ImageInfo) (v : T) : ImageInfo :=
    mkInfo (i_dataFile i) (i_maskFile i) (i_maskBadIsZero i) (i_errorFile i) (i_errorType i) (i_psfFile i) (i_weight i) (i_gain i) v (i_originalSky i) (i_expTime i) (i_nCombined i) (i_x0 i) (i_y0 i) (i_nColumns i) (i_nRows i) (i_pixelScale i) (i_intensityScale i) (i_rotation i) (i_overFiles i) (i_overScales i) (i_overRegions i) (i_perImage i) (i_pixelScaleLim i) (i_rotationLim i) (i_intensityScaleLim i) (i_x0Lim i) (i_y0Lim i).
  Definition set_originalSky (i : ImageInfo) (v : T) : ImageInfo :=
    mkInfo (i_dataFile i) (i_maskFile i) (i_maskBadIsZero i) (i_errorFile i) (i_errorType i) (i_psfFile i) (i_weight i) (i_gain i) (i_readNoise i) v (i_expTime i) (i_nCombined i) (i_x0 i) (i_y0 i) (i_nColumns i) (i_nRows i) (i_pixelScale i) (i_intensityScale i) (i_rotation i) (i_overFiles i) (i_overScales i) (i_overRegions i) (i_perImage i) (i_pixelScaleLim i) (i_rotationLim i) (i_intensityScaleLim i) (i_x0Lim i) (i_y0Lim i).
  Definition set_expTime (i : ImageInfo) (v : T) : ImageInfo :=
    mkInfo (i_dataFile i) (i_maskFile i) (i_maskBadIsZero i) (i_errorFile i) (i_errorType i) (i_psfFile i) (i_weight i) (i_gain i) (i_readNoise i) (i_originalSky i) v (i_nCombined i) (i_x0 i) (i_y0 i) (i_nColumns i) (i_nRows i) (i_pixelScale i) (i_intensityScale i) (i_rotation i) (i_overFiles i) (i_overScales i) (i_overRegions i) (i_perImage i) (i_pixelScaleLim i) (i_rotationLim i) (i_intensityScaleLim i) (i_x0Lim i) (i_y0Lim i).
  Definition set_nCombined (i : ImageInfo) (v : Z) : ImageInfo :=
    mkInfo (i_dataFile i) (i_maskFile i) (i_maskBadIsZero i) (i_errorFile i) (i_errorType i) (i_psfFile i) (i_weight i) (i_gain i) (i_readNoise i) (i_originalSky i) (i_expTime i) v (i_x0 i) (i_y0 i) (i_nColumns i) (i_nRows i) (i_pixelScale i) (i_intensityScale i) (i_rotation i) (i_overFiles i) (i_overScales i) (i_overRegions i) (i_perImage i) (i_pixelScaleLim i) (i_rotationLim i) (i_intensityScaleLim i) (i_x0Lim i) (i_y0Lim i).
  Definition set_x0 (i : ImageInfo) (v : T) : ImageInfo :=
    mkInfo (i_dataFile i) (i_maskFile i) (i_maskBadIsZero i) (i_errorFile i) (i_errorType i) (i_psfFile i) (i_weight i) (i_gain i) (i_readNoise i) (i_originalSky i) (i_expTime i) (i_nCombined i) v (i_y0 i) (i_nColumns i) (i_nRows i) (i_pixelScale i) (i_intensityScale i) (i_rotation i) (i_overFiles i) (i_overScales i) (i_overRegions i) (i_perImage i) (i_pixelScaleLim i) (i_rotationLim i) (i_intensityScaleLim i) (i_x0Lim i) (i_y0Lim i).
  Definition set_y0 (i : ImageInfo) (v : T) : ImageInfo :=
    mkInfo (i_dataFile i) (i_maskFile i) (i_maskBadIsZero i) (i_errorFile i) (i_errorType i) (i_psfFile i) (i_weight i) (i_gain i) (i_readNoise i) (i_originalSky i) (i_expTime i) (i_nCombined i) (i_x0 i) v (i_nColumns i) (i_nRows i) (i_pixelScale i) (i_intensityScale i) (i_rotation i) (i_overFiles i) (i_overScales i) (i_overRegions i) (i_perImage i) (i_pixelScaleLim i) (i_rotationLim i) (i_intensityScaleLim i) (i_x0Lim i) (i_y0Lim i).
  Definition set_nColumns (i : ImageInfo) (v : Z) : ImageInfo :=
    mkInfo (i_dataFile i) (i_maskFile i) (i_maskBadIsZero i) (i_errorFile i) (i_errorType i) (i_psfFile i) (i_weight i) (i_gain i) (i_readNoise i) (i_originalSky i) (i_expTime i) (i_nCombined i) (i_x0 i) (i_y0 i) v (i_nRows i) (i_pixelScale i) (i_intensityScale i) (i_rotation i) (i_overFiles i) (i_overScales i) (i_overRegions i) (i_perImage i) (i_pixelScaleLim i) (i_rotationLim i) (i_intensityScaleLim i) (i_x0Lim i) (i_y0Lim i).
  Definition set_nRows (i : ImageInfo) (v : Z) : ImageInfo :=
    mkInfo (i_dataFile i) (i_maskFile i) (i_maskBadIsZero i) (i_errorFile i) (i_errorType i) (i_psfFile i) (i_weight i) (i_gain i) (i_readNoise i) (i_originalSky i) (i_expTime i) (i_nCombined i) (i_x0 i) (i_y0 i) (i_nColumns i) v (i_pixelScale i) (i_intensityScale i) (i_rotation i) (i_overFiles i) (i_overScales i) (i_overRegions i) (i_perImage i) (i_pixelScaleLim i) (i_rotationLim i) (i_intensityScaleLim i) (i_x0Lim i) (i_y0Lim i).
  Definition set_pixelScale (i : ImageInfo) (v : T) : ImageInfo :=
    mkInfo (i_dataFile i) (i_maskFile i) (i_maskBadIsZero i) (i_errorFile i) (i_errorType i) (i_psfFile i) (i_weight i) (i_gain i) (i_readNoise i) (i_originalSky i) (i_expTime i) (i_nCombined i) (i_x0 i) (i_y0 i) (i_nColumns i) (i_nRows i) v (i_intensityScale i) (i_rotation i) (i_overFiles i) (i_overScales i) (i_overRegions i) (i_perImage i) (i_pixelScaleLim i) (i_rotationLim i) (i_intensityScaleLim i) (i_x0Lim i) (i_y0Lim i).
  Definition set_intensityScale (i : ImageInfo) (v : T) : ImageInfo :=
    mkInfo (i_dataFile i) (i_maskFile i) (i_maskBadIsZero i) (i_errorFile i) (i_errorType i) (i_psfFile i) (i_weight i) (i_gain i) (i_readNoise i) (i_originalSky i) (i_expTime i) (i_nCombined i) (i_x0 i) (i_y0 i) (i_nColumns i) (i_nRows i) (i_pixelScale i) v (i_rotation i) (i_overFiles i) (i_overScales i) (i_overRegions i) (i_perImage i) (i_pixelScaleLim i) (i_rotationLim i) (i_intensityScaleLim i) (i_x0Lim i) (i_y0Lim i).
  Definition set_rotation (i : ImageInfo) (v : T) : ImageInfo :=
    mkInfo (i_dataFile i) (i_maskFile i) (i_maskBadIsZero i) (i_errorFile i) (i_errorType i) (i_psfFile i) (i_weight i) (i_gain i) (i_readNoise i) (i_originalSky i) (i_expTime i) (i_nCombined i) (i_x0 i) (i_y0 i) (i_nColumns i) (i_nRows i) (i_pixelScale i) (i_intensityScale i) v (i_overFiles i) (i_overScales i) (i_overRegions i) (i_perImage i) (i_pixelScaleLim i) (i_rotationLim i) (i_intensityScaleLim i) (i_x0Lim i) (i_y0Lim i).
  Definition set_overFiles (i : ImageInfo) (v : list str) : ImageInfo :=
    mkInfo (i_dataFile i) (i_maskFile i) (i_maskBadIsZero i) (i_errorFile i) (i_errorType i) (i_psfFile i) (i_weight i) (i_gain i) (i_readNoise i) (i_originalSky i) (i_expTime i) (i_nCombined i) (i_x0 i) (i_y0 i) (i_nColumns i) (i_nRows i) (i_pixelScale i) (i_intensityScale i) (i_rotation i) v (i_overScales i) (i_overRegions i) (i_perImage i) (i_pixelScaleLim i) (i_rotationLim i) (i_intensityScaleLim i) (i_x0Lim i) (i_y0Lim i).
  Definition set_overScales (i : ImageInfo) (v : list Z) : ImageInfo :=
    mkInfo (i_dataFile i) (i_maskFile i) (i_maskBadIsZero i) (i_errorFile i) (i_errorType i) (i_psfFile i) (i_weight i) (i_gain i) (i_readNoise i) (i_originalSky i) (i_expTime i) (i_nCombined i) (i_x0 i) (i_y0 i) (i_nColumns i) (i_nRows i) (i_pixelScale i) (i_intensityScale i) (i_rotation i) (i_overFiles i) v (i_overRegions i) (i_perImage i) (i_pixelScaleLim i) (i_rotationLim i) (i_intensityScaleLim i) (i_x0Lim i) (i_y0Lim i).
  Definition set_overRegions (i : ImageInfo) (v : list str) : ImageInfo :=
    mkInfo (i_dataFile i) (i_maskFile i) (i_maskBadIsZero i) (i_errorFile i) (i_errorType i) (i_psfFile i) (i_weight i) (i_gain i) (i_readNoise i) (i_originalSky i) (i_expTime i) (i_nCombined i) (i_x0 i) (i_y0 i) (i_nColumns i) (i_nRows i) (i_pixelScale i) (i_intensityScale i) (i_rotation i) (i_overFiles i) (i_overScales i) v (i_perImage i) (i_pixelScaleLim i) (i_rotationLim i) (i_intensityScaleLim i) (i_x0Lim i) (i_y0Lim i).
  Definition set_perImage (i : ImageInfo) (v : option (perImage_ T)) : ImageInfo :=
    mkInfo (i_dataFile i) (i_maskFile i) (i_maskBadIsZero i) (i_errorFile i) (i_errorType i) (i_psfFile i) (i_weight i) (i_gain i) (i_readNoise i) (i_originalSky i) (i_expTime i) (i_nCombined i) (i_x0 i) (i_y0 i) (i_nColumns i) (i_nRows i) (i_pixelScale i) (i_intensityScale i) (i_rotation i) (i_overFiles i) (i_overScales i) (i_overRegions i) v (i_pixelScaleLim i) (i_rotationLim i) (i_intensityScaleLim i) (i_x0Lim i) (i_y0Lim i).
  Definition set_pixelScaleLim (i : ImageInfo) (v : mp_par T) : ImageInfo :=
    mkInfo (i_dataFile i) (i_maskFile i) (i_maskBadIsZero i) (i_errorFile i) (i_errorType i) (i_psfFile i) (i_weight i) (i_gain i) (i_readNoise i) (i_originalSky i) (i_expTime i) (i_nCombined i) (i_x0 i) (i_y0 i) (i_nColumns i) (i_nRows i) (i_pixelScale i) (i_intensityScale i) (i_rotation i) (i_overFiles i) (i_overScales i) (i_overRegions i) (i_perImage i) v (i_rotationLim i) (i_intensityScaleLim i) (i_x0Lim i) (i_y0Lim i).
  Definition set_rotationLim (i : ImageInfo) (v : mp_par T) : ImageInfo :=
    mkInfo (i_dataFile i) (i_maskFile i) (i_maskBadIsZero i) (i_errorFile i) (i_errorType i) (i_psfFile i) (i_weight i) (i_gain i) (i_readNoise i) (i_originalSky i) (i_expTime i) (i_nCombined i) (i_x0 i) (i_y0 i) (i_nColumns i) (i_nRows i) (i_pixelScale i) (i_intensityScale i) (i_rotation i) (i_overFiles i) (i_overScales i) (i_overRegions i) (i_perImage i) (i_pixelScaleLim i) v (i_intensityScaleLim i) (i_x0Lim i) (i_y0Lim i).
  Definition set_intensityScaleLim (i : ImageInfo) (v : mp_par T) : ImageInfo :=
    mkInfo (i_dataFile i) (i_maskFile i) (i_maskBadIsZero i) (i_errorFile i) (i_errorType i) (i_psfFile i) (i_weight i) (i_gain i) (i_readNoise i) (i_originalSky i) (i_expTime i) (i_nCombined i) (i_x0 i) (i_y0 i) (i_nColumns i) (i_nRows i) (i_pixelScale i) (i_intensityScale i) (i_rotation i) (i_overFiles i) (i_overScales i) (i_overRegions i) (i_perImage i) (i_pixelScaleLim i) (i_rotationLim i) v (i_x0Lim i) (i_y0Lim i).
  Definition set_x0Lim (i : ImageInfo) (v : mp_par T) : ImageInfo :=
    mkInfo (i_dataFile i) (i_maskFile i) (i_maskBadIsZero i) (i_errorFile i) (i_errorType i) (i_psfFile i) (i_weight i) (i_gain i) (i_readNoise i) (i_originalSky i) (i_expTime i) (i_nCombined i) (i_x0 i) (i_y0 i) (i_nColumns i) (i_nRows i) (i_pixelScale i) (i_intensityScale i) (i_rotation i) (i_overFiles i) (i_overScales i) (i_overRegions i) (i_perImage i) (i_pixelScaleLim i) (i_rotationLim i) (i_intensityScaleLim i) v (i_y0Lim i).
  Definition set_y0Lim (i : ImageInfo) (v : mp_par T) : ImageInfo :=
    mkInfo (i_dataFile i) (i_maskFile i) (i_maskBadIsZero i) (i_errorFile i) (i_errorType i) (i_psfFile i) (i_weight i) (i_gain i) (i_readNoise i) (i_originalSky i) (i_expTime i) (i_nCombined i) (i_x0 i) (i_y0 i) (i_nColumns i) (i_nRows i) (i_pixelScale i) (i_intensityScale i) (i_rotation i) (i_overFiles i) (i_overScales i) (i_overRegions i) (i_perImage i) (i_pixelScaleLim i) (i_rotationLim i) (i_intensityScaleLim i) (i_x0Lim i) v.

End Info.
Arguments mkInfo {T}. Arguments i_dataFile {T}. Arguments set_dataFile {T}. Arguments i_maskFile {T}. Arguments set_maskFile {T}. Arguments i_maskBadIsZero {T}. Arguments set_maskBadIsZero {T}. Arguments i_errorFile {T}. Arguments set_errorFile {T}. Arguments i_errorType {T}. Arguments set_errorType {T}. Arguments i_psfFile {T}. Arguments set_psfFile {T}. Arguments i_weight {T}. Arguments set_weight {T}. Arguments i_gain {T}. Arguments set_gain {T}. Arguments i_readNoise {T}. Arguments set_readNoise {T}. Arguments i_originalSky {T}. Arguments set_originalSky {T}. Arguments i_expTime {T}. Arguments set_expTime {T}. Arguments i_nCombined {T}. Arguments set_nCombined {T}. Arguments i_x0 {T}. Arguments set_x0 {T}. Arguments i_y0 {T}. Arguments set_y0 {T}. Arguments i_nColumns {T}. Arguments set_nColumns {T}. Arguments i_nRows {T}. Arguments set_nRows {T}. Arguments i_pixelScale {T}. Arguments set_pixelScale {T}. Arguments i_intensityScale {T}. Arguments set_intensityScale {T}. Arguments i_rotation {T}. Arguments set_rotation {T}. Arguments i_overFiles {T}. Arguments set_overFiles {T}. Arguments i_overScales {T}. Arguments set_overScales {T}. Arguments i_overRegions {T}. Arguments set_overRegions {T}. Arguments i_perImage {T}. Arguments set_perImage {T}. Arguments i_pixelScaleLim {T}. Arguments set_pixelScaleLim {T}. Arguments i_rotationLim {T}. Arguments set_rotationLim {T}. Arguments i_intensityScaleLim {T}. Arguments set_intensityScaleLim {T}. Arguments i_x0Lim {T}. Arguments set_x0Lim {T}. Arguments i_y0Lim {T}. Arguments set_y0Lim {T}.

Section ImgPar.
  Variable T : Type.
  Variable N : Num T.
  Variable strtod : str -> T.
  Variable strtol : str -> Z.
  Variable IsNumeric : str -> bool.
  Notation Info := (ImageInfo T).

  Definition IMAGEPARAMS_FILE_ERROR_NOLINES : Z := (-1).
  Definition IMAGEPARAMS_FILE_ERROR_NOLINENUMBERS : Z := (-2).
  Definition IMAGEPARAMS_FILE_ERROR_NOIMAGESTART : Z := (-3).
  Definition IMAGEPARAMS_FILE_ERROR_BADLINE : Z := (-4).

  (** core/definitions_multimage.h:33-72, the constructor *)
  Definition newInfo : Info :=
    let z := nofZ N 0%Z in let o := nofZ N 1%Z in
    mkInfo None None false None 0%Z None o o z z o
           1%Z z z 0%Z 0%Z o o z [] [] [] None
           (no_limits N) (no_limits N) (no_limits N) (no_limits N) (no_limits N).

  (** core/imageparams_file_parser.cpp:145-161, the checking loop: the numbers of
      the lines that are neither section starts nor have two words *)
  Fixpoint vet_loop (ls : list str) (i : nat) (nums : list Z) : res (list Z) :=
    match ls with
    | [] => Ok []
    | l :: t =>
        if has "IMAGE_START" l then vet_loop t (S i) nums
        else if negb (has "FUNCTIONS_START" l) then
          do v <- ValidParameterLine IsNumeric l true;
          if negb (fst v) then
            do k <- get nums i;
            do r <- vet_loop t (S i) nums;
            Ok (k :: r)
          else vet_loop t (S i) nums
        else vet_loop t (S i) nums
    end.

  (** core/imageparams_file_parser.cpp:113-172. Result: the verdict, and the
      appended pairs of error code and line number. *)
  Definition VetInputLines (ls : list str) (nums : list Z) : res (bool * list (Z * Z)) :=
    match ls, nums with
    | [], _ => Ok (false, [(IMAGEPARAMS_FILE_ERROR_NOLINES, 0%Z)])
    | _, [] => Ok (false, [(IMAGEPARAMS_FILE_ERROR_NOLINENUMBERS, 0%Z)])
    | _, _ =>
        do bad <- vet_loop ls 0 nums;
        let errs := map (fun k => (IMAGEPARAMS_FILE_ERROR_BADLINE, k)) bad ++
                    (if existsb (has "IMAGE_START") ls then []
                     else [(IMAGEPARAMS_FILE_ERROR_NOIMAGESTART, 0%Z)]) in
        Ok (length errs =? 0, errs)
    end.

  (** core/imageparams_file_parser.cpp:301-353 *)
  Definition GetParameterAndLimits (line : str) : res (T * mp_par T * Z) :=
    do ps <- SplitString line ws_delims;
    do s1 <- get ps 1;
    let paramVal := strtod s1 in
    if 2 <? length ps then
      do extraPiece <- get ps 2;
      if str_eqb extraPiece kw_fixed then
        Ok (paramVal, mkPar true false false (nofZ N 0) (nofZ N 0), 1%Z)
      else
        match find_char extraPiece comma (Some 0) with
        | Some _ =>
            do newPieces <- SplitString extraPiece [comma];
            do a <- get newPieces 0; do b <- get newPieces 1;
            let lowerLimit := strtod a in
            let upperLimit := strtod b in
            let status := if nleb N upperLimit lowerLimit then (-1)%Z else 2%Z in
            let status := if nltb N paramVal lowerLimit || nltb N upperLimit paramVal
                          then (-1)%Z else status in
            Ok (paramVal, mkPar false true true lowerLimit upperLimit, status)
        | None => Ok (paramVal, no_limits N, 0%Z)
        end
    else Ok (paramVal, no_limits N, 0%Z).

  Definition fix_par (p : mp_par T) : mp_par T :=
    mkPar true (p_lim0 p) (p_lim1 p) (p_lo p) (p_hi p).

  (** comparison with one of the names of lines 52-81 *)
  Definition named (name : str) (k : string) : bool := str_eqb name (lit k).

  (** core/imageparams_file_parser.cpp:362-521 *)
  Definition StoreInfoFromLine (line : str) (i : Info) : res Info :=
    do ps <- SplitString line ws_delims;
    do name <- get ps 0;
    if named name "GAIN" then do v <- get ps 1; Ok (set_gain i (strtod v))
    else if named name "READNOISE" then do v <- get ps 1; Ok (set_readNoise i (strtod v))
    else if named name "ORIGINAL_SKY" then do v <- get ps 1; Ok (set_originalSky i (strtod v))
    else if named name "EXPTIME" then do v <- get ps 1; Ok (set_expTime i (strtod v))
    else if named name "WEIGHT" then do v <- get ps 1; Ok (set_weight i (strtod v))
    else if named name "PIXEL_SCALE" then
      do r <- GetParameterAndLimits line;
      let '(v, lim, status) := r in
      let i := set_pixelScale i v in
      Ok (if (status =? 2)%Z then set_pixelScaleLim i lim
          else set_pixelScaleLim i (fix_par (i_pixelScaleLim i)))
    else if named name "IMAGE_PA" then
      do r <- GetParameterAndLimits line;
      let '(v, lim, status) := r in
      let i := set_rotation i v in
      Ok (if (status =? 2)%Z then set_rotationLim i lim
          else set_rotationLim i (fix_par (i_rotationLim i)))
    else if named name "FLUX_SCALE" then
      do r <- GetParameterAndLimits line;
      let '(v, lim, status) := r in
      Ok (set_intensityScaleLim (set_intensityScale i v) lim)
    else if named name "X0" then
      do r <- GetParameterAndLimits line;
      let '(v, lim, status) := r in
      Ok (set_x0Lim (set_x0 i v) lim)
    else if named name "Y0" then
      do r <- GetParameterAndLimits line;
      let '(v, lim, status) := r in
      Ok (set_y0Lim (set_y0 i v) lim)
    else if named name "NCOLS" then do v <- get ps 1; Ok (set_nColumns i (strtol v))
    else if named name "NROWS" then do v <- get ps 1; Ok (set_nRows i (strtol v))
    else if named name "NROWS,NCOLS" then
      do v <- get ps 1; do sub <- SplitString v [comma];
      do a <- get sub 0; do b <- get sub 1;
      Ok (set_nColumns (set_nRows i (strtol a)) (strtol b))
    else if named name "NCOLS,NROWS" then
      do v <- get ps 1; do sub <- SplitString v [comma];
      do a <- get sub 0; do b <- get sub 1;
      Ok (set_nRows (set_nColumns i (strtol a)) (strtol b))
    else if named name "NCOMBINED" then do v <- get ps 1; Ok (set_nCombined i (strtol v))
    else if named name "DATA" then do v <- get ps 1; Ok (set_dataFile i (Some v))
    else if named name "MASK" then do v <- get ps 1; Ok (set_maskFile i (Some v))
    else if named name "ERROR" then do v <- get ps 1; Ok (set_errorFile i (Some v))
    else if named name "PSF" then do v <- get ps 1; Ok (set_psfFile i (Some v))
    else if named name "OVERSAMPLE_SCALE" then
      do v <- get ps 1; Ok (set_overScales i (i_overScales i ++ [strtol v]))
    else if named name "OVERSAMPLED_PSF" then
      do v <- get ps 1; Ok (set_overFiles i (i_overFiles i ++ [v]))
    else if named name "OVERSAMPLED_REGION" then
      do v <- get ps 1; Ok (set_overRegions i (i_overRegions i ++ [v]))
    else if named name "MASK_ZERO_IS_GOOD" then Ok (set_maskBadIsZero i false)
    else if named name "MASK_ZERO_IS_BAD" then Ok (set_maskBadIsZero i true)
    else if named name "ERRORS_ARE_SIGMAS" then Ok (set_errorType i 0%Z)
    else if named name "ERRORS_ARE_VARIANCES" then Ok (set_errorType i 1%Z)
    else if named name "ERRORS_ARE_WEIGHTS" then Ok (set_errorType i 2%Z)
    else Ok i.

  (** core/imageparams_file_parser.cpp:531-547, the loop from line [k] on; result:
      the return value (0 = no FUNCTIONS_START line) and the ImageInfo *)
  Fixpoint add_info (ls : list str) (k : nat) (i : Info) : res (nat * Info) :=
    match ls with
    | [] => Ok (0, i)
    | l :: t => if has "FUNCTIONS_START" l then Ok (k, i)
                else do i' <- StoreInfoFromLine l i; add_info t (S k) i'
    end.
  Definition AddInfoFromLines (ls : list str) : res (nat * Info) := add_info ls 0 newInfo.

  (** core/imageparams_file_parser.cpp:597-603, 609-618: the lines from each
      IMAGE_START line up to the next; lines before the first are not used *)
  Fixpoint sections (ls : list str) : list str * list (list str) :=
    match ls with
    | [] => ([], [])
    | l :: t =>
        let '(cur, secs) := sections t in
        if has "IMAGE_START" l then ([], (l :: cur) :: secs) else (l :: cur, secs)
    end.

  (** core/imageparams_file_parser.cpp:608-650, the loop over the images. [opt] is
      the content of the file-static vector EMPTY_MAP_VECTOR_CONFIGPARSER
      (config_file_parser.h:29), which ParseFunctionSection appends to and which
      is the default argument at every call. [inl]: leave with -1, with the
      images stored so far. *)
  Fixpoint read_images (secs : list (list str)) (opt : list smap)
    : res ((list Info + list Info) * list smap) :=
    match secs with
    | [] => Ok (inr [], opt)
    | s :: t =>
        do r <- AddInfoFromLines s;
        let '(off, i) := r in
        if 0 <? off then
          do p <- ParseFunctionSection N strtod (skipn (off + 1) s) true false opt;
          let '(status, o) := p in
          if (status <? 0)%Z then Ok (inl [i], o_opt o)
          else
            let i' := set_perImage i (Some (mkPerImage (o_names o) (o_labels o) (o_starts o)
                                         (o_params o) (o_limFound o) (o_limits o))) in
            do q <- read_images t (o_opt o);
            Ok (match fst q with inl l => inl (i' :: l) | inr l => inr (i' :: l) end, snd q)
        else
          do q <- read_images t opt;
          Ok (match fst q with inl l => inl (i :: l) | inr l => inr (i :: l) end, snd q)
    end.

  (** core/imageparams_file_parser.cpp:555-654. [junk] is the uninitialised
      variable k stored as the number of every line (line 587). Result: the
      return value, nImages and imageInfoList ([None]: not touched), the reported
      errors, and the static vector afterwards. *)
  Definition ReadImageParamsFile (junk : Z) (file : list str) (opt : list smap)
    : res (Z * option (nat * list Info) * list (Z * Z) * list smap) :=
    do kl <- keep_lines 0 file;
    let ls := fst kl in
    let nums := map (fun _ => junk) ls in
    do v <- VetInputLines ls nums;
    if negb (fst v) then Ok ((-1)%Z, None, snd v, opt)
    else
      let secs := snd (sections ls) in
      do r <- read_images secs opt;
      let nImages := length secs in
      match fst r with
      | inl l => Ok ((-1)%Z, Some (nImages, l), [], snd r)
      | inr l => Ok (0%Z, Some (nImages, l), [], snd r)
      end.

  (** core/imageparams_file_parser.cpp:180-197 *)
  Definition N_IMAGE_PARAMS : nat := 5.
  Definition desc_values (i : Info) : list T :=
    [i_pixelScale i; i_rotation i; i_intensityScale i; i_x0 i; i_y0 i].
  Definition desc_limits (i : Info) : list (mp_par T) :=
    [i_pixelScaleLim i; i_rotationLim i; i_intensityScaleLim i; i_x0Lim i; i_y0Lim i].
  (** the array is written entry by entry (lines 188-194); calloc with a negative
      count when there is no image is left out: the list is then empty *)
  Definition GetImageDescriptionParams (infos : list Info) : res (list T * Z) :=
    let n := length infos - 1 in
    do a <- for_ n (fun i a =>
              do im <- get infos (i + 1);
              do a <- set a (i * N_IMAGE_PARAMS) (i_pixelScale im);
              do a <- set a (i * N_IMAGE_PARAMS + 1) (i_rotation im);
              do a <- set a (i * N_IMAGE_PARAMS + 2) (i_intensityScale im);
              do a <- set a (i * N_IMAGE_PARAMS + 3) (i_x0 im);
              set a (i * N_IMAGE_PARAMS + 4) (i_y0 im))
            (repeat (nofZ N 0%Z) (N_IMAGE_PARAMS * n));
    Ok (a, (5 * (Z.of_nat (length infos) - 1))%Z).

  (** core/imageparams_file_parser.cpp:204-211 *)
  Definition FindIfParamLimitsExist (p : mp_par T) : bool := p_fixed p || p_lim0 p || p_lim1 p.

  (** core/imageparams_file_parser.cpp:223-295. [lims0]: the incoming
      imageParamLimits, appended to. *)
  Definition GetImageDescriptionParams_limits (infos : list Info) (lims0 : list (mp_par T))
    : res (list T * Z * list (mp_par T) * bool) :=
    do r <- GetImageDescriptionParams infos;
    do s <- for_ (length infos - 1) (fun i (s : list (mp_par T) * bool) =>
              do im <- get infos (i + 1);
              let add (s : list (mp_par T) * bool) p :=
                (fst s ++ [p], if FindIfParamLimitsExist p then true else snd s) in
              Ok (add (add (add (add (add s (i_pixelScaleLim im)) (i_rotationLim im))
                      (i_intensityScaleLim im)) (i_x0Lim im)) (i_y0Lim im)))
            (lims0, false);
    Ok (fst r, snd r, fst s, snd s).
End ImgPar.
Arguments newInfo {T}. Arguments GetParameterAndLimits {T}. Arguments fix_par {T}.
Arguments StoreInfoFromLine {T}. Arguments add_info {T}. Arguments AddInfoFromLines {T}.
Arguments read_images {T}. Arguments ReadImageParamsFile {T}.
Arguments desc_values {T}. Arguments desc_limits {T}. Arguments FindIfParamLimitsExist {T}.
Arguments GetImageDescriptionParams {T}. Arguments GetImageDescriptionParams_limits {T}.
