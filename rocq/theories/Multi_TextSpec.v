(** What the image-info file saved by multimfit has to say, stated without reference to
    the code that writes it. *)
From Coq Require Import Ascii String List ZArith Reals.
From Verif Require Import StrUtil_Spec Num Config_Spec Save_Spec.
From Verif Require Import Config_Model ImgPar_Model. (* only the records [mp_par] and [ImageInfo] *)
Import ListNotations.
Local Open Scope list_scope.

(** a file name or region: one word, of moderate length, without a section keyword *)
Definition GoodFile (w : text) : Prop :=
  w <> [] /\ length w <= 900 /\ Forall (fun c => ~ Blank c /\ c <> ch 0 /\ c <> ch 35) w /\
  ~ Kw "IMAGE_START" w /\ ~ Kw "FUNCTIONS_START" w.
Definition GoodFile' (f : option text) : Prop := match f with None => True | Some w => GoodFile w end.

(** the positive values of an [int] *)
Definition Int (z : Z) : Prop := (0 < z <= 2147483647)%Z.
(** "%d" writes an [int] as a decimal numeral, which strtol reads *)
Record IntsOK (dec : nat -> text) (strtol : text -> Z) : Prop := mkIntsOK {
  dec_value : forall n, Int (Z.of_nat n) ->
    Digits (dec n) (Z.of_nat n) /\ length (dec n) <= 400 /\ hd (ch 32) (dec n) <> ch 48;
  strtol_value : forall s v, Digits s v -> Int v -> hd (ch 32) s <> ch 48 -> strtol s = v }.

Section Info.
  Variable T : Type.
  Variable N : Num T.
  Variable toR : T -> R.
  Variable finite : T -> Prop.
  Variable strtod : text -> T.
  Let zero := nofZ N 0.
  Let one := nofZ N 1.

  (** an image whose information can be written: one combined frame, readable names,
      and for every oversampled PSF a scale and a region *)
  Record Savable (im : ImageInfo T) : Prop := mkSavable {
    sv_combined : i_nCombined im = 1%Z;
    sv_data : GoodFile' (i_dataFile im); sv_mask : GoodFile' (i_maskFile im);
    sv_error : GoodFile' (i_errorFile im); sv_psf : GoodFile' (i_psfFile im);
    sv_sky : finite (i_originalSky im); sv_gain : finite (i_gain im); sv_noise : finite (i_readNoise im);
    sv_files : Forall GoodFile (i_overFiles im); sv_regions : Forall GoodFile (i_overRegions im);
    sv_scales : Forall Int (i_overScales im);
    sv_counts : length (i_overFiles im) = length (i_overScales im) /\
                (length (i_overFiles im) <= length (i_overRegions im))%nat /\
                (i_overFiles im = [] -> i_overRegions im = []) }.

  (** [x] is the number [v] as printed and read again, or the default [d] if [v] is [d] *)
  Definition Again (d v x : T) : Prop :=
    if neqb N v d then x = d else Rounded toR strtod x (v, false).

  (** [im'] has the files and data properties of [im] *)
  Record SameData (im im' : ImageInfo T) : Prop := mkSameData {
    sd_data : i_dataFile im' = i_dataFile im; sd_mask : i_maskFile im' = i_maskFile im;
    sd_error : i_errorFile im' = i_errorFile im; sd_psf : i_psfFile im' = i_psfFile im;
    sd_sky : Again zero (i_originalSky im) (i_originalSky im');
    sd_gain : Again one (i_gain im) (i_gain im');
    sd_noise : Again zero (i_readNoise im) (i_readNoise im');
    sd_files : i_overFiles im' = i_overFiles im;
    sd_scales : i_overScales im' = i_overScales im;
    sd_regions : i_overRegions im' = i_overRegions im }.

  (** nothing else is said: the rest has its default value *)
  Record RestDefault (im' : ImageInfo T) : Prop := mkRestDefault {
    rd_weight : i_weight im' = one; rd_time : i_expTime im' = one; rd_combined : i_nCombined im' = 1%Z;
    rd_maskFormat : i_maskBadIsZero im' = false; rd_errorType : i_errorType im' = 0%Z;
    rd_size : i_nColumns im' = 0%Z /\ i_nRows im' = 0%Z; rd_functions : i_perImage im' = None }.

  Definition free : mp_par T := mkPar false false false zero zero.
  Definition fixed_ : mp_par T := mkPar true false false zero zero.

  (** the description read again is that of the reference image *)
  Record RefDescription (im' : ImageInfo T) : Prop := mkRefDescription {
    rf_values : (i_pixelScale im', i_rotation im', i_intensityScale im', i_x0 im', i_y0 im') = (one, zero, one, zero, zero);
    rf_limits : (i_pixelScaleLim im', i_rotationLim im', i_intensityScaleLim im', i_x0Lim im', i_y0Lim im') =
                (free, free, free, free, free) }.
  (** ... or consists of the five values [v]; pixel scale and rotation are then fixed,
      nothing else has limits *)
  Record HasValues (v : list T) (im' : ImageInfo T) : Prop := mkHasValues {
    hv_values : Forall2 (Rounded toR strtod) [i_pixelScale im'; i_rotation im'; i_intensityScale im'; i_x0 im'; i_y0 im']
                  (combine v [false; false; false; true; true]);
    hv_limits : (i_pixelScaleLim im', i_rotationLim im', i_intensityScaleLim im', i_x0Lim im', i_y0Lim im') =
                (fixed_, fixed_, free, free, free) }.

  (** what has to be read from the file: [params] begins with the five description
      values of every image after the first *)
  Definition InfoBack (infos : list (ImageInfo T)) (params : list T) (infos' : list (ImageInfo T)) : Prop :=
    length infos' = length infos /\
    forall k im im', nth_error infos k = Some im -> nth_error infos' k = Some im' ->
      SameData im im' /\ RestDefault im' /\
      match k with
      | 0 => RefDescription im'
      | S k => HasValues (firstn 5 (skipn (5 * k) params)) im'
      end.
End Info.
Arguments Savable {T}. Arguments Again {T}. Arguments SameData {T}. Arguments RestDefault {T}. Arguments RefDescription {T}.
Arguments HasValues {T}. Arguments InfoBack {T}.
