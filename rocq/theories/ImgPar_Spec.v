(** What an image-description file says, stated without reference to the parser. *)
From Coq Require Import Ascii String List ZArith.
From Verif Require Import StrUtil_Spec Num Config_Model Config_Spec ImgPar_Model.
(* of the models only the records [mp_par], [ImageInfo] and [perImage_] are used here *)
Import ListNotations.
Local Open Scope list_scope.

(** One line about an image: a keyword with its value and (for some keywords)
    limits, or the size of the image given as a pair. *)
Inductive ientry :=
| EPlain (key val : text) (lim : limits_)
| ECols (c r : text)                           (* NCOLS,NROWS c,r *)
| ERows (r c : text).                          (* NROWS,NCOLS r,c *)
Definition pair_word (a b : text) : text := a ++ ascii_of_nat 44 :: b.
Definition entry_words (e : ientry) : list text :=
  match e with
  | EPlain k v l => k :: v :: limit_words l
  | ECols c r => [list_ascii_of_string "NCOLS,NROWS"; pair_word c r]
  | ERows r c => [list_ascii_of_string "NROWS,NCOLS"; pair_word r c]
  end.

(** An image: its lines, and possibly functions of its own. *)
Record img_ := mkImg { im_entries : list ientry; im_funcs : option (list block_) }.

Inductive iline :=
| IStart                                       (* IMAGE_START *)
| IEntry (e : ientry)
| IFuncs                                       (* FUNCTIONS_START *)
| IFun (d : line_).                            (* a line of the function section *)
Definition img_lines (im : img_) : list iline :=
  IStart :: map IEntry (im_entries im) ++
  match im_funcs im with
  | None => []
  | Some bs => IFuncs :: map IFun (flat_map block_lines bs)
  end.

(** The line [l] says [d]. For an entry: up to its comment, the words are those of
    the entry; the comment, if there is one, begins with a separate word, and when
    the entry has no limits that word has no comma. *)
Definition SaysI (d : iline) (l : text) : Prop :=
  match d with
  | IStart => ~ Kw "FUNCTIONS_START" l /\
              exists ws, Tokens Blank l (list_ascii_of_string "IMAGE_START" :: ws)
  | IFuncs => ~ Kw "IMAGE_START" l /\
              exists ws, Tokens Blank l (list_ascii_of_string "FUNCTIONS_START" :: ws)
  | IEntry e => ~ Kw "IMAGE_START" l /\ ~ Kw "FUNCTIONS_START" l /\ Words l (entry_words e) /\
      exists comment, Tokens Blank l (entry_words e ++ comment) /\
        match e, comment with
        | EPlain _ _ LNone, w :: _ => Forall (fun c => c <> ascii_of_nat 44) w /\
                                      w <> list_ascii_of_string "fixed"
        | _, _ => True
        end
  | IFun d => ~ Kw "IMAGE_START" l /\ ~ Kw "FUNCTIONS_START" l /\ Says d l
  end.
Inductive FileSaysI : list iline -> list text -> Prop :=
| FI_nil : FileSaysI [] []
| FI_skip l ds ls : Ignorable l -> FileSaysI ds ls -> FileSaysI ds (l :: ls)
| FI_line d l ds ls : SaysI d l -> FileSaysI ds ls -> FileSaysI (d :: ds) (l :: ls).

(** ---- what an entry says about a keyword ---- *)
Definition same_text (a b : text) : bool := if list_eq_dec ascii_dec a b then true else false.
Definition value_of (k : string) (e : ientry) : option text :=
  match e with
  | EPlain k' v _ => if same_text k' (list_ascii_of_string k) then Some v else None
  | _ => None
  end.
Definition limits_of (k : string) (e : ientry) : option limits_ :=
  match e with
  | EPlain k' _ l => if same_text k' (list_ascii_of_string k) then Some l else None
  | _ => None
  end.
Definition cols (e : ientry) : option text :=
  match e with ECols c _ | ERows _ c => Some c | EPlain _ _ _ => value_of "NCOLS" e end.
Definition rows (e : ientry) : option text :=
  match e with ECols _ r | ERows r _ => Some r | EPlain _ _ _ => value_of "NROWS" e end.
Definition orelse {A} (a b : option A) : option A := match a with Some _ => a | None => b end.
Definition is_given {A B} (v : B) (a : option A) : option B := option_map (fun _ => v) a.
Definition mask_zero_is_bad (e : ientry) : option bool :=
  orelse (is_given false (value_of "MASK_ZERO_IS_GOOD" e)) (is_given true (value_of "MASK_ZERO_IS_BAD" e)).
Definition error_kind (e : ientry) : option Z :=
  orelse (is_given 0%Z (value_of "ERRORS_ARE_SIGMAS" e))
    (orelse (is_given 1%Z (value_of "ERRORS_ARE_VARIANCES" e)) (is_given 2%Z (value_of "ERRORS_ARE_WEIGHTS" e))).

(** the last thing said, or the default *)
Definition last_said {A} (d : A) (f : ientry -> option A) (es : list ientry) : A :=
  fold_left (fun a e => match f e with Some v => v | None => a end) es d.
(** everything said, in order *)
Definition all_said {A} (f : ientry -> option A) (es : list ientry) : list A :=
  flat_map (fun e => match f e with Some v => [v] | None => [] end) es.

Section Values.
  Variable T : Type.
  Variable N : Num T.
  Variable strtod : text -> T.
  Variable strtol : text -> Z.
  Notation entry := (entry N strtod).

  Definition num (k : string) (e : ientry) : option T := option_map strtod (value_of k e).
  Definition int (k : string) (e : ientry) : option Z := option_map strtol (value_of k e).
  Definition file (k : string) (e : ientry) : option (option text) := option_map (@Some text) (value_of k e).
  Definition lims (k : string) (e : ientry) : option (mp_par T) := option_map entry (limits_of k e).
  (** PIXEL_SCALE and IMAGE_PA: fixed unless limits are given *)
  Definition fixed_lims (k : string) (e : ientry) : option (mp_par T) :=
    option_map (fun l => match l with LRange _ _ => entry l | _ => entry LFixed end) (limits_of k e).

  (** what the lines of an image say, without its functions *)
  Definition described (es : list ientry) : ImageInfo T :=
    {| i_dataFile := last_said None (file "DATA") es;
       i_maskFile := last_said None (file "MASK") es;
       i_maskBadIsZero := last_said false mask_zero_is_bad es;
       i_errorFile := last_said None (file "ERROR") es;
       i_errorType := last_said 0%Z error_kind es;
       i_psfFile := last_said None (file "PSF") es;
       i_weight := last_said (nofZ N 1) (num "WEIGHT") es;
       i_gain := last_said (nofZ N 1) (num "GAIN") es;
       i_readNoise := last_said (nofZ N 0) (num "READNOISE") es;
       i_originalSky := last_said (nofZ N 0) (num "ORIGINAL_SKY") es;
       i_expTime := last_said (nofZ N 1) (num "EXPTIME") es;
       i_nCombined := last_said 1%Z (int "NCOMBINED") es;
       i_x0 := last_said (nofZ N 0) (num "X0") es;
       i_y0 := last_said (nofZ N 0) (num "Y0") es;
       i_nColumns := last_said 0%Z (fun e => option_map strtol (cols e)) es;
       i_nRows := last_said 0%Z (fun e => option_map strtol (rows e)) es;
       i_pixelScale := last_said (nofZ N 1) (num "PIXEL_SCALE") es;
       i_intensityScale := last_said (nofZ N 1) (num "FLUX_SCALE") es;
       i_rotation := last_said (nofZ N 0) (num "IMAGE_PA") es;
       i_overFiles := all_said (value_of "OVERSAMPLED_PSF") es;
       i_overScales := all_said (int "OVERSAMPLE_SCALE") es;
       i_overRegions := all_said (value_of "OVERSAMPLED_REGION") es;
       i_perImage := None;
       i_pixelScaleLim := last_said (entry LNone) (fixed_lims "PIXEL_SCALE") es;
       i_rotationLim := last_said (entry LNone) (fixed_lims "IMAGE_PA") es;
       i_intensityScaleLim := last_said (entry LNone) (lims "FLUX_SCALE") es;
       i_x0Lim := last_said (entry LNone) (lims "X0") es;
       i_y0Lim := last_said (entry LNone) (lims "Y0") es |}.

  (** [Describes im i]: [i] holds what the image says, and its functions *)
  Definition Describes (im : img_) (i : ImageInfo T) : Prop :=
    match im_funcs im with
    | None => i = described (im_entries im)
    | Some bs => exists p, i = set_perImage (described (im_entries im)) (Some p) /\
        pi_names p = all_names bs /\
        pi_params p = map (fun q => strtod (fst q)) (all_params bs) /\
        pi_limits p = map (fun q => entry (snd q)) (all_params bs) /\
        pi_starts p = starts_from 0 bs /\
        pi_limFound p = existsb (fun q => found (snd q)) (all_params bs)
    end.

  (** limits that the documentation allows *)
  Definition GoodLimits (v : text) (l : limits_) : Prop := GoodPar N strtod (fun _ => true) v l.
  Definition no_comma (t : text) : Prop := Forall (fun c => c <> ascii_of_nat 44) t.
  Definition GoodEntry (e : ientry) : Prop :=
    match e with
    | EPlain k v l => GoodLimits v l /\ k <> list_ascii_of_string "NCOLS,NROWS" /\
                      k <> list_ascii_of_string "NROWS,NCOLS"
    | ECols a b | ERows a b => a <> [] /\ b <> [] /\ no_comma a /\ no_comma b
    end.
  Definition once (k : string) (es : list ientry) : Prop := (List.length (all_said (value_of k) es) <= 1)%nat.
  Definition GoodImg (im : img_) : Prop :=
    Forall GoodEntry (im_entries im) /\
    once "PIXEL_SCALE" (im_entries im) /\ once "IMAGE_PA" (im_entries im) /\
    match im_funcs im with
    | None => True
    | Some bs => Forall (GoodLine N strtod (fun _ => true)) (flat_map block_lines bs)
    end.
End Values.
Arguments num {T}. Arguments lims {T}. Arguments fixed_lims {T}. Arguments described {T}.
Arguments Describes {T}. Arguments GoodLimits {T}. Arguments GoodEntry {T}. Arguments GoodImg {T}.

(** ---- which lines are acceptable ---- *)
(** a section line, or at least two words before the comment *)
Definition Acceptable (l : text) : Prop :=
  Kw "IMAGE_START" l \/ Kw "FUNCTIONS_START" l \/ exists ws, Words l ws /\ (2 <= List.length ws)%nat.

(** [BadLines ls nums bad]: [bad] lists the numbers of the unacceptable lines, in order *)
Inductive BadLines : list text -> list Z -> list Z -> Prop :=
| BL_nil : BadLines [] [] []
| BL_good l ls n ns bad : Acceptable l -> BadLines ls ns bad -> BadLines (l :: ls) (n :: ns) bad
| BL_bad l ls n ns bad : ~ Acceptable l -> BadLines ls ns bad -> BadLines (l :: ls) (n :: ns) (n :: bad).
