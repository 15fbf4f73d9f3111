(** What a run of imfit or imfit-mcmc should fit, stated on the command line, the lines of
    the configuration file and the image files. *)
From Coq Require Import ZArith List Bool Ascii String.
From Verif Require Import Base Num Conv_Model Fit_Model CmdLine_Spec StrUtil_Spec Opt_Spec Start_Model.
Import ListNotations.
Local Open Scope string_scope.
Local Open Scope list_scope.

(** a file name up to an opening bracket, and names that are looked up on the network *)
Fixpoint before_bracket (w : word) : word :=
  match w with [] => [] | c :: t => if ascii_dec c (ascii_of_nat 91) then [] else c :: before_bracket t end.
Definition Url (w : word) : Prop := exists a b, w = a ++ wd "ftp://" ++ b \/ w = a ++ wd "http://" ++ b.

(** the image section in a name starts at pixel (x, y): name, name[extension], name[section],
    name[extension]...[section] *)
Inductive SectionStart : word -> Z -> Z -> Prop :=
| Whole base : no_char 91 base -> SectionStart base 1 1
| Ext1 base ext tail : no_char 91 base -> ext <> [] -> no_char 93 ext -> no_char 44 ext -> no_char 91 tail ->
    SectionStart (base ++ ascii_of_nat 91 :: ext ++ ascii_of_nat 93 :: tail) 1 1
| Sec1 base sec tail x y : no_char 91 base -> Section_ sec x y -> no_char 91 tail -> (x <= 2147483647)%Z -> (y <= 2147483647)%Z ->
    SectionStart (base ++ ascii_of_nat 91 :: sec ++ ascii_of_nat 93 :: tail) x y
| Sec2 base ext mid sec tail x y : no_char 91 base -> ext <> [] -> no_char 93 ext -> no_char 44 ext ->
    no_char 91 mid -> Section_ sec x y -> (x <= 2147483647)%Z -> (y <= 2147483647)%Z ->
    SectionStart (base ++ ascii_of_nat 91 :: ext ++ ascii_of_nat 93 :: mid
                  ++ ascii_of_nat 91 :: sec ++ ascii_of_nat 93 :: tail) x y.

(** a region "x1:x2,y1:y2", with or without brackets around it *)
Definition RegionCore (w : word) (x1 x2 y1 y2 : Z) : Prop :=
  exists a b c d, w = a ++ ascii_of_nat 58 :: b ++ ascii_of_nat 44 :: c ++ ascii_of_nat 58 :: d /\
    Digits a x1 /\ Digits b x2 /\ Digits c y1 /\ Digits d y2 /\
    (x1 <= 2147483647 /\ x2 <= 2147483647 /\ y1 <= 2147483647 /\ y2 <= 2147483647)%Z.
Definition RegionText (w : word) (x1 x2 y1 y2 : Z) : Prop :=
  RegionCore w x1 x2 y1 y2 \/
  exists v, w = ascii_of_nat 91 :: v ++ [ascii_of_nat 93] /\ RegionCore v x1 x2 y1 y2.

Section Wanted.
  Variable T : Type.
  Variable N : Num T.
  Variable strtod : word -> T.
  Variable dbl : string -> T.
  Variable FileExists : word -> bool.
  Variable ReadImage : word -> option (nat * nat * list T).
  Variable ReadConfig : word -> option (list (word * word)).
  Variable its : list item.          (* what the command line says *)

  Notation "'?' n" := (given its [n]) (at level 9).
  Definition first (n : string) : option word := hd_error (values its [n]).

  Definition config_name : word := match values its ["config"; "c"] with v :: _ => v | [] => wd "imfit_config.dat" end.
  Definition cfg : list (word * word) := match ReadConfig config_name with Some c => c | None => [] end.
  Definition image_name : word := hd [] (positional its).

  Definition columns (n : word) : nat := match ReadImage n with Some (c, _, _) => c | None => 0 end.
  Definition rows (n : word) : nat := match ReadImage n with Some (_, r, _) => r | None => 0 end.
  Definition pixels (n : word) : list T := match ReadImage n with Some (_, _, p) => p | None => [] end.

  (** command line before configuration file before default *)
  Definition number (opt keyword default : string) : T :=
    match values its [opt], last_value cfg [keyword] with
    | v :: _, _ => strtod v
    | [], Some v => strtod v
    | [], None => dbl default
    end.
  Definition combined_images : Z :=
    match values its ["ncombined"], last_value cfg ["NCOMBINED"] with
    | v :: _, _ => integer v
    | [], Some v => integer v
    | [], None => 1
    end.

  (** Cash before Poisson MLR before error image before model errors before data errors *)
  Definition statistic_wanted : statistic T :=
    if ?"cashstat" then Cash
    else if ?"poisson-mlr" || ?"mlr" then PMLR
    else match first "noise" with
         | Some e => ChiUserErrors (pixels e)
                       (if ?"errors-are-weights" then 120 else if ?"errors-are-variances" then 110 else 100)%Z
         | None => if ?"model-errors" then ChiModelErrors else ChiDataErrors
         end.
  (** the line about the fit statistic that belongs to it *)
  Definition announcement_of (s : statistic T) : announcement :=
    match s with
    | Cash => ACash | PMLR => APoisson | ChiUserErrors _ _ => AErrorImage
    | ChiModelErrors => AModelErrors | ChiDataErrors => ADataErrors
    end.
  Definition wanted : setup T := mkSetup
    (columns image_name) (rows image_name) (pixels image_name)
    (option_map (fun p => (columns p, rows p)) (first "psf"))
    (number "gain" "GAIN" "1.0") (number "readnoise" "READNOISE" "0.0") (number "exptime" "EXPTIME" "1.0")
    combined_images (number "sky" "ORIGINAL_SKY" "0.0")
    (option_map (fun k => (pixels k, if ?"mask-zero-is-bad" then 20 else 10)%Z) (first "mask"))
    statistic_wanted.
  Definition psf_wanted : option (psf_info T) :=
    option_map (fun p => mkPSF (pixels p) (columns p) (rows p) (negb (?"no-normalize"))) (first "psf").

  (** the oversampled regions: all with the only PSF image, or each with its own *)
  Definition own_of {A} (l : list A) (k : nat) (d : A) : A :=
    match l with [x] => x | _ => nth k l d end.
  Definition psf_names : list word := values its ["overpsf"].
  Definition scales : list Z := map integer (values its ["overpsf_scale"]).
  Definition region_texts : list word := values its ["overpsf_region"].

  (** ---- the files that must be there, and what they must contain ---- *)
  Definition Present (n : word) : Prop := Url n \/ FileExists (before_bracket n) = true.
  Definition AllPresent : Prop :=
    FileExists config_name = true /\ Present image_name /\
    forall o n, In o ["mask"; "noise"; "psf"] -> first o = Some n -> Present n.
  Definition SameSize (n : word) : Prop :=
    ReadImage n <> None /\ columns n = columns image_name /\ rows n = rows image_name.
  Definition PsfUsable (n : word) : Prop :=
    ReadImage n <> None /\ forallb (nfin N) (pixels n) = true /\
    (?"no-normalize" = true \/ nleb N (fold_left (nadd N) (pixels n) (nofZ N 0)) (nofZ N 0) = false).
  Definition OverUsable : Prop :=
    region_texts <> [] /\ List.length scales = List.length psf_names /\
    (List.length psf_names = 1%nat \/ List.length psf_names = List.length region_texts) /\
    forall n, In n psf_names -> ReadImage n <> None /\ forallb (nfin N) (pixels n) = true.
  Definition Acceptable : Prop :=
    AllPresent /\ ReadConfig config_name <> None /\ positional its <> [] /\ ReadImage image_name <> None /\
    (forall o n, In o ["mask"; "noise"] -> first o = Some n -> SameSize n) /\
    (forall n, first "psf" = Some n -> PsfUsable n) /\
    (psf_names <> [] -> OverUsable).
  (** imfit will fit with the Levenberg-Marquardt solver *)
  Definition default_solver : bool := negb (?"de" || ?"de-lhs" || ?"nm" || has its "nlopt").
  Definition no_fit : bool := ?"chisquare-only" || ?"fitstat-only".
  (** the Cash statistic is refused *)
  Definition cash_refused (p : program) : bool :=
    ?"cashstat" && match p with Imfit => default_solver && negb no_fit | _ => true end.

  (** ---- well-formed input: the rest of what the properties assume ---- *)
  (** cfitsio returns as many pixels as the image has, and no empty image; the empty
      name is no file *)
  Definition reader : Prop :=
    FileExists [] = false /\
    forall n c r p, ReadImage n = Some (c, r, p) -> (1 <= c)%nat /\ (1 <= r)%nat /\ List.length p = (c * r)%nat.
  (** words of a command line contain no NUL *)
  Definition clean : Prop := Forall no_nul (positional its) /\ forall ns, Forall no_nul (values its ns).
  Definition numbers_ok : Prop :=
    Forall (fun nv => no_nul (snd nv)) cfg /\
    (forall v, Used its cfg "ncombined" ["NCOMBINED"] v -> Good Count v) /\
    nltb N (nofZ N 0) (s_gain wanted) = true /\ nleb N (nofZ N 0) (s_readNoise wanted) = true /\
    nltb N (nofZ N 0) (s_expTime wanted) = true /\ nleb N (nofZ N 0) (s_sky wanted) = true.
  (** region [w] is well-formed and meets the image, which starts at pixel (x, y) of the
      file *)
  Definition RegionOk (x y : Z) (w : word) : Prop :=
    exists x1 x2 y1 y2, RegionText w x1 x2 y1 y2 /\ (x1 < x2)%Z /\ (y1 < y2)%Z /\
      (x <= x2)%Z /\ (x1 < x + Z.of_nat (columns image_name))%Z /\
      (y <= y2)%Z /\ (y1 < y + Z.of_nat (rows image_name))%Z.
  (** the pixels of PSF image [p], normalised [k] times *)
  Definition normalised_times (k : nat) (p : word) : res (list T) :=
    Nat.iter k (fun v => do v <- v; NormalizePSF N (columns p * rows p) v) (Ok (pixels p)).
  (** normalising the PSF image that several regions share produces no infinity or NaN *)
  Definition stays_finite : Prop :=
    forall n k v, psf_names = [n] -> (k < List.length region_texts)%nat ->
      normalised_times k n = Ok v -> forallb (nfin N) v = true.
  (** region [w] of the file, number [k], in pixels of the image that is fitted: what the
      model object is told about it. The PSF is always to be normalised. The pixels of a
      PSF image that several regions share are normalised once more for each of them. *)
  Definition OverWanted (x y : Z) (k : nat) (w : word) (c : region_call T) : Prop :=
    let p := own_of psf_names k [] in
    exists x1 x2 y1 y2 v, RegionText w x1 x2 y1 y2 /\
      normalised_times (if Nat.eqb (List.length psf_names) 1 then k else 0) p = Ok v /\
      c = mkCall (mkPSF v (columns p) (rows p) true)
            (x1 - (x - 1)) (x2 - (x - 1)) (y1 - (y - 1)) (y2 - (y - 1)) (own_of scales k 0%Z).
  Definition AllWanted (x y : Z) (cs : list (region_call T)) : Prop :=
    match psf_names with
    | [] => cs = []
    | _ => List.length cs = List.length region_texts /\
           forall k w c, nth_error region_texts k = Some w -> nth_error cs k = Some c -> OverWanted x y k w c
    end.
End Wanted.
Arguments columns {T}. Arguments rows {T}. Arguments pixels {T}. Arguments number {T}. Arguments statistic_wanted {T}.
Arguments announcement_of {T}. Arguments wanted {T}. Arguments psf_wanted {T}. Arguments SameSize {T}. Arguments PsfUsable {T} N. Arguments OverUsable {T} N.
Arguments Acceptable {T} N. Arguments reader {T}. Arguments numbers_ok {T} N. Arguments RegionOk {T}.
Arguments normalised_times {T} N. Arguments stays_finite {T} N. Arguments OverWanted {T} N. Arguments AllWanted {T} N.
