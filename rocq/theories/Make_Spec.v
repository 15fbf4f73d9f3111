(** What a run of makeimage should leave behind, stated on the command line and on the
    model in the configuration file. *)
From Coq Require Import ZArith List Bool Ascii String Reals.
From Verif Require Import Base Num Sums Params_Spec Conv_Model Conv_Spec Image_Model Image_Spec Par_Model Par_Spec
  CmdLine_Spec Opt_Spec Start_Spec Config_Model Build_Spec Save_Spec.
From Verif Require Import Make_Model.   (* only the record [product] *)
Import ListNotations.
Local Open Scope string_scope.
Local Open Scope list_scope.
Local Open Scope nat_scope.

Definition newline : word := [ascii_of_nat 10].
Definition blanks (n : nat) : word := repeat (ascii_of_nat 32) n.
(** text of at most [n] characters, none of them NUL *)
Definition Short (n : nat) (s : word) : Prop := List.length s <= n /\ no_nul s.
(** an image of w x h pixels, row by row *)
Definition Shows (w h : nat) (pix : list R) (value : nat -> nat -> R) : Prop :=
  List.length pix = w * h /\ forall c r, c < w -> r < h -> nth (r * w + c) pix 0%R = value c r.

Section Wanted.
  (** what the functions compute, and the interpolators for point sources *)
  Variable interpolator : Z -> list R -> nat -> nat -> R -> R -> R.
  Variable implement : word -> component R.
  Variable strtod : word -> R.
  Variable log10 : R -> R.
  Variables e4 f4 f5 e3 g : R -> word.   (* "%10.4e", "%6.4f", "%12.5f", "%12.3e", "%g" *)
  Variable dec : nat -> word.
  Variables timestamp program : word.
  Variable ReadImage : word -> option (nat * nat * list R).
  Variable its : list item.              (* the command line *)
  Variable bs : list (sblock R).         (* the model *)
  Variables w h : nat.                   (* the size of the image *)

  Notation "'?' n" := (given its [n]) (at level 9).
  Definition config_file : word := hd [] (positional its).
  Definition output_file : word := match values its ["output"; "o"] with v :: _ => v | [] => wd "modelimage.fits" end.
  Definition psf_used : option (psf_info R) := psf_wanted ReadImage its.

  (** ---- images ---- *)
  Definition functions : list (func R) := map (fun f => co_func (implement (s_name f))) (sall bs).
  Definition places : list (R * R * list R) := seen (map as_blk bs).
  (** point sources are drawn with the PSF, interpolated as the first of them asks *)
  Definition Interpolates (interp : R -> R -> R) : Prop :=
    forall f m t p, FirstPoint (sall bs) f -> Asked f m -> MethodCode m t -> psf_used = Some p ->
      interp = interpolator t (used_psf (ps_pixels p) (ps_normalize p)) (ps_cols p) (ps_rows p).
  (** comments in the header *)
  Definition notes : list word :=
    [wd "Model image generated by " ++ program; wd "Using config file " ++ config_file] ++
    match first its "psf" with Some n => [wd "Using convolution with PSF image " ++ n] | None => [] end.
  Definition function_note (f : sfunc R) : word :=
    wd "FUNCTION " ++ s_name f ++ match s_label f with [] => [] | l => wd " # LABEL " ++ l end.
  Definition function_file (root : word) (i : nat) (f : sfunc R) : word :=
    root ++ dec (i + 1) ++ wd "_" ++ s_name f ++ wd ".fits".

  Definition psf_cols : nat := match psf_used with Some p => ps_cols p | None => 0 end.
  Definition psf_rows : nat := match psf_used with Some p => ps_rows p | None => 0 end.
  (** the images: the model; the model with a margin of the size of the PSF on each side;
      one for each function. The last add up to the first. *)
  Definition Images (l : list (product R)) : Prop :=
    exists interp model wide single,
      Interpolates interp /\
      l = (if saving its then
             PImage output_file (Z.of_nat w) (Z.of_nat h) model notes ::
             (if ?"save-expanded" then
                [PImage (wd "expanded_" ++ output_file) (Z.of_nat (w + 2 * psf_cols)) (Z.of_nat (h + 2 * psf_rows)) wide notes]
              else []) ++
             match first its "output-functions" with
             | Some root => map (fun '(i, f) => PImage (function_file root i f) (Z.of_nat w) (Z.of_nat h) (single i) (notes ++ [function_note f]))
                              (combine (seq 0 (List.length (sall bs))) (sall bs))
             | None => []
             end
           else []) /\
      Shows w h model (image_pixel (psf_spec psf_used) interp functions places) /\
      Shows w h model (fun c r => nth ((r + psf_rows) * (w + 2 * psf_cols) + (c + psf_cols)) wide 0%R) /\
      List.length wide = (w + 2 * psf_cols) * (h + 2 * psf_rows) /\
      (forall i f e, nth_error functions i = Some f -> nth_error places i = Some e ->
         Shows w h (single i) (image_pixel (psf_spec psf_used) interp [f] [e])) /\
      Shows w h model (fun c r => rsum (List.length functions) (fun i => nth (r * w + c) (single i) 0%R)).

  (** ---- fluxes ---- *)
  Definition estimation_size : nat := Z.to_nat (match values its ["estimation-size"] with v :: _ => integer v | [] => 5000 end).
  (** a background has none; otherwise the flux in the middle of a square image *)
  Definition flux_of (f : sfunc R) : R :=
    let c := implement (s_name f) in
    if co_background c then 0%R else component_flux c (s_vals f) estimation_size estimation_size.
  Definition total_flux : R := rsuml (map flux_of (sall bs)).
  Definition zero_point : option R := option_map strtod (first its "zero-point").
  Definition magnitude (flux : R) : option R :=
    match zero_point with
    | Some z => if Rlt_dec 0 flux then Some (z - 5 / 2 * log10 flux)%R else None
    | None => None
    end.
  Definition fraction_text (x : R) : word :=
    if Req_EM_T x 0 then f5 x else if Rle_dec (1 / 10000) x then f5 x else e3 x.
  Definition table_row (name label : word) (flux fraction : R) : word :=
    (name ++ blanks (25 - List.length name)) ++ wd " " ++ e4 flux ++
    match magnitude flux with Some m => wd "   " ++ f4 m | None => wd "      ---" end ++
    fraction_text fraction ++
    match label with [] => [] | _ => wd "    " ++ label end ++ newline.
  Definition table_rows : list word :=
    map (fun f => table_row (s_name f) (s_label f) (flux_of f) (flux_of f / total_flux)) (sall bs) ++
    [newline ++ table_row (wd "Total") [] total_flux 1].
  Definition Tables : list (product R) :=
    (if ?"print-fluxes" then
       [PPrinted ((wd "Component                 Flux        Magnitude   Fraction   Label" ++ newline) :: table_rows)] else []) ++
    match first its "save-fluxes" with
    | Some name =>
      [PText name
        ([wd "# Fluxes estimated on " ++ timestamp ++ wd " by " ++ program ++ newline;
          wd "# Using config file " ++ config_file ++ newline] ++
         match zero_point with Some z => [wd "# (photometric zero point = " ++ g z ++ wd ")" ++ newline] | None => [] end ++
         [wd "#" ++ newline;
          wd "# Component               Flux        Magnitude   Fraction   Label" ++ newline] ++ table_rows)]
    | None => []
    end.

  (** ---- what is assumed ---- *)
  (** the C library's texts are of moderate length *)
  Definition PrintfShort : Prop :=
    (forall x, Short 400 (e4 x) /\ Short 400 (f4 x) /\ Short 400 (f5 x) /\ Short 400 (e3 x) /\ Short 400 (g x)) /\
    (forall n, Short 20 (dec n)) /\ Short 100 timestamp /\ Short 100 program.
  (** names and labels are of moderate length *)
  Definition NamesShort : Prop :=
    Short 900 config_file /\ (forall n o, In o ["psf"; "output-functions"] -> first its o = Some n -> Short 900 n) /\
    Forall (fun f => Short 900 (s_label f)) (sall bs).
  (** the functions take the parameters of the table; PointSource is the only point source
      (PointSourceRot is not covered), and knows its flux *)
  Definition Implemented (f : sfunc R) : Prop :=
    let c := implement (s_name f) in
    fn_nParams (co_func c) = List.length (s_vals f) /\ s_name f <> PSR /\
    (Image_Model.is_point (co_func c) = true <-> s_name f = PS) /\
    (s_name f = PS -> forall p x y, co_total c p x y <> None).
  (** the configuration file describes the model *)
  Definition Describes (po : pout R) : Prop :=
    o_names po = map s_name (sall bs) /\ o_labels po = map s_label (sall bs) /\ o_starts po = sstarts bs /\
    o_opt po = map s_opts (sall bs) /\ o_params po = sflat bs.
  (** a zero point of -10000 means none *)
  Definition ZeroPointOk (dbl : string -> R) : Prop :=
    dbl "-10000.0" = (-10000)%R /\ forall z, zero_point = Some z -> z <> (-10000)%R.

  (** the size of the PSF image, if one is given *)
  Definition psf_size : option (Z * Z) := option_map (fun p => (Z.of_nat (ps_cols p), Z.of_nat (ps_rows p))) psf_used.
End Wanted.

(** A sensible call: a command line that is accepted, a configuration file that is there
    and describes a model that can be built, an image of at least one pixel, and a PSF
    image that can be read and, unless --no-normalize is given, has a positive sum.
    --save-expanded needs a PSF; regions with oversampled PSFs are not covered. *)
Record Sensible (implement : word -> component R) (strtod : word -> R) (dbl : string -> R)
    (FileExists : word -> bool) (ReadImage : word -> option (nat * nat * list R)) (GetImageSize : word -> option (Z * Z))
    (ReadConfig : word -> option (list (word * word) * pout R))
    (e4 f4 f5 e3 g : R -> word) (dec : nat -> word) (timestamp program : word)
    (its : list item) (ws : list word) (bs : list (sblock R)) (w h : nat) : Prop := mkSensible {
  (* the command line *)
  se_says : Says makeimage_sheet its ws;
  se_accepted : Accepted makeimage_sheet its;
  se_clean : clean its;
  se_regions : values its ["overpsf"] = [];
  se_expanded : given its ["save-expanded"] = true -> first its "psf" <> None;
  (* the files *)
  se_there : FileExists (config_file its) = true;
  se_config : exists cfg po, ReadConfig (config_file its) = Some (cfg, po) /\ Describes bs po /\
    (forall v, SizeLine its cfg v -> Good Count v) /\
    size_wanted GetImageSize its cfg = Size (Z.of_nat w) (Z.of_nat h);
  se_size : 1 <= w /\ 1 <= h;
  se_noname : GetImageSize [] = None;
  se_reader : reader FileExists ReadImage;
  se_psf : forall n, first its "psf" = Some n -> PsfUsable NumR ReadImage its n;
  (* the model *)
  se_blocks : bs <> [] /\ Forall (fun b => s_funcs b <> []) bs;
  se_buildable : Buildable (psf_size ReadImage its) (sall bs);
  se_sized : Forall Sized (sall bs);
  se_implemented : Forall (Implemented implement) (sall bs);
  (* texts and numbers *)
  se_printf : PrintfShort e4 f4 f5 e3 g dec timestamp program;
  se_names : NamesShort its bs;
  se_zero : ZeroPointOk strtod its dbl }.
