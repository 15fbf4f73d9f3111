(** Property C54: image-description files. *)
From Coq Require Import Ascii String List ZArith Reals Lra.
From Verif Require Import Config_Model StrUtil_Spec StrUtil_Proof Config_Spec Config_Proof
                          ImgPar_Model ImgPar_Spec ImgPar_Proof.
Local Open Scope list_scope.

(** C54. Full statement (false of the code, see the _refuted theorems):
      every accepted image-description block yields its parameter values and limits as
      written; rejected lines are reported with their true line number.
    What holds: a file that lays out (with any blanks, blank lines, comment lines and
    separated comments) a list of images, with limits that the documentation allows and
    PIXEL_SCALE and IMAGE_PA at most once per image, is accepted and every image gets
    what its lines say, functions included. *)
Theorem C54_round_trip_partial :
  forall (T : Type) (N : Num T) (strtod : str -> T) (strtol : str -> Z) (IsNumeric : str -> bool)
         (junk : Z) (file : list str) (ims : list img_) (opt : list smap),
  FileSaysI (flat_map img_lines ims) file -> ims <> [] -> Forall (GoodImg N strtod) ims ->
  exists infos opt',
    ReadImageParamsFile N strtod strtol IsNumeric junk file opt =
      Ok (0%Z, Some (List.length ims, infos), [], opt') /\
    Forall2 (Describes N strtod strtol) ims infos.
Proof. intros T N sd sl isn junk file ims opt. exact (@read_file T N sd sl isn junk file ims opt). Qed.
Print Assumptions C54_round_trip_partial.

(** a file of two images, with comments, limits and a function of its own *)
Definition ex_imgs : list img_ :=
  [mkImg [EPlain (lit "DATA") (lit "a.fits") LNone; EPlain (lit "GAIN") (lit "4") LNone] None;
   mkImg [EPlain (lit "DATA") (lit "b.fits") LNone; ECols (lit "100") (lit "200");
          EPlain (lit "PIXEL_SCALE") (lit "2") (LRange (lit "1") (lit "3"));
          EPlain (lit "IMAGE_PA") (lit "30") LNone;
          EPlain (lit "X0") (lit "12") (LRange (lit "10") (lit "15"));
          EPlain (lit "Y0") (lit "13") LFixed]
         (Some [mkBlock (lit "5", LNone) (lit "6", LFixed)
                  [mkFunc (lit "FlatSky") [mkParam (lit "I_sky") (lit "7") (LRange (lit "0") (lit "9"))]]])].
Definition ex_image_file : list str :=
  map lit ["# images"; "IMAGE_START"; "  DATA   a.fits"; ""; "GAIN 4 # e-/ADU"; "IMAGE_START # second"; "DATA b.fits";
           "NCOLS,NROWS 100,200"; "PIXEL_SCALE 2 1,3"; "IMAGE_PA 30"; "X0 12 10,15"; "Y0  13  fixed";
           "FUNCTIONS_START"; "X0 5"; "Y0 6 fixed"; "FUNCTION FlatSky"; "I_sky 7 0,9"]%string.

Ltac nokw := intros ?K; apply has_true in K; vm_compute in K; discriminate K.
Ltac toks s :=
  let H := fresh in destruct (SplitStringAdd_ok ws_delims (lit s) []) as (? & H & ?); vm_compute in H;
  inversion H; subst; assumption.
Ltac words body := exists (lit body); split; [apply Body_chop; reflexivity | toks body].
Ltac ient full body com := split; [nokw|split; [nokw|split; [words body|exists com; split; [toks full|cbn; auto]]]].
Ltac ifun body := split; [nokw|split; [nokw|split; [words body | try (repeat split); nokw]]].
Example C54_hyp_example : FileSaysI (flat_map img_lines ex_imgs) ex_image_file.
Proof.
  unfold ex_image_file, ex_imgs, img_lines, block_lines, func_lines.
  cbn [map flat_map app im_entries im_funcs bl_x bl_y bl_funcs fst snd fu_name fu_params].
  apply FI_skip. { exists [], (lit "# images"). repeat split; auto. right. eexists. reflexivity. }
  apply FI_line. { split; [nokw|]. exists []. toks "IMAGE_START"%string. }
  apply FI_line. { ient "  DATA   a.fits"%string "  DATA   a.fits"%string (@nil str). }
  apply FI_skip. { exists [], []. repeat split; auto. }
  apply FI_line. { ient "GAIN 4 # e-/ADU"%string "GAIN 4 "%string [lit "#"; lit "e-/ADU"].
                   split; [repeat constructor|]; discriminate. }
  apply FI_line. { split; [nokw|]. exists [lit "#"; lit "second"]. toks "IMAGE_START # second"%string. }
  apply FI_line. { ient "DATA b.fits"%string "DATA b.fits"%string (@nil str). }
  apply FI_line. { ient "NCOLS,NROWS 100,200"%string "NCOLS,NROWS 100,200"%string (@nil str). }
  apply FI_line. { ient "PIXEL_SCALE 2 1,3"%string "PIXEL_SCALE 2 1,3"%string (@nil str). }
  apply FI_line. { ient "IMAGE_PA 30"%string "IMAGE_PA 30"%string (@nil str). }
  apply FI_line. { ient "X0 12 10,15"%string "X0 12 10,15"%string (@nil str). }
  apply FI_line. { ient "Y0  13  fixed"%string "Y0  13  fixed"%string (@nil str). }
  apply FI_line. { split; [nokw|]. exists []. toks "FUNCTIONS_START"%string. }
  apply FI_line. { ifun "X0 5"%string. }
  apply FI_line. { ifun "Y0 6 fixed"%string. }
  apply FI_line. { ifun "FUNCTION FlatSky"%string. }
  apply FI_line. { ifun "I_sky 7 0,9"%string. }
  constructor.
Qed.
Definition value (s : str) : R := IZR (read_digits s 0).
Example C54_good_example : Forall (GoodImg NumR value) ex_imgs /\ ex_imgs <> [].
Proof.
  split; [|discriminate]. unfold ex_imgs.
  assert (D : forall s, forallb is_digit s = true -> no_comma s).
  { intros s H. apply Forall_forall. intros c Hc E. rewrite forallb_forall in H. specialize (H c Hc).
    rewrite E in H. discriminate H. }
  assert (RG : forall v lo hi, lo <> [] -> hi <> [] -> forallb is_digit lo = true -> forallb is_digit hi = true ->
            (read_digits lo 0 < read_digits hi 0)%Z -> (read_digits lo 0 <= read_digits v 0 <= read_digits hi 0)%Z ->
            GoodLimits NumR value v (LRange lo hi)).
  { intros v lo hi H1 H2 H3 H4 H5 [H6 H7]. unfold GoodLimits, GoodPar, value.
    repeat (split; [solve [auto | now apply D]|]). cbn -[Rleb Rltb read_digits].
    apply IZR_lt in H5. apply IZR_le in H6. apply IZR_le in H7.
    split; [apply Rleb_false; lra|]. split; apply Rltb_false; lra. }
  assert (GR : forall v, GoodLimits NumR value v LNone) by (intros; split; auto).
  assert (GF : forall v, GoodLimits NumR value v LFixed) by (intros; split; auto).
  constructor; [|constructor; [|constructor]].
  - assert (O : forall k, once k (im_entries (mkImg [EPlain (lit "DATA") (lit "a.fits") LNone; EPlain (lit "GAIN") (lit "4") LNone] None)) <->
        (List.length (all_said (value_of k) [EPlain (lit "DATA") (lit "a.fits") LNone; EPlain (lit "GAIN") (lit "4") LNone]) <= 1)%nat) by reflexivity.
    split; [|split; [|split; [|exact I]]]; [|apply O; vm_compute; auto..].
    repeat (constructor; [split; [auto|split; discriminate]|]). constructor.
  - split; [|split; [vm_compute; auto|split; [vm_compute; auto|]]].
    + constructor; [split; [auto|split; discriminate]|].
      constructor; [repeat split; try discriminate; apply D; reflexivity|].
      constructor; [split; [apply RG; try discriminate; reflexivity || (vm_compute; split; discriminate)|split; discriminate]|].
      constructor; [split; [auto|split; discriminate]|].
      constructor; [split; [apply RG; try discriminate; reflexivity || (vm_compute; split; discriminate)|split; discriminate]|].
      constructor; [split; [auto|split; discriminate]|]. constructor.
    + cbn [im_funcs]. unfold block_lines, func_lines.
      cbn [map flat_map app bl_x bl_y bl_funcs fst snd fu_name fu_params].
      constructor; [apply GR|]. constructor; [apply GF|]. constructor; [exact I|].
      constructor; [|constructor]. apply RG; try discriminate; reflexivity || (vm_compute; split; discriminate).
Qed.

(** the values and limits of images 2, 3, ... are laid out five per image *)
Theorem C54_description_vector : forall (T : Type) (N : Num T) (infos : list (ImageInfo T)) lims0,
  infos <> [] ->
  let values := flat_map (fun i => [i_pixelScale i; i_rotation i; i_intensityScale i; i_x0 i; i_y0 i]) (tl infos) in
  let limits := flat_map (fun i => [i_pixelScaleLim i; i_rotationLim i; i_intensityScaleLim i; i_x0Lim i; i_y0Lim i]) (tl infos) in
  GetImageDescriptionParams N infos = Ok (values, (5 * (Z.of_nat (List.length infos) - 1))%Z) /\
  GetImageDescriptionParams_limits N infos lims0 =
    Ok (values, (5 * (Z.of_nat (List.length infos) - 1))%Z, lims0 ++ limits,
        existsb (fun p => p_fixed p || p_lim0 p || p_lim1 p) limits).
Proof.
  intros T N infos lims0 H. split; [exact (desc_params N H)|exact (desc_limits_ok N lims0 H)].
Qed.
Print Assumptions C54_description_vector.
Example C54_vector_example : forall (a b : ImageInfo R), [a; b] <> [].
Proof. discriminate. Qed.

(** vetting, when it is given the true line numbers: the lines that are neither section
    lines nor have two words are reported, with their numbers and in order, and a
    missing IMAGE_START line is reported after them *)
Theorem C54_vetting : forall (IsNumeric : str -> bool) (ls : list str) (nums : list Z),
  List.length nums = List.length ls -> ls <> [] ->
  exists bad, BadLines ls nums bad /\
    ((exists l, In l ls /\ Kw "IMAGE_START" l) ->
     VetInputLines IsNumeric ls nums = Ok (Nat.eqb (List.length bad) 0, map (fun k => ((-4)%Z, k)) bad)) /\
    (~ (exists l, In l ls /\ Kw "IMAGE_START" l) ->
     VetInputLines IsNumeric ls nums = Ok (false, map (fun k => ((-4)%Z, k)) bad ++ [((-3)%Z, 0%Z)])).
Proof.
  intros isn ls nums HL Hne. destruct (@vet_spec isn ls nums HL Hne) as (bad & errs & E & HB & Ee).
  exists bad. split; auto.
  assert (X : existsb (has "IMAGE_START") ls = true <-> exists l, In l ls /\ Kw "IMAGE_START" l).
  { rewrite existsb_exists. split; intros (l & H1 & H2); exists l; split; auto; now apply has_true. }
  split; intros H.
  - apply X in H. rewrite H, app_nil_r in Ee. rewrite E, Ee, map_length. reflexivity.
  - assert (Hf : existsb (has "IMAGE_START") ls = false).
    { destruct (existsb (has "IMAGE_START") ls); auto. exfalso. apply H, X. reflexivity. }
    rewrite Hf in Ee. rewrite E, Ee, app_length. cbn [List.length]. rewrite Nat.add_1_r. reflexivity.
Qed.
Print Assumptions C54_vetting.
Example C54_vetting_example :
  VetInputLines (fun _ => true) (map lit ["IMAGE_START"; "DATA"; "GAIN 4"; "X0 #1"]%string) [2; 5; 7; 8]%Z =
  Ok (false, [((-4)%Z, 5%Z); ((-4)%Z, 8%Z)]).
Proof. reflexivity. Qed.

(** but ReadImageParamsFile hands it an uninitialised number for every line: whatever
    the file, every rejected line is reported with that number *)
Theorem C54_line_number_refuted :
  forall (T : Type) (N : Num T) (strtod : str -> T) (strtol : str -> Z) (IsNumeric : str -> bool),
  (forall junk file opt st out errs opt',
     ReadImageParamsFile N strtod strtol IsNumeric junk file opt = Ok (st, out, errs, opt') ->
     Forall (fun e => fst e = (-4)%Z -> snd e = junk) errs) /\
  exists file, forall junk opt,
     ReadImageParamsFile N strtod strtol IsNumeric junk file opt = Ok ((-1)%Z, None, [((-4)%Z, junk)], opt).
Proof.
  intros T N sd sl isn. split.
  - intros junk file opt st out errs opt'. exact (@read_errors T N sd sl isn junk file opt st out errs opt').
  - exists (map lit ["IMAGE_START"; "DATA"]%string). reflexivity.
Qed.
Print Assumptions C54_line_number_refuted.

(** the flags that the parser knows cannot be written: a line of one word is rejected *)
Theorem C54_flag_refuted :
  forall (T : Type) (N : Num T) (strtod : str -> T) (strtol : str -> Z) (IsNumeric : str -> bool) junk opt,
  Forall (fun flag => exists errs,
    ReadImageParamsFile N strtod strtol IsNumeric junk [lit "IMAGE_START"; lit "DATA a.fits"; lit flag] opt =
      Ok ((-1)%Z, None, errs, opt))
    ["MASK_ZERO_IS_GOOD"; "MASK_ZERO_IS_BAD"; "ERRORS_ARE_SIGMAS"; "ERRORS_ARE_VARIANCES"; "ERRORS_ARE_WEIGHTS"]%string.
Proof. intros. repeat constructor; eexists; reflexivity. Qed.
Print Assumptions C54_flag_refuted.

(** limits in the wrong order (or excluding the value) are accepted: kept for X0, and
    silently replaced by "fixed" for PIXEL_SCALE *)
Definition one_image {T} (r : res (Z * option (nat * list (ImageInfo T)) * list (Z * Z) * list smap))
  : option (ImageInfo T) :=
  match r with Ok (0%Z, Some (1, [i]), [], _) => Some i | _ => None end.
Theorem C54_bad_limits_refuted :
  forall (T : Type) (N : Num T) (strtod : str -> T) (strtol : str -> Z) (IsNumeric : str -> bool) junk opt,
  nleb N (strtod (lit "3")) (strtod (lit "8")) = true ->
  exists i, one_image (ReadImageParamsFile N strtod strtol IsNumeric junk
      (map lit ["IMAGE_START"; "X0 5 8,3"; "PIXEL_SCALE 2 8,3"]%string) opt) = Some i /\
    i_x0Lim i = mkPar false true true (strtod (lit "8")) (strtod (lit "3")) /\
    i_pixelScaleLim i = mkPar true false false (nofZ N 0) (nofZ N 0).
Proof.
  intros T N sd sl isn junk opt H.
  match goal with |- exists i, ?r = Some i /\ _ => remember r as q eqn:E end.
  vm_compute in E, H. rewrite H in E.
  repeat match type of E with context [if ?b then _ else _] =>
    lazymatch b with context [if _ then _ else _] => fail | _ => destruct b; cbv beta iota in E end end; subst q;
    (eexists; split; [reflexivity|split; reflexivity]).
Qed.
Print Assumptions C54_bad_limits_refuted.
Example C54_bad_limits_example : nleb NumR (value (lit "3")) (value (lit "8")) = true.
Proof. unfold value. vm_compute read_digits. cbn -[Rleb]. apply Rleb_true. lra. Qed.

(** a comment glued to its text is read as limits, although the line says "X0 5" *)
Theorem C54_comment_refuted :
  forall (T : Type) (N : Num T) (strtod : str -> T) (strtol : str -> Z) (IsNumeric : str -> bool) junk opt,
  Words (lit "X0 5 #3,8") [lit "X0"; lit "5"] /\
  exists i, one_image (ReadImageParamsFile N strtod strtol IsNumeric junk
      (map lit ["IMAGE_START"; "X0 5 #3,8"]%string) opt) = Some i /\
    i_x0Lim i = mkPar false true true (strtod (lit "#3")) (strtod (lit "8")).
Proof.
  intros T N sd sl isn junk opt. split; [words "X0 5 "%string|].
  match goal with |- exists i, ?r = Some i /\ _ => remember r as q eqn:E end.
  vm_compute in E.
  repeat match type of E with context [if ?b then _ else _] =>
    lazymatch b with context [if _ then _ else _] => fail | _ => destruct b; cbv beta iota in E end end; subst q;
    (eexists; split; [reflexivity|reflexivity]).
Qed.
Print Assumptions C54_comment_refuted.

(** accepted lines that make the parser read outside a vector *)
Theorem C54_short_pair_refuted :
  forall (T : Type) (N : Num T) (strtod : str -> T) (strtol : str -> Z) (IsNumeric : str -> bool) junk opt,
  Forall (fun line =>
    VetInputLines IsNumeric [lit "IMAGE_START"; lit line] [1; 2]%Z = Ok (true, []) /\
    ReadImageParamsFile N strtod strtol IsNumeric junk [lit "IMAGE_START"; lit line] opt = Undef)
    ["X0 5 5,"; "PIXEL_SCALE 2 ,3"; "NCOLS,NROWS 100"; "NROWS,NCOLS 100"]%string.
Proof. intros. repeat (constructor; [split; vm_compute; reflexivity|]). constructor. Qed.
Print Assumptions C54_short_pair_refuted.

(** limits of a per-image function are not checked: a bad pair is dropped while the
    value stays, so every later limit belongs to the wrong parameter *)
Theorem C54_function_limits_refuted :
  forall (T : Type) (N : Num T) (strtod : str -> T) (strtol : str -> Z) (IsNumeric : str -> bool) junk,
  nleb N (strtod (lit "3")) (strtod (lit "8")) = true ->
  exists i p, one_image (ReadImageParamsFile N strtod strtol IsNumeric junk
      (map lit ["IMAGE_START"; "DATA a.fits"; "FUNCTIONS_START"; "X0 5 8,3"; "Y0 6"; "FUNCTION FlatSky"; "I_sky 7 fixed"]%string) []) = Some i /\
    i_perImage i = Some p /\
    pi_params p = [strtod (lit "5"); strtod (lit "6"); strtod (lit "7")] /\
    pi_limits p = [mkPar false false false (nofZ N 0) (nofZ N 0); mkPar true false false (nofZ N 0) (nofZ N 0)].
Proof.
  intros T N sd sl isn junk H.
  match goal with |- exists i p, ?r = Some i /\ _ => remember r as q eqn:E end.
  vm_compute in E, H. rewrite H in E. subst q.
  eexists _, _. split; [reflexivity|split; [reflexivity|split; reflexivity]].
Qed.
Print Assumptions C54_function_limits_refuted.
