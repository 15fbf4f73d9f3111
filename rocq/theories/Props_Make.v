(** C76-C78: what the program makeimage leaves behind: images, tables of fluxes, and its
    exit status. *)
From Coq Require Import ZArith List Bool Ascii String Reals Lia Lra.
From Verif Require Import Base Num Sums Params_Spec Conv_Model Conv_Spec Image_Model Image_Spec Par_Model Par_Spec
  CmdLine_Spec Opt_Spec Start_Spec Config_Model Build_Spec Save_Spec.
From Verif Require Import Opt_Model Start_Model Make_Model Make_Spec Make_Flux Make_Proof.
From Verif Require Props_Opt Build_Proof Build_Model.
From Flocq Require IEEE754.BinarySingleNaN.
Import ListNotations.
Local Open Scope string_scope.
Local Open Scope list_scope.

(** C76. A sensible call of makeimage ends with status 0 and leaves behind exactly what the
    command line asks for: the images, and after them the tables of fluxes if these are
    asked for; the latter are computed by several threads, of which the result does not
    depend on the schedule ([Fuel]: the schedule ends too early).
    Missing: regions with oversampled PSFs, PointSourceRot. *)
Theorem C76_run_partial : forall interpolator implement strtod dbl cores FileExists ReadImage GetImageSize ReadConfig log10 e4 f4 f5 e3 g dec
    timestamp program nThreads chunk junk garbage its ws prog bs w h,
  Sensible implement strtod dbl FileExists ReadImage GetImageSize ReadConfig e4 f4 f5 e3 g dec timestamp program its ws bs w h ->
  (0 < nThreads)%nat -> List.length garbage = List.length (sall bs) ->
  let run sched := makeimage NumR dft_r2c dft_c2r interpolator implement strtod dbl cores FileExists ReadImage GetImageSize ReadConfig
      log10 e4 f4 f5 e3 g dec timestamp program nThreads chunk sched junk garbage (prog :: ws) in
  let tables := Tables implement strtod log10 e4 f4 f5 e3 g timestamp program its bs in
  let wanted := given its ["print-fluxes"] || Opt_Spec.has its "save-fluxes" in
  exists images, Images interpolator implement dec program ReadImage its bs w h images /\
    (wanted = false -> forall sched, run sched = Ok (0%Z, images)) /\
    (wanted = true -> (forall sched, run sched = Fuel \/ run sched = Ok (0%Z, images ++ tables)) /\
                      exists sched, run sched = Ok (0%Z, images ++ tables)).
Proof. intros. eapply run_ok; eassumption. Qed.
Print Assumptions C76_run_partial.

(** the text of a configuration file, and reading it *)
Definition config_of (files : word -> option (list word)) (strtod : word -> F64) (m : Libm) (n : word) :=
  match files n with
  | None => None
  | Some lines => match ReadConfigFile_limited (NumF m) strtod (fun _ => true) lines true [] with
                  | Ok (0%Z, Some (po, opts)) => Some (opts, po)
                  | _ => None
                  end
  end.
Definition small_file : list word := map wd ["NCOLS 2"; "NROWS 2"; "X0 1"; "Y0 1"; "FUNCTION FlatSky"; "I_sky 1"].
Definition one_file (lines : list word) (n : word) : option (list word) :=
  if StrUtil_Model.str_eqb n (wd "model.dat") then Some lines else None.
(** a run in binary64 arithmetic with the given functions, configuration file and words *)
Definition float_run (m : Libm) (interpolator : Z -> list F64 -> nat -> nat -> F64 -> F64 -> F64) (implement : word -> component F64)
    (lines : list word) (log10 : F64 -> F64) (e4 f4 f5 e3 g : F64 -> word) (junk : Z * Z) (argv : list string) : res (Z * list (product F64)) :=
  makeimage (NumF m) (fun _ _ _ => []) (fun _ _ _ => []) interpolator implement (fun _ => f_ofZ 1) (fun _ => f_ofZ (-10000)) 1 (fun _ => true) (fun _ => None) (fun _ => None)
    (config_of (one_file lines) (fun _ => f_ofZ 1) m) log10 e4 f4 f5 e3 g (fun _ => wd "1") (wd "now") (wd "makeimage") 1 1 (fun _ => []) junk
    [(fun _ _ => f_ofZ 0); (fun _ _ => f_ofZ 0)] (map wd argv).
Definition constant (n : nat) (background : bool) : component F64 :=
  mkComponent background (fun _ _ _ => None) (mkFunc n (Plain (fun p _ _ _ _ => nth 0 p (f_ofZ 0)))).

(** what such a run shows: its status, the sizes of its images, the lines it prints *)
Definition seen_of (x : res (Z * list (product F64))) : option (Z * list (word * Z * Z) * list word) :=
  match x with
  | Ok (z, out) => Some (z, flat_map (fun p => match p with PImage n c r _ _ => [(n, c, r)] | _ => [] end) out,
                            flat_map (fun p => match p with PPrinted l => l | _ => [] end) out)
  | _ => None
  end.

(** Without a PSF, --save-expanded reads two variables that nothing has set: what it saves
    depends on them, and it may read pixels that do not exist. *)
Theorem C76_expanded_refuted : forall m interpolator log10 e4 f4 f5 e3 g,
  let run junk := float_run m interpolator (fun _ => constant 1 true) small_file log10 e4 f4 f5 e3 g junk ["makeimage"; "model.dat"; "--save-expanded"] in
  run (5, 5)%Z = Undef /\
  seen_of (run (0, 0)%Z) = Some (0%Z, [(wd "modelimage.fits", 2, 2)%Z; (wd "expanded_modelimage.fits", 2, 2)%Z], []) /\
  seen_of (run (-1, 0)%Z) = Some (0%Z, [(wd "modelimage.fits", 2, 2)%Z; (wd "expanded_modelimage.fits", 0, 2)%Z], []).
Proof. intros. split; [vm_compute; reflexivity|]. split; vm_compute; reflexivity. Qed.
Print Assumptions C76_expanded_refuted.

(** C77. The fractions in the table of fluxes add up to one, unless there is no flux. *)
Theorem C77_fractions : forall implement its bs,
  total_flux implement its bs <> 0%R ->
  rsuml (map (fun f => flux_of implement its f / total_flux implement its bs)%R (sall bs)) = 1%R.
Proof. intros implement its bs H. apply fractions_sum. exact H. Qed.
Print Assumptions C77_fractions.

(** A model that consists of a background only has the total flux 0; the fraction that is
    printed is not a number. *)
Theorem C77_background_refuted : forall m interpolator log10 f4 g,
  let e4 _ := wd "0.0000e+00" in
  let f5 _ := wd "     1.00000" in
  let e3 (x : F64) := if BinarySingleNaN.is_nan x then wd "         nan" else wd "   1.000e-05" in
  seen_of (float_run m interpolator (fun _ => constant 1 true) small_file log10 e4 f4 f5 e3 g (0, 0)%Z ["makeimage"; "model.dat"; "--print-fluxes"]) =
  Some (0%Z, [], map (fun s => s ++ newline)
    [wd "Component                 Flux        Magnitude   Fraction   Label";
     wd "FlatSky                   0.0000e+00      ---         nan";
     newline ++ wd "Total                     0.0000e+00      ---     1.00000"]).
Proof. intros. vm_compute. reflexivity. Qed.
Print Assumptions C77_background_refuted.

(** C78. A run that ends with another status than 0 leaves nothing behind, whatever its
    arguments, files and functions. *)
Theorem C78_nothing : forall (T : Type) (N : Num T) r2c c2r interpolator implement strtod dbl cores FileExists ReadImage GetImageSize ReadConfig log10
    e4 f4 f5 e3 g dec timestamp program nThreads chunk sched junk garbage argv z out,
  makeimage N r2c c2r interpolator implement strtod dbl cores FileExists ReadImage GetImageSize ReadConfig log10 e4 f4 f5 e3 g dec
    timestamp program nThreads chunk sched junk garbage argv = Ok (z, out) ->
  z <> 0%Z -> out = [].
Proof. intros until out. apply no_output. Qed.
Print Assumptions C78_nothing.

(** Which mistakes lead to which status *)
Theorem C78_status : forall interpolator implement strtod dbl cores FileExists ReadImage GetImageSize ReadConfig log10 e4 f4 f5 e3 g dec
    timestamp program nThreads chunk sched junk garbage its ws prog,
  Says makeimage_sheet its ws -> clean its ->
  let run := makeimage NumR dft_r2c dft_c2r interpolator implement strtod dbl cores FileExists ReadImage GetImageSize ReadConfig
      log10 e4 f4 f5 e3 g dec timestamp program nThreads chunk sched junk garbage (prog :: ws) in
  (* the command line is refused *)
  (Refused makeimage_sheet its -> run = Ok (1%Z, [])) /\
  (* there is no configuration file, or it is malformed *)
  (Accepted makeimage_sheet its -> FileExists (config_file its) = false \/ ReadConfig (config_file its) = None -> run = Ok ((-1)%Z, [])) /\
  forall cfg po, Accepted makeimage_sheet its -> FileExists (config_file its) = true -> ReadConfig (config_file its) = Some (cfg, po) ->
  (* a size in the configuration file is not a number *)
  ((forall v, SizeLine its cfg v -> Good Count v \/ Bad Count v) -> (exists v, SizeLine its cfg v /\ Bad Count v) -> run = Ok (1%Z, [])) /\
  forall bs w h, (forall v, SizeLine its cfg v -> Good Count v) -> GetImageSize [] = None ->
  (* there is no size, although an image is asked for *)
  (size_wanted GetImageSize its cfg = End_ (-1) -> run = Ok ((-1)%Z, [])) /\
  (* the PSF image cannot be read, or cannot be normalised; a function is unknown, has
     options that it does not know, or lacks the PSF; there are too many or too few
     parameters *)
  (size_wanted GetImageSize its cfg = Size (Z.of_nat w) (Z.of_nat h) -> (1 <= w)%nat -> (1 <= h)%nat ->
   values its ["overpsf"] = [] -> reader FileExists ReadImage -> Describes bs po -> bs <> [] -> Forall (fun b => s_funcs b <> []) bs ->
   (exists n, Start_Spec.first its "psf" = Some n /\ ~ PsfUsable NumR ReadImage its n) \/
   ~ Buildable (psf_size ReadImage its) (sall bs) \/ List.length (sflat bs) <> List.length (param_names bs) ->
   run = Ok ((-1)%Z, [])).
Proof.
  intros until prog. intros HS HC run. split; [|split].
  - intros H. eapply run_refused; eassumption.
  - intros HA H. eapply run_no_config; eassumption.
  - intros cfg po HA HF HR. split.
    + intros H1 H2. eapply run_bad_size; eassumption.
    + intros bs w h HG HE. split.
      * intros H. eapply run_no_size; eassumption.
      * intros HZ Hw Hh HNO HRd HD Hbs Hfs H. eapply run_bad_model; eassumption.
Qed.
Print Assumptions C78_status.

(** Only the total number of parameters is compared: a function with one parameter too few
    and another with one too many are accepted. Here the functions are told 4 and 1
    parameters although the file lists 3 and 2. *)
Theorem C78_counts_refuted : forall m interpolator log10 e4 f4 f5 e3 g junk,
  let lines := map wd ["NCOLS 2"; "NROWS 2"; "X0 1"; "Y0 1"; "FUNCTION Exponential"; "PA 1"; "ell 1"; "I_0 1";
                       "FUNCTION FlatSky"; "I_sky 1"; "I_sky 1"] in
  let implement n := if StrUtil_Model.str_eqb n (wd "FlatSky") then constant 1 true else constant 4 false in
  seen_of (float_run m interpolator implement lines log10 e4 f4 f5 e3 g junk ["makeimage"; "model.dat"]) =
  Some (0%Z, [(wd "modelimage.fits", 2, 2)%Z], []).
Proof. intros. vm_compute. reflexivity. Qed.
Print Assumptions C78_counts_refuted.

(** If only fluxes are asked for and a reference image is named, the program ends by a
    failed assertion: the image would have size 0 x 0. *)
Theorem C78_refimage_refuted : forall m interpolator implement log10 e4 f4 f5 e3 g junk,
  let lines := map wd ["X0 1"; "Y0 1"; "FUNCTION FlatSky"; "I_sky 1"] in
  float_run m interpolator implement lines log10 e4 f4 f5 e3 g junk ["makeimage"; "model.dat"; "--print-fluxes"; "--refimage"; "image.fits"] = Abort.
Proof. intros. vm_compute. reflexivity. Qed.
Print Assumptions C78_refimage_refuted.

(** ---- the hypotheses can be met ---- *)
(** makeimage model.dat --psf psf.fits --save-expanded --output-functions f_ --save-fluxes fluxes.dat
      --zero-point 25.5, with a model of two functions and a file that gives the size *)
Definition ex_items : list item := [UArg (wd "model.dat"); UOpt (wd "psf") (wd "psf.fits"); UFlag (wd "save-expanded");
  UOpt (wd "output-functions") (wd "f_"); UOpt (wd "save-fluxes") (wd "fluxes.dat"); UOpt (wd "zero-point") (wd "25.5")].
Definition ex_words : list word := map wd ["model.dat"; "--psf"; "psf.fits"; "--save-expanded"; "--output-functions"; "f_";
  "--save-fluxes"; "fluxes.dat"; "--zero-point"; "25.5"].
Definition ex_model : list (sblock R) := [mkSblock 2%R 2%R
  [mkSfunc (wd "Exponential") (wd "disk") [] [10%R; (1/2)%R; 100%R; 5%R]; mkSfunc (wd "PointSource") [] [(wd "method", wd "lanczos2")] [7%R]]].
Definition ex_implement (n : word) : component R :=
  if StrUtil_Model.str_eqb n (wd "PointSource") then mkComponent false (fun p _ _ => Some (nth 0 p 0%R)) (mkFunc 1 (Point 1%R))
  else mkComponent false (fun _ _ _ => None) (mkFunc 4 (Plain (fun p x0 y0 x y => (nth 2 p 0 * (x - x0) + y)%R))).
Definition ex_psf (n : word) : option (nat * nat * list R) :=
  if StrUtil_Model.str_eqb n (wd "psf.fits") then Some (5, 4, repeat 1%R 20) else None.
Definition ex_po : pout R := mkOut [wd "Exponential"; wd "PointSource"] [wd "disk"; []] (sflat ex_model) [] [0%nat] false
  [[]; [(wd "method", wd "lanczos2")]].
Definition ex_config (n : word) : option (list (word * word) * pout R) :=
  if StrUtil_Model.str_eqb n (wd "model.dat") then Some ([(wd "NCOLS", wd "3"); (wd "NROWS", wd "2")], ex_po) else None.

Example C76_hyp_example :
  Sensible ex_implement (fun v => if StrUtil_Model.str_eqb v (wd "25.5") then 25.5%R else 0%R) (fun _ => (-10000)%R)
    (fun n => match n with [] => false | _ => true end) ex_psf (fun _ => None) ex_config
    (fun _ => wd "1.0000e+00") (fun _ => wd "1.0000") (fun _ => wd "     1.00000") (fun _ => wd "   1.000e+00") (fun _ => wd "25.5")
    (fun _ => wd "1") (wd "now") (wd "makeimage") ex_items ex_words ex_model 3 2.
Proof.
  assert (K : forall n, match Build_Model.find_class Build_Model.classes n with Some _ => true | None => false end = true -> Known n).
  { intros n H. destruct (Build_Model.find_class Build_Model.classes n) as [c|] eqn:E; [|discriminate]. exists c. apply Build_Proof.find_class_sound in E. exact E. }
  assert (SZ : forall f : sfunc R, match Build_Model.find_class Build_Model.classes (s_name f) with
     | Some c => Nat.eqb (List.length (s_vals f)) (List.length (Build_Model.c_params c)) | None => false end = true -> Sized f).
  { intros f H. destruct (Build_Model.find_class Build_Model.classes (s_name f)) as [c|] eqn:E; [|discriminate]. exists c.
    apply Build_Proof.find_class_sound in E. destruct E as [E1 E2]. split; [exact E1|]. split; [exact E2|]. now apply Nat.eqb_eq. }
  constructor.
  - split.
    + unfold ex_items, ex_words. Props_Opt.argd "model.dat". Props_Opt.optd "--" "psf" "psf.fits". Props_Opt.flagd "save-expanded".
      Props_Opt.optd "--" "output-functions" "f_". Props_Opt.optd "--" "save-fluxes" "fluxes.dat". Props_Opt.optd "--" "zero-point" "25.5". constructor.
    + repeat constructor; discriminate.
  - split; [discriminate|]. split.
    + intros ns H. repeat (destruct H as [H|H]; [inversion H; subst; try reflexivity|]). destruct H.
    + intros k ns H. repeat (destruct H as [H|H]; [inversion H; subst; clear H; Props_Opt.eval_counted|]); [|now destruct H].
      constructor; [|constructor]. split; [Props_Opt.no_nul_ok|]. left. left. do 2 eexists. split; [reflexivity|]. apply Props_Opt.dig_ok. reflexivity.
  - split.
    + repeat constructor; Props_Opt.no_nul_ok.
    + intros ns. assert (H : forall v, In v (values ex_items ns) -> In v (map wd ["psf.fits"; "f_"; "fluxes.dat"; "25.5"])).
      { intros v. unfold values, ex_items. cbn [flat_map app]. rewrite !in_app_iff.
        repeat match goal with |- context [if ?c then _ else _] => destruct c end; cbn; tauto. }
      apply Forall_forall. intros v Hv. apply H in Hv. repeat (destruct Hv as [<-|Hv]; [Props_Opt.no_nul_ok|]). destruct Hv.
  - reflexivity.
  - intros _. discriminate.
  - reflexivity.
  - exists [(wd "NCOLS", wd "3"); (wd "NROWS", wd "2")], ex_po. split; [reflexivity|]. split; [|split].
    + repeat split; reflexivity.
    + intros v [[_ (n & I & N)]|[_ (n & I & N)]]; repeat (destruct I as [I|I]; [inversion I; subst; try discriminate N|]); try (now destruct I); Props_Opt.count_ok.
    + reflexivity.
  - lia.
  - reflexivity.
  - split; [reflexivity|]. intros n c r p. unfold ex_psf. destruct (StrUtil_Model.str_eqb n (wd "psf.fits")); [|discriminate].
    intros E. injection E as <- <- <-. cbn. lia.
  - intros n E. injection E as <-. split; [discriminate|]. split; [reflexivity|]. right. 
    change (Rleb (fold_left Rplus (repeat 1%R 20) 0%R) 0 = false). unfold Rleb. destruct (Rle_dec _ _) as [H|]; [|reflexivity]. exfalso. cbn in H. lra.
  - split; [discriminate|]. repeat constructor. discriminate.
  - split.
    + cbn [sall ex_model flat_map s_funcs app]. apply Forall_cons; [|apply Forall_cons; [|constructor]]; (split; [apply K; vm_compute; reflexivity|]).
      * left. reflexivity.
      * right. do 3 eexists. split; [reflexivity|]. left. split; [reflexivity|]. intros _. eexists. constructor.
    + intros _. do 2 eexists. split; [reflexivity|]. split; vm_compute; discriminate.
  - cbn [sall ex_model flat_map s_funcs app]. apply Forall_cons; [|apply Forall_cons; [|constructor]]; apply SZ; vm_compute; reflexivity.
  - cbn [sall ex_model flat_map s_funcs app]. apply Forall_cons; [|apply Forall_cons; [|constructor]].
    + split; [reflexivity|]. split; [discriminate|]. split; [split; discriminate|discriminate].
    + split; [reflexivity|]. split; [discriminate|]. split; [split; reflexivity|]. intros _ p x y. discriminate.
  - split; [|split; [|split]]; [intros _; repeat split|intros _; split|split|split]; try (vm_compute; lia); Props_Opt.no_nul_ok.
  - split; [|split].
    + split; [vm_compute; lia|Props_Opt.no_nul_ok].
    + intros n o [<-|[<-|[]]] E; injection E as <-; (split; [vm_compute; lia|Props_Opt.no_nul_ok]).
    + cbn [sall ex_model flat_map s_funcs app]. apply Forall_cons; [|apply Forall_cons; [|constructor]]; (split; [vm_compute; lia|Props_Opt.no_nul_ok]).
  - split; [reflexivity|]. intros z E. injection E as <-. lra.
Qed.

(** C78: the same model without a PSF image cannot be built, and with one parameter left out
    the numbers differ; a PSF image whose sum is 0 cannot be used *)
Example C78_hyp_example :
  ~ Buildable (psf_size ex_psf [UArg (wd "model.dat")]) (sall ex_model) /\
  (let bs := [mkSblock 2%R 2%R [mkSfunc (wd "FlatSky") [] [] []]] in List.length (sflat bs) <> List.length (param_names bs)) /\
  ~ PsfUsable NumR (fun _ => Some (2, 2, [1%R; (-1)%R; 2%R; (-2)%R])) [UArg (wd "model.dat"); UOpt (wd "psf") (wd "psf.fits")] (wd "psf.fits").
Proof.
  split; [|split].
  - intros [_ H]. destruct H as (c & r & E & _).
    + right. left. left. reflexivity.
    + discriminate E.
  - vm_compute. discriminate.
  - intros (_ & _ & [H|H]); [discriminate|]. revert H. change (Rleb (fold_left Rplus [1; -1; 2; -2]%R 0%R) 0 = false -> False).
    unfold Rleb. destruct (Rle_dec _ _) as [H|H]; [discriminate|]. intros _. apply H. cbn. lra.
Qed.
