(** C79: makeimage draws, from the parameter file that imfit wrote, the model that imfit
    fitted, to the accuracy of the printed numbers. *)
From Coq Require Import ZArith List Bool Ascii String Reals Lia Lra.
From Verif Require Import Base Num StrUtil_Model StrUtil_Spec Config_Model Config_Spec Params_Spec Build_Model Save_Model Save_Spec Build_Spec.
From Verif Require Import Fit_Model Fit_Spec Opt_Model Finish_Model Finish_Spec.
From Verif Require Import Conv_Model Conv_Spec CmdLine_Spec Opt_Spec Start_Spec Make_Model Make_Spec Chain_Spec.
From Verif Require Import Chain_Proof Chain_Fit Chain_Read.
From Verif Require Par_Model Image_Model Props_Make Props_Opt Props_Save Props_Finish Build_Proof Finish_Total Params_Proof.
Import ListNotations.
Local Open Scope string_scope.
Local Open Scope list_scope.

(** what makeimage leaves behind, whatever the schedule of its threads ([Fuel]: it ends too
    early): the images; after them the tables, if they are asked for (as in C76) *)
Definition Leaves (run : (nat -> list nat) -> res (Z * list (product R))) (its : list item) (images tables : list (product R)) : Prop :=
  let wanted := given its ["print-fluxes"] || Opt_Spec.has its "save-fluxes" in
  (wanted = false -> forall sched, run sched = Ok (0%Z, images)) /\
  (wanted = true -> (forall sched, run sched = Fuel \/ run sched = Ok (0%Z, images ++ tables)) /\
                    exists sched, run sched = Ok (0%Z, images ++ tables)).
(** the file with these lines, read by makeimage *)
Definition reads (strtod : word -> R) (IsNumeric : word -> bool) (lines : list word) : option (list (word * word) * pout R) :=
  match ReadConfigFile_limited NumR strtod IsNumeric lines true [] with
  | Ok (0%Z, Some (po, opts)) => Some (opts, po)
  | _ => None
  end.

Section Chain.
  (** makeimage and its surroundings *)
  Variable interpolator : Z -> list R -> nat -> nat -> R -> R -> R.
  Variable implement : word -> Par_Model.component R.
  Variable strtod : word -> R.
  Variable IsNumeric : word -> bool.
  Variable dbl : string -> R.
  Variable cores : Z.
  Variable FileExists : word -> bool.
  Variable ReadImage : word -> option (nat * nat * list R).
  Variable GetImageSize : word -> option (Z * Z).
  Variable log10 : R -> R.
  Variables e4 f4 f5 e3 g : R -> word.
  Variable dec : nat -> word.
  Variables timestamp program : word.
  Variables nThreads chunk : nat.
  Variable junk : Z * Z.
  Variable garbage : list (R -> R -> R).
  (** the command line of makeimage, and the size of the image *)
  Variable its : list item.
  Variable ws : list word.
  Variable prog : word.
  Variables w h : nat.
  (** [Drawn bs lines]: a configuration file with these lines leads to the images and
      tables of the model [bs] *)
  Definition Drawn (bs : list (sblock R)) (lines : list word) : Prop :=
    forall ReadConfig, ReadConfig (config_file its) = reads strtod IsNumeric lines ->
    exists images, Images interpolator implement dec program ReadImage its bs w h images /\
      Leaves (fun sched => makeimage NumR dft_r2c dft_c2r interpolator implement strtod dbl cores FileExists ReadImage GetImageSize ReadConfig
          log10 e4 f4 f5 e3 g dec timestamp program nThreads chunk sched junk garbage (prog :: ws))
        its images (Tables implement strtod log10 e4 f4 f5 e3 g timestamp program its bs).
  (** makeimage could draw a model with the functions of [bs] from a configuration file
      without image size *)
  Definition CanDraw {T} (bs : list (sblock T)) : Prop :=
    (0 < nThreads)%nat /\ List.length garbage = List.length (sall bs) /\
    exists bs0, shape bs0 = shape bs /\
      Sensible implement strtod dbl FileExists ReadImage GetImageSize (fun _ => Some ([], content bs0))
        e4 f4 f5 e3 g dec timestamp program its ws bs0 w h.

  (** C79. The file that imfit writes for a model is drawn as a model with the same blocks,
      functions, labels and optional parameters whose numbers are the saved ones as printed. *)
  Theorem C79_saved_partial : forall (T : Type) (N : Num T) (toR : T -> R) (finite : T -> Prop) (pf4 pg pg5 : T -> word)
      psf (bs : list (sblock T)) m offX offY errs header report,
    PrintfOK toR finite pf4 pg pg5 -> Exact strtod -> AcceptsDecimals IsNumeric ->
    AddFunctions psf (map s_name (sall bs)) (map s_label (sall bs)) (sstarts bs) (map s_opts (sall bs)) = Ok (0%Z, Some m) ->
    GoodModel bs -> AllFinite finite (nadd N) offX offY bs -> ErrorsFor errs bs ->
    Forall Comment header -> Forall OneLine report -> CanDraw bs ->
    exists txt bs', SaveParameters N pf4 pg pg5 header report m offX offY (sflat bs) errs = Ok txt /\
      shape bs' = shape bs /\ Forall2 (Near toR) (sflat bs') (shown (nadd N) offX offY bs) /\
      Drawn bs' (file_lines txt).
  Proof.
    intros T N toR finite pf4 pg pg5 psf bs m offX offY errs header report PF HX HN HB HG HF HE HH HR (Hn & Hg & bs0 & HS0 & HS).
    destruct (@chain T N toR finite pf4 pg pg5 PF strtod HX IsNumeric HN offX offY bs HG implement dbl FileExists ReadImage GetImageSize
      e4 f4 f5 e3 g dec timestamp program its ws bs0 w h HS0 HS interpolator cores log10 nThreads chunk junk garbage prog Hn Hg
      psf m errs header report HB HF HE HH HR) as (txt & bs' & E1 & E2 & E3 & E4).
    exists txt, bs'. split; [exact E1|]. split; [exact E2|]. split; [exact E3|]. intros RC HRC. exact (E4 RC HRC).
  Qed.

  (** C79. A run of imfit as in C74 (images can be computed, the solver ends with printable
      values) writes such a file for the values the solver ended with, centres in coordinates
      of the whole image; makeimage draws it. *)
  Theorem C79_fit_partial : forall (lib : Libm) (s : setup F64) (IS : Type) (create : IS -> list F64 -> res (IS * list F64))
      (pf4 pg pg5 pf6 : F64 -> word) idec summary qsort clock draws fuel obj offX offY psf bs b po header img0 solver lm nm
      op q z ni (toR : F64 -> R) (finite : F64 -> Prop) st o,
    let N := NumF lib in
    Situation N s obj create psf bs b po -> GoodModel bs -> List.length (o_params po) = List.length (roles bs) ->
    prepare N s = Ok (st, o) -> (0 <= st)%Z ->
    (forall i p, exists r, create i p = Ok r) ->
    PrintfOK toR finite pf4 pg pg5 -> Exact strtod -> AcceptsDecimals IsNumeric -> (forall v, OneLine (pf6 v)) -> (forall i j, OneLine (summary i j)) ->
    Forall Comment header ->
    op K_printFitStatisticOnly = VB false -> op K_doBootstrap = VB false -> op K_bootstrapIterations = VZ ni ->
    Requested op q -> op K_solver = VZ z ->
    (forall h, Handed N offX offY bs (o_params po) (o_limits po) h ->
       EndsIn (fun r => exists bs', ResultOf finite (nadd N) (nofZ N offX) (nofZ N offY) bs r bs') (solver h)) ->
    CanDraw bs ->
    exists h r img bs' txt rest bs'',
      Handed N offX offY bs (o_params po) (o_limits po) h /\
      Answered N create s img0 (solver h) r img /\ ResultOf finite (nadd N) (nofZ N offX) (nofZ N offY) bs r bs' /\
      finish_imfit N create pf4 pg pg5 pf6 idec summary qsort clock draws fuel op header b (offX, offY) po obj img0 solver lm nm
        = Ok (0%Z, OParameters (if r_stopped r then interruptedParameterFileName else q_params q) txt :: rest) /\
      shape bs'' = shape bs /\ Forall2 (Near toR) (sflat bs'') (shown (nadd N) (nofZ N offX) (nofZ N offY) bs') /\
      Drawn bs'' (file_lines txt).
  Proof.
    intros lib s IS create pf4 pg pg5 pf6 idec summary qsort clock draws fuel obj offX offY psf bs b po header img0 solver lm nm
      op q z ni toR finite st o N SI HG HL EP Hs CT PF HX HN F6 SU HH F0 FB FI FQ FZ GE CD.
    destruct (Props_Finish.C74_file lib s IS create pf4 pg pg5 pf6 idec summary qsort clock draws fuel obj offX offY psf bs b po header img0 solver lm nm
      op q z ni toR finite (fun _ => f_ofZ 1) IsNumeric st o SI HG HL EP Hs CT PF HN F6 SU HH F0 FB FI FQ FZ GE)
      as (h0 & r0 & img1 & bs1 & txt0 & rest0 & _ & _ & _ & EF & _).
    destruct (Props_Finish.C74_numbers_partial lib s IS create pf4 pg pg5 pf6 idec summary qsort clock draws fuel obj offX offY psf bs b po header img0 solver lm nm
      op q z _ SI F0 FB FQ FZ EF) as (h1 & r & img & img' & vec & v & txt & H1 & H2 & H3 & H4 & H5 & H6).
    destruct (answered_ends H2 (GE h1 H1)) as (bs' & R1 & R2 & R3 & R4).
    pose proof (same_shape R1) as SH.
    pose proof (si_built _ _ _ _ _ _ _ _ SI) as HB. rewrite <- (build_shape psf SH) in HB.
    destruct CD as (C1 & C2 & bs0 & C3 & C4).
    assert (CD' : CanDraw bs').
    { split; [exact C1|]. split; [rewrite C2; exact (Params_Proof.Forall2_len (shape_all SH))|]. exists bs0. split; [now rewrite SH|exact C4]. }
    destruct (C79_saved_partial F64 N toR finite pf4 pg pg5 psf bs' b (nofZ N offX) (nofZ N offY) (r_errors r) header
      (report_lines N pf6 (summary z (r_status r)) s (h_free h1) v) PF HX HN HB (good_shape SH HG) R3 R4 HH (Finish_Total.OneLine_report lib s F6 (h_free h1) v (SU z (r_status r))) CD')
      as (txt' & bs'' & E1 & E2 & E3 & E4).
    unfold N in E1. rewrite R2, H5 in E1. injection E1 as <-.
    exists h1, r, img, bs', txt, (if r_stopped r then [] else image_files (NumF lib) s q vec), bs''.
    split; [exact H1|]. split; [exact H2|]. split; [split; [exact R1|split; [exact R2|split; [exact R3|exact R4]]]|].
    split; [|split; [rewrite E2; exact SH|split; [exact E3|exact E4]]].
    refine (eq_trans EF _). f_equal. f_equal. rewrite H6. destruct (r_stopped r); reflexivity.
  Qed.
End Chain.
Print Assumptions C79_saved_partial.
Print Assumptions C79_fit_partial.

(** ---- the hypotheses can be met ---- *)
(** A reader of numerals that is exact, and the call
    makeimage best.dat --psf psf.fits --ncols 3 --nrows 2 --print-fluxes *)
Definition ex_items : list item := [UArg (wd "best.dat"); UOpt (wd "psf") (wd "psf.fits"); UOpt (wd "ncols") (wd "3"); UOpt (wd "nrows") (wd "2");
  UFlag (wd "print-fluxes")].
Definition ex_words : list word := map wd ["best.dat"; "--psf"; "psf.fits"; "--ncols"; "3"; "--nrows"; "2"; "--print-fluxes"].
Definition ex_implement (n : word) : Par_Model.component R :=
  if str_eqb n (wd "PointSource") then Par_Model.mkComponent false (fun p _ _ => Some (nth 0 p 0%R)) (Image_Model.mkFunc 1 (Image_Model.Point 1%R))
  else if str_eqb n (wd "FlatSky") then Par_Model.mkComponent true (fun _ _ _ => None) (Image_Model.mkFunc 1 (Image_Model.Plain (fun p _ _ _ _ => nth 0 p 0%R)))
  else Par_Model.mkComponent false (fun _ _ _ => None) (Image_Model.mkFunc 4 (Image_Model.Plain (fun p x0 y0 x y => (nth 2 p 0 * (x - x0) + y)%R))).
Definition ex_can {T} (bs : list (sblock T)) : Prop :=
  CanDraw ex_implement decimal (fun _ => (-10000)%R) (fun n => match n with [] => false | _ => true end) Props_Make.ex_psf (fun _ => None)
    (fun _ => wd "1.0000e+00") (fun _ => wd "1.0000") (fun _ => wd "     1.00000") (fun _ => wd "   1.000e+00") (fun _ => wd "25.5")
    (fun _ => wd "1") (wd "now") (wd "makeimage") 4 (repeat (fun _ _ => 0%R) (List.length (sall bs))) ex_items ex_words 3 2 bs.
(** the model of the example of C67: a point source and a disk, and a sky *)
Example C79_hyp_example : Exact decimal /\ ex_can Props_Save.exS /\ ex_can Props_Finish.w_bs.
Proof.
  assert (K : forall n, match find_class classes n with Some _ => true | None => false end = true -> Known n).
  { intros n H. destruct (find_class classes n) as [c|] eqn:E; [|discriminate]. exists c. apply Build_Proof.find_class_sound in E. exact E. }
  assert (SZ : forall f : sfunc R, match find_class classes (s_name f) with
     | Some c => Nat.eqb (List.length (s_vals f)) (List.length (c_params c)) | None => false end = true -> Sized f).
  { intros f H. destruct (find_class classes (s_name f)) as [c|] eqn:E; [|discriminate]. exists c.
    apply Build_Proof.find_class_sound in E. destruct E as [E1 E2]. split; [exact E1|]. split; [exact E2|]. now apply Nat.eqb_eq. }
  assert (CALL : forall bs : list (sblock R), bs <> [] /\ Forall (fun b => s_funcs b <> []) bs ->
     Buildable (psf_size Props_Make.ex_psf ex_items) (sall bs) -> Forall (@Sized R) (sall bs) -> Forall (Implemented ex_implement) (sall bs) ->
     Forall (fun f => Short 900 (s_label f)) (sall bs) ->
     Sensible ex_implement decimal (fun _ => (-10000)%R) (fun n => match n with [] => false | _ => true end) Props_Make.ex_psf (fun _ => None)
       (fun _ => Some ([], content bs))
       (fun _ => wd "1.0000e+00") (fun _ => wd "1.0000") (fun _ => wd "     1.00000") (fun _ => wd "   1.000e+00") (fun _ => wd "25.5")
       (fun _ => wd "1") (wd "now") (wd "makeimage") ex_items ex_words bs 3 2).
  { intros bs B1 B2 B3 B4 B5. constructor; try assumption.
    - split.
      + unfold ex_items, ex_words. Props_Opt.argd "best.dat". Props_Opt.optd "--" "psf" "psf.fits". Props_Opt.optd "--" "ncols" "3".
        Props_Opt.optd "--" "nrows" "2". Props_Opt.flagd "print-fluxes". constructor.
      + repeat constructor; discriminate.
    - split; [discriminate|]. split.
      + intros ns H. repeat (destruct H as [H|H]; [inversion H; subst; try reflexivity|]). destruct H.
      + intros k ns H. repeat (destruct H as [H|H]; [inversion H; subst; clear H; Props_Opt.eval_counted|]); try (now destruct H);
          repeat (apply Forall_cons; [Props_Opt.count_ok|]); constructor.
    - split.
      + repeat constructor; Props_Opt.no_nul_ok.
      + intros ns. assert (H : forall v, In v (values ex_items ns) -> In v (map wd ["psf.fits"; "3"; "2"])).
        { intros v. unfold values, ex_items. cbn [flat_map app]. rewrite !in_app_iff.
          repeat match goal with |- context [if ?c then _ else _] => destruct c end; cbn; tauto. }
        apply Forall_forall. intros v Hv. apply H in Hv. repeat (destruct Hv as [<-|Hv]; [Props_Opt.no_nul_ok|]). destruct Hv.
    - reflexivity.
    - intros _. discriminate.
    - reflexivity.
    - exists [], (content bs). split; [reflexivity|]. split; [repeat split; reflexivity|]. split.
      + intros v [[_ (n & I & N)]|[_ (n & I & N)]]; destruct I.
      + reflexivity.
    - lia.
    - reflexivity.
    - split; [reflexivity|]. intros n c r p. unfold Props_Make.ex_psf. destruct (str_eqb n (wd "psf.fits")); [|discriminate].
      intros E. injection E as <- <- <-. cbn. lia.
    - intros n E. injection E as <-. split; [discriminate|]. split; [reflexivity|]. right.
      change (Rleb (fold_left Rplus (repeat 1%R 20) 0%R) 0 = false). unfold Rleb. destruct (Rle_dec _ _) as [H|]; [|reflexivity]. exfalso. cbn in H. lra.
    - split; [|split; [|split]]; [intros _; repeat split|intros _; split|split|split]; try (vm_compute; lia); Props_Opt.no_nul_ok.
    - split; [|split; [|exact B5]].
      + split; [vm_compute; lia|Props_Opt.no_nul_ok].
      + intros n o [<-|[<-|[]]] E; [injection E as <-; (split; [vm_compute; lia|Props_Opt.no_nul_ok])|discriminate].
    - split; [reflexivity|]. intros z E. discriminate. }
  split; [exact decimal_exact|]. split.
  - split; [lia|]. split; [apply repeat_length|]. exists Props_Save.exS. split; [reflexivity|]. apply CALL.
    + split; [discriminate|]. repeat constructor; discriminate.
    + split.
      * cbn [sall Props_Save.exS flat_map s_funcs app]. repeat (apply Forall_cons; [split; [apply K; vm_compute; reflexivity|]|]); try (left; reflexivity).
        right. do 3 eexists. split; [reflexivity|]. left. split; [reflexivity|]. intros _. eexists. constructor.
      * intros _. do 2 eexists. split; [reflexivity|]. split; vm_compute; discriminate.
    + cbn [sall Props_Save.exS flat_map s_funcs app]. repeat (apply Forall_cons; [apply SZ; vm_compute; reflexivity|]). constructor.
    + cbn [sall Props_Save.exS flat_map s_funcs app]. repeat (apply Forall_cons; [split; [reflexivity|]; split; [discriminate|];
        split; [split; try discriminate; reflexivity|try discriminate; intros _ p x y; discriminate]|]). constructor.
    + cbn [sall Props_Save.exS flat_map s_funcs app]. repeat (apply Forall_cons; [split; [vm_compute; lia|Props_Opt.no_nul_ok]|]). constructor.
  - split; [lia|]. split; [apply repeat_length|]. exists [mkSblock 1%R 1%R [mkSfunc (lit "FlatSky") [] [] [1%R]]]. split; [reflexivity|]. apply CALL.
    + split; [discriminate|]. repeat constructor; discriminate.
    + split.
      * cbn [sall flat_map s_funcs app]. repeat (apply Forall_cons; [split; [apply K; vm_compute; reflexivity|]|]); try constructor; try reflexivity.
      * intros _. do 2 eexists. split; [reflexivity|]. split; vm_compute; discriminate.
    + cbn [sall flat_map s_funcs app]. repeat (apply Forall_cons; [apply SZ; vm_compute; reflexivity|]). constructor.
    + cbn [sall flat_map s_funcs app]. repeat (apply Forall_cons; [split; [reflexivity|]; split; [discriminate|];
        split; [split; try discriminate; reflexivity|try discriminate; intros _ p x y; discriminate]|]). constructor.
    + cbn [sall flat_map s_funcs app]. repeat (apply Forall_cons; [split; [vm_compute; lia|Props_Opt.no_nul_ok]|]). constructor.
Qed.
