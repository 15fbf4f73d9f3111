(** C69, C70: what the options of the five programs mean; command line, configuration
    file and defaults. *)
From Coq Require Import Ascii String List ZArith Lia Bool.
From Verif Require Import Base CmdLine_Model CmdLine_Spec StrUtil_Proof CmdLine_Proof Opt_Model Opt_Spec Opt_Num Opt_Proof Opt_Final Opt_Config.
Import ListNotations.
Local Open Scope string_scope.
Local Open Scope list_scope.

(** ---- C69 ---- *)
(** [options_of p (prog :: ws)]: the options object of program [p] after the command
    line [prog ws], or the status with which the program ended. *)
Theorem C69_options : forall (T : Type) (strtod : word -> T) (dbl : string -> T) (cores : Z)
    (p : program) (its : list item) (ws : list word) (prog : word),
  Says (sheet_of p) its ws ->
  (Accepted (sheet_of p) its -> exists o, options_of T strtod dbl cores p (prog :: ws) = Ok (Run o) /\
     forall k, o k = meaning_of T strtod dbl cores its p k) /\
  (Refused (sheet_of p) its -> options_of T strtod dbl cores p (prog :: ws) = Ok (Exit 1)).
Proof. intros T strtod dbl cores p its ws prog HS. exact (all_lines strtod dbl cores prog HS). Qed.
Print Assumptions C69_options.

(** a word of dashes only, an unknown option, and an option that is the last word and
    needs a value end the program, whatever stands before *)
Theorem C69_mistakes : forall (T : Type) (strtod : word -> T) (dbl : string -> T) (cores : Z)
    (p : program) (its : list item) (ws : list word) (prog w : word) (more : list word),
  Says (sheet_of p) its ws ->
  (exists d n, w = d ++ n /\ dashes d /\
     (n = [] \/
      Name n /\ ~ IsReg true (sheet_regs (sheet_of p)) n /\ ~ IsReg false (sheet_regs (sheet_of p)) n \/
      Name n /\ IsReg false (sheet_regs (sheet_of p)) n /\ more = [])) ->
  options_of T strtod dbl cores p (prog :: ws ++ w :: more) = Ok (Exit 1).
Proof. intros T strtod dbl cores p its ws prog w more HS H. exact (mistakes strtod dbl cores prog HS H). Qed.
Print Assumptions C69_mistakes.

(** What the stronger reading of the property would need, and the code does not do.
    [line p ws k v]: the command line is accepted and gives member [k] the value [v]. *)
Definition line {T} (strtod : word -> T) (dbl : string -> T) (cores : Z) (p : program) (ws : list string) (k : key) (v : val T) : Prop :=
  exists o, options_of T strtod dbl cores p (map wd ("prog" :: ws)) = Ok (Run o) /\ o k = v.
Ltac line := eexists; split; [vm_compute; reflexivity|vm_compute; reflexivity].
(** "5x" is read as 5; only the first character of an integer is looked at *)
Theorem C69_trailing_refuted : forall T strtod dbl cores,
  @line T strtod dbl cores Imfit ["--max-threads"; "5x"] K_maxThreads (VZ 5).
Proof. intros. line. Qed.
Print Assumptions C69_trailing_refuted.
(** 5000000000 bootstrap iterations become 705032704 *)
Theorem C69_wraps_refuted : forall T strtod dbl cores,
  @line T strtod dbl cores Imfit ["--bootstrap"; "5000000000"] K_bootstrapIterations (VZ 705032704).
Proof. intros. line. Qed.
Print Assumptions C69_wraps_refuted.
(** of several values the first one counts *)
Theorem C69_first_value_wins : forall T strtod dbl cores,
  @line T strtod dbl cores Imfit ["--gain"; "4.5"; "--gain"; "2.0"] K_gain (VR (strtod (wd "4.5"))).
Proof. intros. line. Qed.
Print Assumptions C69_first_value_wins.
(** a gain of zero, and a sky of "--5", pass the checks *)
Theorem C69_zero_gain_refuted : forall T strtod dbl cores,
  @line T strtod dbl cores Imfit ["--gain"; "0"] K_gain (VR (strtod (wd "0"))) /\
  @line T strtod dbl cores Imfit ["--sky"; "--5"] K_originalSky (VR (strtod (wd "--5"))).
Proof. intros. split; line. Qed.
Print Assumptions C69_zero_gain_refuted.
(** a byte above 127 where a number is expected is undefined behaviour (isdigit) *)
Theorem C69_high_byte_refuted : forall T strtod dbl cores,
  options_of T strtod dbl cores Imfit [wd "imfit"; wd "--sky"; [ascii_of_nat 233]] = Undef.
Proof. intros. vm_compute. reflexivity. Qed.
Print Assumptions C69_high_byte_refuted.
(** multimfit: without --cashstat and --poisson-mlr the switches that choose the fit
    statistic have no value at all *)
Theorem C69_multimfit_statistic_refuted : forall T strtod dbl cores,
  @line T strtod dbl cores Multimfit ["-c"; "model.dat"; "--image-info"; "info.dat"] K_useCashStatistic VUninit /\
  @line T strtod dbl cores Multimfit ["-c"; "model.dat"; "--image-info"; "info.dat"] K_usePoissonMLR VUninit.
Proof. intros. split; line. Qed.
Print Assumptions C69_multimfit_statistic_refuted.

(** ---- C70 ---- *)
(** imfit and imfit-mcmc. [cfg]: the option lines of the configuration file, in order. *)
Theorem C70_fit_options : forall (T : Type) (strtod : word -> T) (dbl : string -> T) (cores : Z)
    (p : program) (its : list item) (ws : list word) (prog : word) (cfg : list (word * word)),
  p = Imfit \/ p = Mcmc -> Says (sheet_of p) its ws -> Accepted (sheet_of p) its ->
  Forall (fun nv => no_nul (snd nv)) cfg ->
  (forall v, Used its cfg "ncombined" ["NCOMBINED"] v -> Good Count v) ->
  exists o o', options_of T strtod dbl cores p (prog :: ws) = Ok (Run o) /\
    HandleConfigFileOptions strtod cfg o = Ok o' /\
    forall k, o' k = fit_configured T strtod dbl its cfg (meaning_of T strtod dbl cores its p) k.
Proof.
  intros T strtod dbl cores p its ws prog cfg HP HS HA HN HG.
  destruct (proj1 (all_lines strtod dbl cores prog HS) HA) as (o & E & D). exists o.
  destruct (@config_fit_whole T strtod dbl cores p its cfg o HP D HN HG) as (o' & E' & D'). eauto.
Qed.
Print Assumptions C70_fit_options.

(** makeimage *)
Theorem C70_makeimage_options : forall (T : Type) (strtod : word -> T) (dbl : string -> T) (cores : Z)
    (its : list item) (ws : list word) (prog : word) (cfg : list (word * word)),
  Says makeimage_sheet its ws -> Accepted makeimage_sheet its ->
  exists o, options_of T strtod dbl cores Makeimage (prog :: ws) = Ok (Run o) /\
  ((forall v, SizeLine its cfg v -> Good Count v) ->
   exists o', HandleConfigFileOptions_makeimage strtod cfg o = Ok (Run o') /\
     forall k, o' k = size_configured T its cfg (meaning_of T strtod dbl cores its Makeimage) k) /\
  ((forall v, SizeLine its cfg v -> Good Count v \/ Bad Count v) -> (exists v, SizeLine its cfg v /\ Bad Count v) ->
   HandleConfigFileOptions_makeimage strtod cfg o = Ok (Exit 1)).
Proof.
  intros T strtod dbl cores its ws prog cfg HS HA.
  destruct (proj1 (@all_lines T strtod dbl cores Makeimage its ws prog HS) HA) as (o & E & D). exists o. split; [exact E|].
  exact (@config_size_whole T strtod dbl cores its cfg o D).
Qed.
Print Assumptions C70_makeimage_options.

(** and the size of the image that it makes; [GetImageSize] tells the size of an
    existing image file, if there is one of that name *)
Theorem C70_makeimage_size : forall (T : Type) (strtod : word -> T) (dbl : string -> T) (cores : Z)
    (its : list item) (ws : list word) (prog : word) (cfg : list (word * word)) (GetImageSize : word -> option (Z * Z)),
  Says makeimage_sheet its ws -> Accepted makeimage_sheet its ->
  (forall v, SizeLine its cfg v -> Good Count v) -> GetImageSize [] = None ->
  exists o o', options_of T strtod dbl cores Makeimage (prog :: ws) = Ok (Run o) /\
    HandleConfigFileOptions_makeimage strtod cfg o = Ok (Run o') /\
    image_size GetImageSize o' = Ok (size_wanted GetImageSize its cfg).
Proof.
  intros T strtod dbl cores its ws prog cfg GI HS HA HG HE.
  destruct (proj1 (@all_lines T strtod dbl cores Makeimage its ws prog HS) HA) as (o & E & D).
  destruct (proj1 (@config_size_whole T strtod dbl cores its cfg o D) HG) as (o' & E' & D').
  exists o, o'. split; [exact E|]. split; [exact E'|].
  exact (@image_size_ok T strtod dbl cores GI its cfg o' HG HA HE D').
Qed.
Print Assumptions C70_makeimage_size.

(** the number of combined images in a configuration file is not checked: "none" is 0 *)
Theorem C70_ncombined_refuted : forall T strtod dbl cores, exists o o',
  options_of T strtod dbl cores Imfit (map wd ["imfit"; "image.fits"]) = Ok (Run o) /\
  HandleConfigFileOptions strtod [(wd "NCOMBINED", wd "none")] o = Ok o' /\ o' K_nCombined = VZ 0.
Proof. intros. do 2 eexists. split; [vm_compute; reflexivity|]. split; vm_compute; reflexivity. Qed.
Print Assumptions C70_ncombined_refuted.
(** only fluxes wanted, with a reference image and no other size: an image of size 0 x 0 *)
Theorem C70_flux_size_refuted : forall T strtod dbl cores GetImageSize, exists o o',
  options_of T strtod dbl cores Makeimage (map wd ["makeimage"; "model.dat"; "--print-fluxes"; "--refimage"; "image.fits"]) = Ok (Run o) /\
  HandleConfigFileOptions_makeimage strtod [] o = Ok (Run o') /\
  image_size GetImageSize o' = Ok (Size 0 0).
Proof. intros. do 2 eexists. split; [vm_compute; reflexivity|]. split; vm_compute; reflexivity. Qed.
Print Assumptions C70_flux_size_refuted.

(** ---- the hypotheses can be met ---- *)
Lemma name_wd s : wd s <> [] -> existsb (ch_eqb dash) (firstn 1 (wd s)) = false ->
  existsb (ch_eqb equals) (wd s) = false -> Name (wd s).
Proof.
  intros H1 H2 H3. split; auto. split.
  - intros c r E. rewrite E in H2. intros ->. cbn in H2. discriminate H2.
  - apply Forall_forall. intros c Hc ->. assert (existsb (ch_eqb equals) (wd s) = true); [|congruence].
    apply existsb_exists. exists equals. split; auto.
Qed.
Lemma reg_of b sh n : existsb (str_eqb n) (reg_names b (sheet_regs sh)) = true -> IsReg b (sheet_regs sh) n.
Proof. intros H. apply IsReg_names. now apply existsb_str. Qed.
Definition ex_its : list item := [UArg (wd "galaxy.fits"); UOpt (wd "c") (wd "model.dat"); UOptEq (wd "gain") (wd "4.5");
  UOpt (wd "sky") (wd "-130.25"); UFlag (wd "de"); UOpt (wd "bootstrap") (wd "100"); UOpt (wd "seed") (wd "17")].
Definition ex_ws : list word := map wd ["galaxy.fits"; "-c"; "model.dat"; "--gain=4.5"; "--sky"; "-130.25"; "--de"; "--bootstrap"; "100"; "--seed"; "17"].
Definition ex_cfg : list (word * word) := [(wd "GAIN", wd "1.5"); (wd "READNOISE", wd "3"); (wd "NCOMBINED", wd "4"); (wd "READNOISE", wd "5")].
Definition gets (T : Type) (strtod : word -> T) (dbl : string -> T) (k : key) : val T :=
  fit_configured T strtod dbl ex_its ex_cfg (meaning_of T strtod dbl 8 ex_its Imfit) k.

Ltac flagd s := match goal with |- Line ?r _ _ => refine (L_cons r (UFlag (wd s)) [wd "--" ++ wd s] _ _ _ _);
  [constructor; [split; [discriminate|repeat constructor]|apply name_wd; [discriminate|reflexivity|reflexivity]|apply reg_of; vm_compute; reflexivity]|] end.
Ltac optd d s v := match goal with |- Line ?r _ _ => refine (L_cons r (UOpt (wd s) (wd v)) [wd d ++ wd s; wd v] _ _ _ _);
  [constructor; [split; [discriminate|repeat constructor]|apply name_wd; [discriminate|reflexivity|reflexivity]|apply reg_of; vm_compute; reflexivity]|] end.
Ltac opteq s v := match goal with |- Line ?r _ _ => refine (L_cons r (UOptEq (wd s) (wd v)) [wd "--" ++ wd s ++ ascii_of_nat 61 :: wd v] _ _ _ _);
  [constructor; [split; [discriminate|repeat constructor]|apply name_wd; [discriminate|reflexivity|reflexivity]|discriminate|repeat constructor; discriminate|apply reg_of; vm_compute; reflexivity]|] end.
Ltac argd s := match goal with |- Line ?r _ _ => refine (L_cons r (UArg (wd s)) [wd s] _ _ _ _);
  [constructor; intros c0 r0 E0; inversion E0; discriminate|] end.

Lemma dig_ok c : (48 <=? code c)%nat && (code c <=? 57)%nat = true -> Dig c.
Proof. intros H. apply andb_true_iff in H. destruct H as [H1 H2]. apply Nat.leb_le in H1. apply Nat.leb_le in H2. unfold Dig. lia. Qed.
Ltac count_ok := split; [discriminate|]; split; [repeat constructor; apply dig_ok; reflexivity|]; split;
  [intros c0 d0 E0; inversion E0; subst; vm_compute; discriminate|vm_compute; discriminate].
Ltac no_nul_ok := intros I; vm_compute in I; repeat (destruct I as [I|I]; [discriminate I|]); destruct I.

Ltac eval_counted :=
  match goal with |- Forall _ ?x => let v := eval vm_compute in x in change x with v end; try (apply Forall_nil); try (apply Forall_cons; [exact I|apply Forall_nil]).
Example C69_hyp_example : Says imfit_sheet ex_its ex_ws /\ Accepted imfit_sheet ex_its /\
  Forall (fun nv => no_nul (snd nv)) ex_cfg /\ (forall v, Used ex_its ex_cfg "ncombined" ["NCOMBINED"] v -> Good Count v).
Proof.
  split; [|split; [|split]].
  - split.
    + unfold ex_its, ex_ws. argd "galaxy.fits". optd "-" "c" "model.dat". opteq "gain" "4.5". optd "--" "sky" "-130.25".
      flagd "de". optd "--" "bootstrap" "100". optd "--" "seed" "17". constructor.
    + repeat constructor; discriminate.
  - split; [discriminate|]. split.
    + intros ns H. repeat (destruct H as [H|H]; [inversion H; subst; try reflexivity|]). destruct H.
    + intros k ns H. repeat (destruct H as [H|H]; [inversion H; subst; clear H; eval_counted|]); [| | | |now destruct H].
      * constructor; [|constructor]. split; [no_nul_ok|]. right. exists (wd "130.25"). split; [reflexivity|]. left. do 2 eexists. split; [reflexivity|]. apply dig_ok. reflexivity.
      * constructor; [|constructor]. split; [no_nul_ok|]. left. do 2 eexists. split; [reflexivity|]. apply dig_ok. reflexivity.
      * constructor; [|constructor]. count_ok.
      * constructor; [|constructor]. count_ok.
  - repeat constructor; no_nul_ok.
  - intros v [_ (n & I & N)]. repeat (destruct I as [I|I]; [inversion I; subst; try discriminate N|]); [|destruct I]. count_ok.
Qed.
Example C70_case : forall T strtod dbl,
  gets T strtod dbl K_gain = VR (strtod (wd "4.5")) /\ gets T strtod dbl K_readNoise = VR (strtod (wd "5")) /\
  gets T strtod dbl K_nCombined = VZ 4 /\ gets T strtod dbl K_expTime = VR (dbl "1.0") /\
  gets T strtod dbl K_solver = VZ 2 /\ gets T strtod dbl K_configFileName = VS (wd "model.dat") /\
  gets T strtod dbl K_bootstrapIterations = VZ 100.
Proof. intros. repeat split; vm_compute; reflexivity. Qed.

Definition ex_make : list item := [UArg (wd "model.dat"); UOpt (wd "ncols") (wd "100"); UOpt (wd "o") (wd "out.fits")].
Definition ex_make_ws : list word := map wd ["model.dat"; "--ncols"; "100"; "-o"; "out.fits"].
Example C70_hyp_example : Says makeimage_sheet ex_make ex_make_ws /\ Accepted makeimage_sheet ex_make /\
  (forall v, SizeLine ex_make [(wd "NROWS", wd "50"); (wd "NCOLS", wd "none")] v -> Good Count v) /\
  (exists v, SizeLine ex_make [(wd "NROWS", wd "-50")] v /\ Bad Count v) /\
  forall f, size_wanted f ex_make [(wd "NROWS", wd "50"); (wd "NCOLS", wd "none")] = Size 100 50.
Proof.
  split; [|split; [|split; [|split]]].
  - split.
    + unfold ex_make, ex_make_ws. argd "model.dat". optd "--" "ncols" "100". optd "-" "o" "out.fits". constructor.
    + repeat constructor; discriminate.
  - split; [discriminate|]. split.
    + intros ns H. repeat (destruct H as [H|H]; [inversion H; subst; try reflexivity|]). destruct H.
    + intros k ns H. repeat (destruct H as [H|H]; [inversion H; subst; clear H; eval_counted|]); [|now destruct H].
      constructor; [|constructor]. count_ok.
  - intros v [[E _]|[_ (n & I & N)]]; [vm_compute in E; discriminate E|].
    repeat (destruct I as [I|I]; [inversion I; subst; try discriminate N|]); [|destruct I]. count_ok.
  - exists (wd "-50"). split.
    + right. split; [vm_compute; reflexivity|]. exists (wd "NROWS"). split; [now left|reflexivity].
    + intros c d E. inversion E; subst. vm_compute. split; [lia|]. intros [H _]. lia.
  - intros f. vm_compute. reflexivity.
Qed.
(** a command line that is refused: a negative number of columns *)
Example C69_refused_example :
  let its := [UArg (wd "model.dat"); UOpt (wd "ncols") (wd "-100")] in
  Says makeimage_sheet its (map wd ["model.dat"; "--ncols"; "-100"]) /\ Refused makeimage_sheet its.
Proof.
  cbv zeta. split.
  - split.
    + argd "model.dat". optd "--" "ncols" "-100". constructor.
    + repeat constructor; discriminate.
  - assert (B : Bad Count (wd "-100")).
    { intros c d E. inversion E; subst. vm_compute. split; [lia|]. intros [H _]. lia. }
    split.
    + intros k ns H. repeat (destruct H as [H|H]; [inversion H; subst; clear H; eval_counted|]); [|now destruct H].
      constructor; [|constructor]. right. exact B.
    + right. right. exists Count, ["ncols"]. split; [cbn; tauto|]. match goal with |- Exists _ ?x => change x with [wd "-100"] end. left. exact B.
Qed.
