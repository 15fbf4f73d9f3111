(** Property C06 for files with function labels and optional parameters. *)
From Coq Require Import Ascii String List ZArith Reals Lra.
From Verif Require Import Config_Model StrUtil_Spec StrUtil_Proof Config_Spec Config_Proof.
From Verif Require Import ConfigL_Spec ConfigL_Proof Props_Config.
Local Open Scope list_scope.

(** C06: a file that expresses a description (keyword lines, blocks of functions with
    labels and optional parameters, parameters with limits), laid out in any way,
    reads back as that description, with the reader of imfit and imfit-mcmc and with
    the reader of makeimage. *)
Theorem C06_round_trip_labels :
  forall (T : Type) (N : Num T) (strtod : str -> T) (IsNumeric : str -> bool)
         (opts : list (str * str)) (bs : list blockL) (file : list str) (opt0 : list smap),
  FileSaysL (config_linesL opts bs) file -> bs <> [] -> all_funcsL bs <> [] ->
  Forall (fun p => GoodPar N strtod IsNumeric (fst p) (snd p)) (all_paramsL bs) ->
  let says out :=
    o_names out = map fl_name (all_funcsL bs) /\
    o_labels out = map fl_label (all_funcsL bs) /\
    o_params out = map (fun p => strtod (fst p)) (all_paramsL bs) /\
    o_limits out = map (fun p => entry N strtod (snd p)) (all_paramsL bs) /\
    o_starts out = starts_fromL 0 bs /\
    o_limFound out = existsb (fun p => found (snd p)) (all_paramsL bs) /\
    Forall2 (fun m f => forall k v, map_get m k = Some v <-> last_value (opts_of f) k v)
            (o_opt out) (all_funcsL bs) in
  (exists out, ReadConfigFile_full N strtod IsNumeric file true [] = Ok (0%Z, Some (out, opts)) /\ says out) /\
  (exists out, ReadConfigFile_limited N strtod IsNumeric file true opt0 = Ok (0%Z, Some (out, opts)) /\ says out).
Proof. intros T N sd isn opts bs file opt0. exact (@round_tripL_says T N sd isn opts bs file opt0). Qed.
Print Assumptions C06_round_trip_labels.

(** A label of one character is dropped without a message; any other is kept. *)
Theorem C06_label_refuted : forall (T : Type) (N : Num T) (strtod : str -> T),
  exists file out, ReadConfigFile_full N strtod digits_only file true [] = Ok (0%Z, Some (out, [])) /\
    nth_error file 2 = Some (lit "FUNCTION FlatSky # LABEL A") /\ nth_error file 4 = Some (lit "FUNCTION FlatSky # LABEL AB") /\
    o_labels out = [[]; lit "AB"].
Proof.
  intros T N sd.
  pose (f := map lit ["X0 1"; "Y0 2"; "FUNCTION FlatSky # LABEL A"; "I_sky 3"; "FUNCTION FlatSky # LABEL AB"; "I_sky 3"]%string).
  let r1 := eval vm_compute in (ReadConfigFile_full N sd digits_only f true []) in
  match r1 with Ok (_, Some (?o1, _)) => exists f, o1 end.
  repeat split; vm_compute; reflexivity.
Qed.
Print Assumptions C06_label_refuted.

(** a description with a label, an optional parameter given twice, and a file that says it *)
Definition exL : list blockL :=
  [mkBlockL (lit "32", LRange (lit "30") (lit "34")) (lit "40", LFixed)
     [mkFuncL (lit "PointSource") (lit "the nucleus")
        (Some [(lit "method", lit "bicubic"); (lit "method", lit "lanczos2")])
        [mkParam (lit "I_tot") (lit "20") LNone];
      mkFuncL (lit "FlatSky") [] None [mkParam (lit "I_sky") (lit "5") LFixed]]].
Definition exL_file : list str :=
  map lit ["# a comment"; " GAIN  4 # e/ADU"; ""; "X0   32  30,34"; "Y0 40 fixed";
           "FUNCTION PointSource # LABEL  the nucleus "; "OPTIONAL_PARAMS_START"; "method bicubic";
           "  method  lanczos2"; "OPTIONAL_PARAMS_END"; "I_tot 20"; "  FUNCTION FlatSky"; "I_sky 5 fixed"]%string.
Ltac nokwL := intros ?K; apply has_true in K; vm_compute in K; discriminate K.
Ltac wordsL body :=
  exists (lit body); split;
    [apply Body_chop; reflexivity
    |let H := fresh in destruct (SplitStringAdd_ok ws_delims (lit body) []) as (? & H & ?); vm_compute in H;
     inversion H; subst; assumption].
Ltac saysL body := repeat split; try nokwL; wordsL body.
Example C06L_hyp_example :
  FileSaysL (config_linesL [(lit "GAIN", lit "4")] exL) exL_file /\ exL <> [] /\ all_funcsL exL <> [] /\
  Forall (fun p => GoodPar NumR (fun s => IZR (read_digits s 0)) digits_only (fst p) (snd p)) (all_paramsL exL).
Proof.
  split.
  - unfold exL_file, exL, config_linesL.
    cbn [map flat_map app block_linesL func_linesL opts_lines bk_x bk_y bk_funcs fst snd fl_name fl_label fl_opts fl_params].
    apply FL_skip. { exists [], (lit "# a comment"). repeat split; auto. right. eexists. reflexivity. }
    apply FL_line. { saysL " GAIN  4 "%string. }
    apply FL_skip. { exists [], []. repeat split; auto. }
    apply FL_line. { saysL "X0   32  30,34"%string. }
    apply FL_line. { saysL "Y0 40 fixed"%string. }
    apply FL_line. { split; [wordsL "FUNCTION PointSource "%string|]. split; [nokwL|]. right.
      exists (lit "FUNCTION PointSource # "), (lit "  the nucleus "). split; [reflexivity|]. split.
      - intros a' b' E.
        apply (label_first (a := lit "FUNCTION PointSource # ") (b := lit "  the nucleus ") (a' := a') (b' := b'));
          [vm_compute; reflexivity|exact E].
      - split; [|discriminate]. exists (lit "  "), (lit " "). split; [reflexivity|].
        split; [|split].
        + repeat (apply Forall_cons; [right; right; left; reflexivity|]); constructor.
        + repeat (apply Forall_cons; [right; right; left; reflexivity|]); constructor.
        + right. split; [exists (ascii_of_nat 116), (lit "he nucleus")|exists (lit "the nucleu"), (ascii_of_nat 115)];
            (split; [reflexivity|intros [K|[K|[K|[]]]]; discriminate K]). }
    apply FL_line. { saysL "OPTIONAL_PARAMS_START"%string. }
    apply FL_line. { saysL "method bicubic"%string. }
    apply FL_line. { saysL "  method  lanczos2"%string. }
    apply FL_line. { saysL "OPTIONAL_PARAMS_END"%string. }
    apply FL_line. { saysL "I_tot 20"%string. }
    apply FL_line. { split; [wordsL "  FUNCTION FlatSky"%string|]. split; [nokwL|]. left. split; [reflexivity|nokwL]. }
    apply FL_line. { saysL "I_sky 5 fixed"%string. }
    constructor.
  - split; [discriminate|]. split; [discriminate|].
    repeat constructor; cbn -[Rltb Rleb]; repeat split; try discriminate;
    try (repeat constructor; discriminate);
    try (apply Rleb_false; unfold read_digits; simpl; lra);
    try (apply Rltb_false; unfold read_digits; simpl; lra).
Qed.
