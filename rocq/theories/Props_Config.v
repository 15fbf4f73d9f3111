(** Properties C05, C06, C07: configuration files. *)
From Coq Require Import Ascii String List ZArith Sorted.
From Verif Require Import Config_Model StrUtil_Spec StrUtil_Proof Config_Spec Config_Proof.
Local Open Scope list_scope.

(** C05. Full statement (false of the code, see the _refuted theorems):
      every list of lines accepted by VetConfigFile is parsed without undefined
      behaviour, with as many limits as parameters and with block starts that are
      strictly increasing and inside the function list.
    What holds: it holds when the accepted lines also follow the documented layout
    [Shape] (no X0 line at the very end, function lines with a name, position lines
    and optional sections where they belong) and every block has a function. *)
Theorem C05_vetted_parse_partial :
  forall (T : Type) (N : Num T) (strtod : str -> T) (IsNumeric : str -> bool)
         (ls : list str) (nums : list Z) (mode2D : bool) (start : Z) (ls' : list str)
         (bad : option Z) (opt0 : list smap),
  VetConfigFile IsNumeric ls nums mode2D = Ok (start, ls', bad) -> (0 <= start)%Z ->
  Shape mode2D false false (skipn (Z.to_nat start) ls') ->
  exists code out,
    ParseFunctionSection N strtod (skipn (Z.to_nat start) ls') mode2D true opt0 = Ok (code, out) /\
    (code = 0%Z \/ code = (-1)%Z) /\
    (code = 0%Z ->
      List.length (o_params out) = List.length (o_limits out) /\
      List.length (o_labels out) = List.length (o_names out) /\
      List.length (o_opt out) = List.length opt0 + List.length (o_names out) /\
      StartsOf 0 (skipn (Z.to_nat start) ls') (o_starts out) (List.length (o_names out))).
Proof. intros T N sd isn ls nums m2 z ls' bad opt0. exact (@vetted_parse_ok T N sd isn ls nums m2 z ls' bad opt0). Qed.
Print Assumptions C05_vetted_parse_partial.

Theorem C05_starts_increasing : forall n ls s m,
  StartsOf n ls s m -> EveryBlockHasFunction ls ->
  StronglySorted lt s /\ Forall (fun k => k < m) s.
Proof. intros n ls s m. exact (@StartsOf_sorted n ls s m). Qed.
Print Assumptions C05_starts_increasing.

(** what acceptance by the vetting step means *)
Theorem C05_vet_accepts :
  forall (IsNumeric : str -> bool) ls nums mode2D start ls' bad,
  VetConfigFile IsNumeric ls nums mode2D = Ok (start, ls', bad) -> (0 <= start)%Z ->
  exists pre x post t, ls = pre ++ x :: post /\ start = Z.of_nat (List.length pre) /\ ls' = pre ++ t /\
    Kw "X0" x /\ Forall (fun l => ~ Kw "X0" l) pre /\ List.length t = List.length (x :: post) /\
    (mode2D = true -> exists y r, post = y :: r /\ Kw "Y0" y) /\
    (exists f, In f (x :: post) /\ Kw "FUNCTION" f).
Proof.
  intros isn ls nums m2 z ls' bad H Hz.
  destruct (vet_accept H Hz) as (pre & x & post & t & H1 & H2 & H3 & _ & H4). exists pre, x, post, t.
  repeat (split; [assumption || apply H4|]). apply H4.
Qed.
Print Assumptions C05_vet_accepts.

(** digits only; agrees with IsNumeric of the program on the witnesses below *)
Definition digits_only (s : str) : bool := negb (match s with [] => true | _ => false end) && forallb is_digit s.
Definition nums5 : list Z := [1; 2; 3; 4; 5; 6; 7; 8]%Z.
Ltac wit_vet ls m2 :=
  let v := eval vm_compute in (VetConfigFile digits_only ls nums5 m2) in
  match v with Ok (_, ?l', _) => exists ls, l' end.
(* the same, followed by the result of parsing the vetted lines *)
Ltac wit_parse N sd ls m2 :=
  let v := eval vm_compute in (VetConfigFile digits_only ls nums5 m2) in
  match v with Ok (_, ?l', _) =>
    let r := eval vm_compute in (ParseFunctionSection N sd l' m2 true []) in
    match r with Ok (_, ?o) => exists ls, l', o end end.
Ltac crunch := repeat split; vm_compute; reflexivity.

(** an accepted file whose last line is an X0 line: out-of-range read *)
Theorem C05_trailing_X0_refuted : forall (T : Type) (N : Num T) (strtod : str -> T),
  exists ls ls', VetConfigFile digits_only ls nums5 true = Ok (0%Z, ls', None) /\
                 ParseFunctionSection N strtod ls' true true [] = Undef.
Proof.
  intros T N sd. wit_vet (map lit ["X0 1"; "Y0 2"; "FUNCTION Exponential"; "PA 3"; "X0 5"]%string) true. crunch.
Qed.
Print Assumptions C05_trailing_X0_refuted.

(** an accepted file with a FUNCTION line without a name *)
Theorem C05_nameless_function_refuted : forall (T : Type) (N : Num T) (strtod : str -> T),
  exists ls ls', VetConfigFile digits_only ls nums5 true = Ok (0%Z, ls', None) /\
                 ParseFunctionSection N strtod ls' true true [] = Undef.
Proof.
  intros T N sd. wit_vet (map lit ["X0 1"; "Y0 2"; "FUNCTION"; "PA 3"]%string) true. crunch.
Qed.
Print Assumptions C05_nameless_function_refuted.

(** an accepted file with an optional-parameter section before the first function *)
Theorem C05_early_optional_refuted : forall (T : Type) (N : Num T) (strtod : str -> T),
  exists ls ls', VetConfigFile digits_only ls nums5 true = Ok (0%Z, ls', None) /\
                 ParseFunctionSection N strtod ls' true true [] = Undef.
Proof.
  intros T N sd.
  wit_vet (map lit ["X0 1"; "Y0 2"; "OPTIONAL_PARAMS_START"; "method bicubic"; "OPTIONAL_PARAMS_END"; "FUNCTION PointSource"]%string) true. crunch.
Qed.
Print Assumptions C05_early_optional_refuted.

(** a comment on a FUNCTION line that contains "X0" turns it into a position line:
    the function is lost and its name is read as a number *)
Theorem C05_comment_misread_refuted : forall (T : Type) (N : Num T) (strtod : str -> T),
  exists ls ls' out, VetConfigFile digits_only ls nums5 false = Ok (0%Z, ls', None) /\
    ParseFunctionSection N strtod ls' false true [] = Ok (0%Z, out) /\
    o_names out = [] /\ o_params out = [strtod (lit "1"); strtod (lit "Exponential"); strtod (lit "3")].
Proof.
  intros T N sd. wit_parse N sd (map lit ["X0 1"; "FUNCTION Exponential # near X0"; "h 3"]%string) false. crunch.
Qed.
Print Assumptions C05_comment_misread_refuted.

(** blocks without a function: accepted, but block starts repeat and leave the list *)
Theorem C05_starts_refuted : forall (T : Type) (N : Num T) (strtod : str -> T),
  exists ls ls' out, VetConfigFile digits_only ls nums5 true = Ok (0%Z, ls', None) /\
    ParseFunctionSection N strtod ls' true true [] = Ok (0%Z, out) /\
    o_starts out = [0; 0; 1] /\ List.length (o_names out) = 1.
Proof.
  intros T N sd.
  wit_parse N sd (map lit ["X0 1"; "Y0 2"; "X0 1"; "Y0 2"; "FUNCTION Exponential"; "PA 3"; "X0 1"; "Y0 2"]%string) true. crunch.
Qed.
Print Assumptions C05_starts_refuted.

(** C06: round trip through the full (limit-reading) version of ReadConfigFile, for
    every way of laying out the words (blanks, comments, blank lines). *)
Theorem C06_round_trip :
  forall (T : Type) (N : Num T) (strtod : str -> T) (IsNumeric : str -> bool)
         (opts : list (str * str)) (bs : list block_) (file : list str) (opt0 : list smap),
  FileSays (config_lines opts bs) file -> bs <> [] -> all_names bs <> [] ->
  Forall (GoodLine N strtod IsNumeric) (flat_map block_lines bs) ->
  exists out, ReadConfigFile_full N strtod IsNumeric file true opt0 = Ok (0%Z, Some (out, opts)) /\
    o_names out = all_names bs /\
    o_params out = map (fun p => strtod (fst p)) (all_params bs) /\
    o_limits out = map (fun p => entry N strtod (snd p)) (all_params bs) /\
    o_starts out = starts_from 0 bs /\
    o_limFound out = existsb (fun p => found (snd p)) (all_params bs) /\
    o_opt out = opt0 ++ repeat [] (List.length (all_names bs)).
Proof. intros T N sd isn opts bs file opt0. exact (@round_trip_full T N sd isn opts bs file opt0). Qed.
Print Assumptions C06_round_trip.

(** a description and a file that says it *)
Definition ex_desc : list block_ :=
  [mkBlock (lit "32", LRange (lit "30") (lit "34")) (lit "40", LFixed)
     [mkFunc (lit "Exponential") [mkParam (lit "PA") (lit "20") LNone; mkParam (lit "h") (lit "10") (LRange (lit "0") (lit "99"))];
      mkFunc (lit "FlatSky") [mkParam (lit "I") (lit "5") LFixed]]].
Definition ex_file : list str :=
  map lit ["# a comment"; " GAIN  4 # e/ADU"; ""; "X0   32  30,34"; "Y0 40 fixed"; "FUNCTION Exponential # LABEL disk";
           "PA 20"; "h 10 0,99"; "  FUNCTION FlatSky"; "I 5 fixed"]%string.

Ltac nokw := intros ?K; apply has_true in K; vm_compute in K; discriminate K.
Ltac says d body := 
  split; [exists (lit body); split;
    [apply Body_chop; reflexivity
    |let H := fresh in destruct (SplitStringAdd_ok ws_delims (lit body) []) as (? & H & ?); vm_compute in H;
     inversion H; subst; assumption]
  |try (repeat split); nokw].
Example C06_hyp_example : FileSays (config_lines [(lit "GAIN", lit "4")] ex_desc) ex_file.
Proof.
  assert (B : Blank (ascii_of_nat 32)) by (unfold Blank; simpl; auto).
  unfold ex_file, ex_desc, config_lines. cbn [map flat_map app block_lines func_lines bl_x bl_y bl_funcs fst snd fu_name fu_params].
  apply FS_skip. { exists [], (lit "# a comment"). repeat split; auto. right. eexists. reflexivity. }
  apply FS_line. { says (DOpt (lit "GAIN") (lit "4")) " GAIN  4 "%string. }
  apply FS_skip. { exists [], []. repeat split; auto. }
  apply FS_line. { says 0 "X0   32  30,34"%string. }
  apply FS_line. { says 0 "Y0 40 fixed"%string. }
  apply FS_line. { says 0 "FUNCTION Exponential "%string. }
  apply FS_line. { says 0 "PA 20"%string. }
  apply FS_line. { says 0 "h 10 0,99"%string. }
  apply FS_line. { says 0 "  FUNCTION FlatSky"%string. }
  apply FS_line. { says 0 "I 5 fixed"%string. }
  constructor.
Qed.

(** C07. Full statement (false of the code): reading a file with a vector of optional
    parameters left over from an earlier reading gives the same result as reading it
    with an empty one.
    What holds: everything but the optional parameters is independent of the history. *)
Theorem C07_history_partial :
  forall (T : Type) (N : Num T) (strtod : str -> T) (IsNumeric : str -> bool) file mode2D opt0 opt1,
  same_read (ReadConfigFile_full N strtod IsNumeric file mode2D opt0)
            (ReadConfigFile_full N strtod IsNumeric file mode2D opt1).
Proof. intros T N sd isn file m2 o0 o1. exact (@read_full_hist T N sd isn file m2 o0 o1). Qed.
Print Assumptions C07_history_partial.

(** The version used by makeimage clears the vector first. *)
Theorem C07_limited_version :
  forall (T : Type) (N : Num T) (strtod : str -> T) (IsNumeric : str -> bool) file mode2D opt0 opt1,
  ReadConfigFile_limited N strtod IsNumeric file mode2D opt0 =
  ReadConfigFile_limited N strtod IsNumeric file mode2D opt1.
Proof. reflexivity. Qed.
Print Assumptions C07_limited_version.

(** Reading the same file twice: the second time the optional parameters of the new
    function land in the map of the first reading's function, and the new function has none. *)
Theorem C07_leak_refuted : forall (T : Type) (N : Num T) (strtod : str -> T),
  exists file out1 out2,
    ReadConfigFile_full N strtod digits_only file true [] = Ok (0%Z, Some (out1, [])) /\
    ReadConfigFile_full N strtod digits_only file true (o_opt out1) = Ok (0%Z, Some (out2, [])) /\
    List.length (o_names out2) = 1 /\
    o_opt out1 = [[(lit "method", lit "lanczos2")]] /\
    o_opt out2 = [[(lit "method", lit "lanczos2")]; []].
Proof.
  intros T N sd.
  pose (f := map lit ["X0 1"; "Y0 2"; "FUNCTION PointSource"; "I_tot 3"; "OPTIONAL_PARAMS_START";
                      "method lanczos2"; "OPTIONAL_PARAMS_END"]%string).
  let r1 := eval vm_compute in (ReadConfigFile_full N sd digits_only f true []) in
  match r1 with Ok (_, Some (?o1, _)) =>
    let r2 := eval vm_compute in (ReadConfigFile_full N sd digits_only f true (o_opt o1)) in
    match r2 with Ok (_, Some (?o2, _)) => exists f, o1, o2 end end.
  crunch.
Qed.
Print Assumptions C07_leak_refuted.

From Coq Require Import Reals Lra.
Example C06_good_example :
  Forall (GoodLine NumR (fun s => IZR (read_digits s 0)) digits_only) (flat_map block_lines ex_desc)
  /\ ex_desc <> [] /\ all_names ex_desc <> [].
Proof.
  split; [|split; discriminate].
  assert (G : forall c, In c (lit "0123456789") -> c <> ascii_of_nat 44).
  { intros c H. repeat (destruct H as [<-|H]; [discriminate|]). destruct H. }
  repeat constructor; cbn -[Rltb Rleb]; repeat split; try discriminate;
    try (repeat constructor; discriminate);
    try (apply Rleb_false; unfold read_digits; simpl; lra);
    try (apply Rltb_false; unfold read_digits; simpl; lra).
Qed.

Definition ex_lines : list str :=
  map lit ["X0 1 0,10"; "Y0 2"; "FUNCTION PointSource"; "I_tot 3 fixed";
           "OPTIONAL_PARAMS_START"; "method lanczos2"; "OPTIONAL_PARAMS_END"]%string.
Ltac yeskw := apply has_true; reflexivity.
Example C05_hyp_example :
  VetConfigFile (fun _ => true) ex_lines nums5 true = Ok (0%Z, ex_lines, None) /\
  Shape true false false ex_lines /\ EveryBlockHasFunction ex_lines.
Proof.
  split; [reflexivity|]. split.
  - unfold ex_lines. cbn [map].
    apply Sh_x0_2d; auto.
    + repeat split; try nokw. yeskw.
    + repeat split; try nokw. yeskw.
    + apply Sh_func.
      { split; [yeskw|]. split; [nokw|]. exists [lit "FUNCTION"; lit "PointSource"]. split; [|auto].
        exists (lit "FUNCTION PointSource"). split; [apply Body_chop; reflexivity|].
        destruct (SplitStringAdd_ok ws_delims (lit "FUNCTION PointSource") []) as (? & H & ?);
          vm_compute in H; inversion H; subst; assumption. }
      apply Sh_plain; [repeat split; nokw|].
      apply Sh_start; [repeat split; try nokw; yeskw|].
      apply Sh_plain; [repeat split; nokw|].
      apply Sh_end; [repeat split; try nokw; yeskw|].
      constructor.
  - intros a x b E Hx.
    assert (a = []).
    { destruct a as [|a0 a]; auto. exfalso. simpl in E. apply (f_equal (@tl str)) in E. cbn [tl ex_lines map] in E.
      assert (Hin : In x (tl ex_lines)) by (unfold ex_lines; cbn [map tl]; rewrite E; apply in_or_app; right; left; reflexivity).
      apply has_true in Hx.
      repeat (destruct Hin as [<-|Hin]; [vm_compute in Hx; discriminate|]). destruct Hin. }
    subst. simpl in E. inversion E; subst.
    exists [lit "Y0 2"], (lit "FUNCTION PointSource"). eexists. split; [reflexivity|].
    split; [yeskw|]. split; [nokw|]. constructor; [nokw|constructor].
Qed.
