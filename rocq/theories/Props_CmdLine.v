(** C04: the command line. *)
From Coq Require Import Ascii String List ZArith Lia Bool.
From Verif Require Import CmdLine_Model CmdLine_Spec CmdLine_Proof StrUtil_Proof.
Local Open Scope list_scope.

(** [register regs newParser] is the state after one AddFlag/AddOption/AddQueueOption
    call per registration; registered names are pairwise different. *)
Theorem C04_command_line : forall (regs : list reg) (ig : bool) (its : list item) (ws : list str) (prog : str),
  NoDup (flat_map rg_names regs) -> Line regs its ws ->
  (ig = true \/ Forall (fun it => forall w, it <> UUnknown w) its) ->
  let p0 := register regs newParser in
  let p1 := if ig then p0 else UnrecognizedAreErrors p0 in
  exists p, ParseCommandLine (prog :: ws) p1 = Ok (0%Z, p) /\
    cl_args p = positional its /\
    cl_empty p = (match its with [] => true | _ => false end) /\
    (forall r n, In r regs -> In n (rg_names r) ->
      (exists b, FlagSet p n = Ok b /\ (b = true <-> flag_given r its)) /\
      (exists vs, ValuesFor r its vs /\ GetNTargets p n = Ok (List.length vs) /\
         OptionSet p n = Ok (match vs with [] => false | _ => true end) /\
         forall i v, nth_error vs i = Some v -> GetTargetString p n i = Ok v)).
Proof. intros regs ig its ws prog ND HL H. exact (commandline_ok ND prog HL H). Qed.
Print Assumptions C04_command_line.

(** an option that is the last word, a word of dashes only, and (on request) an
    unknown option are reported as errors, whatever stands before them *)
Theorem C04_missing_value : forall regs (ig : bool) its ws prog n d,
  NoDup (flat_map rg_names regs) -> Line regs its ws ->
  (ig = true \/ Forall (fun it => forall w, it <> UUnknown w) its) -> dashes d -> Name n -> IsReg false regs n ->
  let p0 := register regs newParser in
  let p1 := if ig then p0 else UnrecognizedAreErrors p0 in
  exists p, ParseCommandLine (prog :: ws ++ [d ++ n]) p1 = Ok ((-1)%Z, p).
Proof. intros regs ig its ws prog n d ND HL HI Hd Hn Hr. exact (commandline_missing ND prog HL HI Hd Hn Hr). Qed.
Print Assumptions C04_missing_value.

Theorem C04_only_dashes : forall regs (ig : bool) its ws prog d more,
  NoDup (flat_map rg_names regs) -> Line regs its ws ->
  (ig = true \/ Forall (fun it => forall w, it <> UUnknown w) its) -> dashes d ->
  let p0 := register regs newParser in
  let p1 := if ig then p0 else UnrecognizedAreErrors p0 in
  exists p, ParseCommandLine (prog :: ws ++ d :: more) p1 = Ok ((-1)%Z, p).
Proof. intros regs ig its ws prog d more ND HL HI Hd. exact (commandline_dashes ND prog more HL HI Hd). Qed.
Print Assumptions C04_only_dashes.

Theorem C04_unknown_rejected : forall regs its ws prog n d more,
  NoDup (flat_map rg_names regs) -> Line regs its ws ->
  Forall (fun it => forall w, it <> UUnknown w) its ->
  dashes d -> Name n -> ~ IsReg true regs n -> ~ IsReg false regs n ->
  exists p, ParseCommandLine (prog :: ws ++ (d ++ n) :: more) (UnrecognizedAreErrors (register regs newParser)) = Ok ((-1)%Z, p).
Proof.
  intros regs its ws prog n d more ND HL HF Hd Hn H1 H2.
  exact (commandline_unknown ND prog more HL HF Hd Hn H1 H2).
Qed.
Print Assumptions C04_unknown_rejected.

(** "--out=" swallows the next word, "--out=a=b" stores "a" only, and an unknown
    name given to GetNTargets is undefined. *)
Definition demo : clp := register [mkReg false false [lit "o"; lit "out"]; mkReg true false [lit "v"]] newParser.
Definition run (ws : list string) : res (Z * clp) := ParseCommandLine (lit "imfit" :: map lit ws) demo.
Theorem C04_empty_value_refuted : exists p,
  run ["--out="; "-v"]%string = Ok (0%Z, p) /\
  GetTargetString p (lit "out") 0 = Ok (lit "-v") /\ FlagSet p (lit "v") = Ok false.
Proof.
  let v := eval vm_compute in (run ["--out="; "-v"]%string) in
  match v with Ok (_, ?p) => exists p end. vm_compute. auto.
Qed.
Print Assumptions C04_empty_value_refuted.
Theorem C04_equals_in_value_refuted : exists p,
  run ["--out=a=b"]%string = Ok (0%Z, p) /\ GetTargetString p (lit "out") 0 = Ok (lit "a").
Proof.
  let v := eval vm_compute in (run ["--out=a=b"]%string) in
  match v with Ok (_, ?p) => exists p end. vm_compute. auto.
Qed.
Print Assumptions C04_equals_in_value_refuted.
Theorem C04_unknown_target_undefined : GetNTargets demo (lit "nope") = Undef.
Proof. reflexivity. Qed.
Print Assumptions C04_unknown_target_undefined.

(** non-vacuity: "-v --out res.fits in.fits -o=b" *)
Lemma name_of s : lit s <> [] -> existsb (ch_eqb dash) (firstn 1 (lit s)) = false ->
  existsb (ch_eqb equals) (lit s) = false -> Name (lit s).
Proof.
  intros H1 H2 H3. split; auto. split.
  - intros c r E. rewrite E in H2. intros ->. cbn in H2. discriminate H2.
  - apply Forall_forall. intros c Hc ->. assert (existsb (ch_eqb equals) (lit s) = true); [|congruence].
    apply existsb_exists. exists equals. split; auto.
Qed.
Definition demo_regs := [mkReg false false [lit "o"; lit "out"]; mkReg true false [lit "v"]].
Example C04_hyp_example :
  NoDup (flat_map rg_names demo_regs) /\
  Line demo_regs [UFlag (lit "v"); UOpt (lit "out") (lit "-r"); UArg (lit "in.fits"); UOptEq (lit "o") (lit "b")]
    (map lit ["-v"; "--out"; "-r"; "in.fits"; "-o=b"]%string).
Proof.
  split.
  - simpl. repeat constructor; simpl; intros H; repeat destruct H as [H|H]; try discriminate; auto.
  - assert (D1 : dashes (lit "-")) by (split; [discriminate|repeat constructor]).
    assert (D2 : dashes (lit "--")) by (split; [discriminate|repeat constructor]).
    apply (L_cons demo_regs (UFlag (lit "v")) [lit "-" ++ lit "v"]).
    { constructor; auto. { apply name_of; [discriminate|reflexivity|reflexivity]. }
      eexists. split; [right; left; reflexivity|]. simpl. auto. }
    apply (L_cons demo_regs (UOpt (lit "out") (lit "-r")) [lit "--" ++ lit "out"; lit "-r"]).
    { constructor; auto. { apply name_of; [discriminate|reflexivity|reflexivity]. }
      eexists. split; [left; reflexivity|]. simpl. auto. }
    apply (L_cons demo_regs (UArg (lit "in.fits")) [lit "in.fits"]).
    { constructor. intros c r E. inversion E. discriminate. }
    apply (L_cons demo_regs (UOptEq (lit "o") (lit "b")) [lit "-" ++ lit "o" ++ ascii_of_nat 61 :: lit "b"]).
    { constructor; auto. { apply name_of; [discriminate|reflexivity|reflexivity]. } { discriminate. }
      { repeat constructor. discriminate. }
      eexists. split; [left; reflexivity|]. simpl. auto. }
    constructor.
Qed.
