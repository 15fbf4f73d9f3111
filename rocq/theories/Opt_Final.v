(** Proofs for the options area: the five programs. *)
From Coq Require Import Ascii String List ZArith Lia Bool.
From Verif Require Import Base CmdLine_Model StrUtil_Proof CmdLine_Spec CmdLine_Proof Opt_Model Opt_Spec Opt_Num Opt_Proof.
Local Open Scope list_scope.
Set Implicit Arguments.
Unset Strict Implicit.

Definition kind_eqb (a b : kind) : bool :=
  match a, b with
  | Stop, Stop | Flag, Flag | Text, Text | Solver, Solver | Count, Count | Seed, Seed | Int, Int
  | PosReal, PosReal | Real, Real | Texts, Texts | Counts, Counts => true
  | _, _ => false
  end.
Lemma kind_eqb_true a b : kind_eqb a b = true -> a = b.
Proof. destruct a, b; intros H; try reflexivity; discriminate H. Qed.
Fixpoint words_eqb (a b : list word) : bool :=
  match a, b with
  | [], [] => true
  | x :: a, y :: b => str_eqb x y && words_eqb a b
  | _, _ => false
  end.
Lemma words_eqb_true a : forall b, words_eqb a b = true -> a = b.
Proof.
  induction a as [|x a IH]; intros [|y b] H; try discriminate; auto. cbn in H. apply andb_true_iff in H.
  destruct H as [H1 H2]. apply str_eqb_true in H1. rewrite H1. f_equal. auto.
Qed.
Definition matches (e : kind * list word) (s : kind * list string) : bool :=
  kind_eqb (fst e) (fst s) && words_eqb (snd e) (map wd (snd s)).
Definition checked (k : kind) : bool := match k with Flag | Text | Texts => false | _ => true end.

Section Program.
  Variable T : Type.
  Variable strtod : str -> T.
  Variable regs : list reg.
  Variable sh : sheet.
  Notation step := (step T).

  Definition entries (sts : list step) : list (kind * list word) :=
    flat_map (fun st => match entry regs st with Some e => [e] | None => [] end) sts.
  Definition fit (sts : list step) : bool :=
    words_eqb (nodup word_eq_dec (flat_map rg_names regs)) (flat_map rg_names regs) &&
    same_names (sheet_regs sh) regs && forallb (wf regs) sts &&
    forallb (fun e => existsb (matches e) sh) (entries sts) &&
    forallb (fun s => negb (checked (fst s)) || existsb (fun e => matches e s) (entries sts)) sh &&
    existsb (fun st => or_empty st) sts.

  Lemma agree its ws prog : NoDup (flat_map rg_names regs) -> Line regs its ws ->
    Forall (fun it => forall w, it <> UUnknown w) its ->
    exists p, ParseCommandLine (prog :: ws) (UnrecognizedAreErrors (add_all regs newParser)) = Ok (0%Z, p) /\ Agree regs its p.
  Proof.
    intros ND HL HU. destruct (@commandline_ok regs ND false its ws prog HL (or_intror HU)) as (p & E & A1 & A2 & A3).
    exists p. split; [exact E|].
    assert (F : forall n, In n (flat_map rg_names regs) ->
      FlagSet p n = Ok (fl regs its n) /\ OptionSet p n = Ok (match vs regs its n with [] => false | _ => true end) /\
      GetNTargets p n = Ok (List.length (vs regs its n)) /\
      forall i v, nth_error (vs regs its n) i = Some v -> GetTargetString p n i = Ok v).
    { intros n Hn. destruct (group_reg Hn) as (r & Hr & Hnr & Eg).
      destruct (A3 r n Hr Hnr) as [(b & Eb & Hb) (l & HV & H1 & H2 & H3)].
      apply valuesW_spec in HV. unfold fl, vs. rewrite Eg. subst l.
      split; [|split; [|split]]; auto.
      rewrite Eb. f_equal. pose proof (givenW_spec r its) as G.
      destruct b, (givenW its (rg_names r)); auto.
      - exfalso. assert (false = true) by (apply G; now apply Hb). discriminate.
      - exfalso. assert (false = true) by (apply Hb; now apply G). discriminate. }
    constructor; auto.
    - intros n Hn. apply (F n Hn).
    - intros n Hn. apply (F n Hn).
    - intros n Hn. apply (F n Hn).
    - intros n i v Hn. apply (F n Hn).
  Qed.

  Lemma run_steps_app p (a b : list step) : forall o, run_steps strtod p (a ++ b) o =
    (do x <- run_steps strtod p a o; match x with Exit z => Ok (Exit z) | Run o => run_steps strtod p b o end).
  Proof.
    induction a as [|st a IH]; intros o; cbn [run_steps app bind]; auto.
    destruct (run_step strtod p st o) as [[z|o']| | |]; cbn [bind]; auto.
  Qed.

  (** [post] is what follows the checked statements: nothing, or the final test of the
      image dimensions *)
  Theorem program_ok (sts post : list step) (o0 : opts T) (its : list item) (ws : list word) (prog : str) :
    fit sts = true -> (post = [] \/ post = [SDims]) ->
    (post = [SDims] -> (exists a, den_all strtod regs its sts o0 K_nColumns = VZ a) /\
                       (exists b, den_all strtod regs its sts o0 K_nRows = VZ b)) ->
    Says sh its ws ->
    (Accepted sh its -> exists o, ProcessInput strtod regs (sts ++ post) o0 (prog :: ws) = Ok (Run o) /\
       forall k, o k = den_all strtod regs its (sts ++ post) o0 k) /\
    (Refused sh its -> ProcessInput strtod regs (sts ++ post) o0 (prog :: ws) = Ok (Exit 1)).
  Proof.
    intros F HP HD [HL HU]. unfold fit in F. rewrite !andb_true_iff in F. destruct F as [[[[[F1 F2] F3] F4] F5] F6].
    assert (ND : NoDup (flat_map rg_names regs)).
    { apply words_eqb_true in F1. rewrite <- F1. apply NoDup_nodup. }
    pose proof (Line_mono (same_names_ok F2) HL) as HL'.
    destruct (agree prog ND HL' HU) as (p & E & AG).
    unfold ProcessInput. rewrite E. cbn [bind fst snd]. rewrite Z.ltb_irrefl.
    rewrite run_steps_app.
    assert (ENT : forall st k ns, In st sts -> entry regs st = Some (k, ns) -> exists ns0, In (k, ns0) sh /\ ns = map wd ns0).
    { intros st k ns Hs He. rewrite forallb_forall in F4.
      assert (I : In (k, ns) (entries sts)).
      { unfold entries. apply in_flat_map. exists st. split; auto. rewrite He. now left. }
      specialize (F4 _ I). apply existsb_exists in F4. destruct F4 as ((k1, ns1) & I1 & M).
      unfold matches in M. cbn [fst snd] in M. apply andb_true_iff in M. destruct M as [M1 M2].
      apply kind_eqb_true in M1. apply words_eqb_true in M2. subst. eauto. }
    split.
    - intros (Hne & HS & HG).
      assert (G : Forall (good regs its) sts).
      { apply Forall_forall. intros st Hs. split.
        - destruct (entry regs st) as [[k ns]|] eqn:Ee; auto.
          destruct (ENT _ _ _ Hs Ee) as (ns0 & I0 & ->).
          destruct k; try (exact (HG _ _ I0)). exact (HS _ I0).
        - intros _. exact Hne. }
      destruct (run_steps_good strtod AG o0 F3 G) as (o' & E' & D). rewrite E'. cbn [bind].
      destruct HP as [-> | ->].
      + exists o'. split; [reflexivity|]. intros k. rewrite app_nil_r. apply D.
      + destruct (HD eq_refl) as [[a Ha] [b Hb]]. cbn [run_steps run_step].
        rewrite !D, Ha, Hb. cbn [as_int bind].
        assert (DD : forall k, den_all strtod regs its (sts ++ [SDims]) o0 k = den strtod regs its SDims (den_all strtod regs its sts o0) k).
        { intros k. unfold den_all. rewrite fold_left_app. reflexivity. }
        destruct (negb (a =? 0)%Z && negb (b =? 0)%Z) eqn:C; cbn [bind]; eexists; (split; [reflexivity|]); intros k;
          rewrite DD; cbn [den]; rewrite Ha, Hb; cbn [int_of]; rewrite C.
        * unfold put. destruct (key_beq k K_noImageDimensions); auto.
        * rewrite D. destruct (key_beq k K_noImageDimensions); auto.
    - intros (HR & HB).
      assert (R : Forall (readable regs its) sts).
      { apply Forall_forall. intros st Hs. unfold readable. destruct (entry regs st) as [[k ns]|] eqn:Ee; auto.
        destruct (ENT _ _ _ Hs Ee) as (ns0 & I0 & ->). destruct k; auto; exact (HR _ _ I0). }
      assert (COV : forall k ns0, In (k, ns0) sh -> checked k = true -> exists st, In st sts /\ entry regs st = Some (k, map wd ns0)).
      { intros k ns0 I0 C. rewrite forallb_forall in F5. specialize (F5 _ I0). cbn [fst] in F5. rewrite C in F5. cbn [negb orb] in F5.
        apply existsb_exists in F5. destruct F5 as ((k1, ns1) & I1 & M). unfold matches in M. cbn [fst snd] in M.
        apply andb_true_iff in M. destruct M as [M1 M2]. apply kind_eqb_true in M1. apply words_eqb_true in M2. subst.
        unfold entries in I1. apply in_flat_map in I1. destruct I1 as (st & Hs & I1).
        destruct (entry regs st) as [e|] eqn:Ee; [|destruct I1]. destruct I1 as [->|[]]. eauto. }
      assert (B : Exists (bad regs its) sts).
      { apply Exists_exists. destruct HB as [->|[(ns & I0 & G)|(k & ns & I0 & G)]].
        - apply existsb_exists in F6. destruct F6 as (st & Hs & O). exists st. split; auto. right. auto.
        - destruct (COV _ _ I0 eq_refl) as (st & Hs & Ee). exists st. split; auto. left. rewrite Ee. exact G.
        - destruct (checked k) eqn:C.
          + destruct (COV _ _ I0 C) as (st & Hs & Ee). exists st. split; auto. left. rewrite Ee.
            destruct k; try exact G. exfalso. clear -G. apply Exists_exists in G. destruct G as (v & _ & []).
          + exfalso. clear -G C. apply Exists_exists in G. destruct G as (v & _ & G). destruct k; try discriminate C; destruct G. }
      rewrite (run_steps_bad strtod AG o0 F3 R B). reflexivity.
  Qed.
End Program.

(** names outside the program's sheet *)
Lemma absent_given sh its ws ns : Says sh its ws -> existsb (fun n => existsb (str_eqb (wd n)) (reg_names true (sheet_regs sh))) ns = false ->
  given its ns = false.
Proof.
  intros [HL _] H. rewrite given_W. apply (absent_flag HL). intros n Hn I. apply IsReg_names in I.
  apply in_map_iff in Hn. destruct Hn as (s & <- & Hs).
  assert (X : existsb (fun n => existsb (str_eqb (wd n)) (reg_names true (sheet_regs sh))) ns = true); [|congruence].
  apply existsb_exists. exists s. split; auto. now apply existsb_str.
Qed.
Lemma absent_values sh its ws ns : Says sh its ws -> existsb (fun n => existsb (str_eqb (wd n)) (reg_names false (sheet_regs sh))) ns = false ->
  values its ns = [].
Proof.
  intros [HL _] H. rewrite values_W. apply (absent_opt HL). intros n Hn I. apply IsReg_names in I.
  apply in_map_iff in Hn. destruct Hn as (s & <- & Hs).
  assert (X : existsb (fun n => existsb (str_eqb (wd n)) (reg_names false (sheet_regs sh))) ns = true); [|congruence].
  apply existsb_exists. exists s. split; auto. now apply existsb_str.
Qed.

Ltac absent HS :=
  match type of HS with Says ?sh ?its ?ws =>
    repeat match goal with
    | |- context [given its ?ns] => rewrite (@absent_given sh its ws ns HS) by (vm_compute; reflexivity)
    | |- context [values its ?ns] => rewrite (@absent_values sh its ws ns HS) by (vm_compute; reflexivity)
    end
  end.
Ltac member HS :=
  cbn [first_of oversampling_member data_member fitting_member statistic_member solver_member making_member imageinfo_member common_member];
  unfold has, text, count, real, argument, no_argument;
  absent HS;
  rewrite ?given_W, ?values_W;
  cbv -[givenW valuesW integer positional Z.of_nat List.length];
  repeat match goal with
  | |- context [valuesW ?i ?n] => destruct (valuesW i n)
  | |- context [givenW ?i ?n] => destruct (givenW i n)
  | |- context [positional ?i] => destruct (positional i)
  end; try reflexivity.
Section Meanings.
  Variable T : Type.
  Variable strtod : word -> T.
  Variable dbl : string -> T.
  Variable cores : Z.

  Lemma imfit_den its ws k : Says imfit_sheet its ws ->
    den_all strtod imfit_regs its (imfit_steps T) (imfit_defaults T dbl cores) k = imfit_meaning T strtod dbl cores its k.
  Proof. intros HS. destruct k; unfold imfit_meaning; member HS. Qed.
  Lemma mcmc_den its ws k : Says mcmc_sheet its ws ->
    den_all strtod mcmc_regs its (mcmc_steps T) (mcmc_defaults T dbl cores) k = mcmc_meaning T strtod dbl cores its k.
  Proof. intros HS. destruct k; unfold mcmc_meaning; member HS. Qed.
  Lemma multimfit_den its ws k : Says multimfit_sheet its ws ->
    den_all strtod multimfit_regs its (multimfit_steps T) (multimfit_defaults T dbl cores) k = multimfit_meaning T strtod dbl cores its k.
  Proof. intros HS. destruct k; unfold multimfit_meaning; member HS. Qed.

  Lemma positive_nonzero v : Good Count v -> (integer v =? 0)%Z = false.
  Proof.
    intros (Hne & HD & H0 & _). destruct v as [|c v]; [congruence|]. apply Z.eqb_neq.
    assert (B : (0 < decimal (c :: v))%Z).
    { specialize (H0 c v eq_refl). apply Forall_cons_iff in HD. destruct HD as [Dc Dv]. unfold Dig in Dc.
      assert (G : forall w a, Forall Dig w -> (0 < a)%Z -> (0 < fold_left (fun a c => (10 * a + (Z.of_nat (code c) - 48))%Z) w a)%Z).
      { clear. induction w as [|c w IH]; intros a HD Ha; cbn [fold_left]; auto.
        apply Forall_cons_iff in HD. destruct HD as [Dc Dw]. apply IH; auto. unfold Dig in Dc. lia. }
      unfold decimal. cbn [fold_left]. apply G; auto. lia. }
    unfold integer. destruct (Ascii.eqb c (ascii_of_nat 45)) eqn:E; [|lia].
    apply Ascii.eqb_eq in E. subst c. apply Forall_cons_iff in HD. destruct HD as [Dc _]. unfold Dig in Dc.
    change (code (ascii_of_nat 45)) with 45%nat in Dc. lia.
  Qed.

  Lemma makeimage_den its ws k : Says makeimage_sheet its ws -> Accepted makeimage_sheet its ->
    den_all strtod makeimage_regs its (makeimage_steps T) (makeimage_defaults T dbl cores) k = makeimage_meaning T strtod dbl cores its k.
  Proof.
    intros HS (_ & _ & HA).
    assert (G1 : Forall (Good Count) (counted Count (values its ["ncols"%string]))) by (apply HA; cbn; tauto).
    assert (G2 : Forall (Good Count) (counted Count (values its ["nrows"%string]))) by (apply HA; cbn; tauto).
    clear HA. destruct k; unfold makeimage_meaning; try (now member HS).
    assert (X : forall n, Forall (Good Count) (counted Count (values its n)) ->
      (match values its n with v :: _ => integer v | [] => 0%Z end =? 0)%Z = match values its n with [] => true | _ => false end).
    { intros n H. unfold counted in H. cbn [is_queue] in H. destruct (values its n) as [|v l]; auto.
      apply positive_nonzero. cbn in H. apply Forall_cons_iff in H. tauto. }
    pose proof (X _ G1) as X1. pose proof (X _ G2) as X2. clear X G1 G2.
    transitivity (VB (T:=T) (negb (negb (match values its ["ncols"%string] with v :: _ => integer v | [] => 0%Z end =? 0)%Z &&
      negb (match values its ["nrows"%string] with v :: _ => integer v | [] => 0%Z end =? 0)%Z))).
    { clear X1 X2. rewrite !values_W. cbv -[givenW valuesW integer positional Z.of_nat List.length Z.eqb].
      repeat match goal with
      | |- context [valuesW ?i ?n] => destruct (valuesW i n)
      end; change (Z.eqb 0 0) with true; repeat match goal with |- context [Z.eqb ?a ?b] => destruct (Z.eqb a b) end; reflexivity. }
    rewrite X1, X2. clear.
    cbn [first_of oversampling_member making_member]. unfold has. rewrite !values_W.
    cbv -[givenW valuesW integer positional Z.of_nat List.length].
      repeat match goal with
      | |- context [valuesW ?i ?n] => destruct (valuesW i n)
      end; reflexivity.
  Qed.
  Lemma makemultimages_den its ws k : Says makemultimages_sheet its ws ->
    den_all strtod makemultimages_regs its (makemultimages_steps T) (makemultimages_defaults T dbl cores) k = makemultimages_meaning T strtod dbl cores its k.
  Proof. intros HS. destruct k; unfold makemultimages_meaning; member HS. Qed.

  Theorem imfit_line its ws prog : Says imfit_sheet its ws ->
    (Accepted imfit_sheet its -> exists o, imfit_options T strtod dbl cores (prog :: ws) = Ok (Run o) /\
       forall k, o k = imfit_meaning T strtod dbl cores its k) /\
    (Refused imfit_sheet its -> imfit_options T strtod dbl cores (prog :: ws) = Ok (Exit 1)).
  Proof.
    intros HS. assert (F : fit imfit_regs imfit_sheet (imfit_steps T) = true) by (vm_compute; reflexivity).
    destruct (@program_ok T strtod imfit_regs imfit_sheet (imfit_steps T) [] (imfit_defaults T dbl cores) its ws prog F
      (or_introl eq_refl)) as [A B]; auto; [discriminate|]. rewrite !app_nil_r in A, B. split; [|exact B].
    intros HA. destruct (A HA) as (o & E & D). exists o. split; [exact E|]. intros k. rewrite D. now apply (imfit_den _ HS).
  Qed.
  Theorem mcmc_line its ws prog : Says mcmc_sheet its ws ->
    (Accepted mcmc_sheet its -> exists o, mcmc_options T strtod dbl cores (prog :: ws) = Ok (Run o) /\
       forall k, o k = mcmc_meaning T strtod dbl cores its k) /\
    (Refused mcmc_sheet its -> mcmc_options T strtod dbl cores (prog :: ws) = Ok (Exit 1)).
  Proof.
    intros HS. assert (F : fit mcmc_regs mcmc_sheet (mcmc_steps T) = true) by (vm_compute; reflexivity).
    destruct (@program_ok T strtod mcmc_regs mcmc_sheet (mcmc_steps T) [] (mcmc_defaults T dbl cores) its ws prog F
      (or_introl eq_refl)) as [A B]; auto; [discriminate|]. rewrite !app_nil_r in A, B. split; [|exact B].
    intros HA. destruct (A HA) as (o & E & D). exists o. split; [exact E|]. intros k. rewrite D. now apply (mcmc_den _ HS).
  Qed.
  Theorem multimfit_line its ws prog : Says multimfit_sheet its ws ->
    (Accepted multimfit_sheet its -> exists o, multimfit_options T strtod dbl cores (prog :: ws) = Ok (Run o) /\
       forall k, o k = multimfit_meaning T strtod dbl cores its k) /\
    (Refused multimfit_sheet its -> multimfit_options T strtod dbl cores (prog :: ws) = Ok (Exit 1)).
  Proof.
    intros HS. assert (F : fit multimfit_regs multimfit_sheet (multimfit_steps T) = true) by (vm_compute; reflexivity).
    destruct (@program_ok T strtod multimfit_regs multimfit_sheet (multimfit_steps T) [] (multimfit_defaults T dbl cores) its ws prog F
      (or_introl eq_refl)) as [A B]; auto; [discriminate|]. rewrite !app_nil_r in A, B. split; [|exact B].
    intros HA. destruct (A HA) as (o & E & D). exists o. split; [exact E|]. intros k. rewrite D. now apply (multimfit_den _ HS).
  Qed.
  Theorem makeimage_line its ws prog : Says makeimage_sheet its ws ->
    (Accepted makeimage_sheet its -> exists o, makeimage_options T strtod dbl cores (prog :: ws) = Ok (Run o) /\
       forall k, o k = makeimage_meaning T strtod dbl cores its k) /\
    (Refused makeimage_sheet its -> makeimage_options T strtod dbl cores (prog :: ws) = Ok (Exit 1)).
  Proof.
    intros HS. assert (F : fit makeimage_regs makeimage_sheet (removelast (makeimage_steps T)) = true) by (vm_compute; reflexivity).
    destruct (@program_ok T strtod makeimage_regs makeimage_sheet (removelast (makeimage_steps T)) [SDims] (makeimage_defaults T dbl cores) its ws prog F
      (or_intror eq_refl)) as [A B]; auto.
    { intros _. split; cbv -[givenW valuesW integer positional Z.of_nat List.length];
        match goal with |- context [valuesW ?i ?n] => destruct (valuesW i n) end; eexists; reflexivity. }
    split; [|exact B].
    intros HA. destruct (A HA) as (o & E & D). exists o. split; [exact E|]. intros k. rewrite D. now apply (makeimage_den _ HS HA).
  Qed.
  Theorem makemultimages_line its ws prog : Says makemultimages_sheet its ws ->
    (Accepted makemultimages_sheet its -> exists o, makemultimages_options T strtod dbl cores (prog :: ws) = Ok (Run o) /\
       forall k, o k = makemultimages_meaning T strtod dbl cores its k) /\
    (Refused makemultimages_sheet its -> makemultimages_options T strtod dbl cores (prog :: ws) = Ok (Exit 1)).
  Proof.
    intros HS. assert (F : fit makemultimages_regs makemultimages_sheet (removelast (makemultimages_steps T)) = true) by (vm_compute; reflexivity).
    destruct (@program_ok T strtod makemultimages_regs makemultimages_sheet (removelast (makemultimages_steps T)) [SDims] (makemultimages_defaults T dbl cores) its ws prog F
      (or_intror eq_refl)) as [A B]; auto.
    { intros _. split; eexists; reflexivity. }
    split; [|exact B].
    intros HA. destruct (A HA) as (o & E & D). exists o. split; [exact E|]. intros k. rewrite D. now apply (makemultimages_den _ HS).
  Qed.
End Meanings.
