(** Proofs for the start area. *)
From Coq Require Import ZArith List Bool Ascii String Lia.
From Verif Require Import Base Num Conv_Model Fit_Model Fit_Spec Fit_Proof StrUtil_Model StrUtil_Spec StrUtil_Proof
  CmdLine_Spec Opt_Model Opt_Spec Opt_Config Start_Model Start_Spec Start_Text Start_Over.
Import ListNotations.
Local Open Scope list_scope.
Local Open Scope nat_scope.
Set Implicit Arguments.
Unset Strict Implicit.

Definition is_some {A} (x : option A) : bool := match x with Some _ => true | None => false end.

Section Setup.
  Variable T : Type.
  Variable N : Num T.
  Definition good_psf (norm : bool) (pix : list T) : bool :=
    forallb (nfin N) pix && (negb norm || negb (nleb N (fold_left (nadd N) pix (nofZ N 0)) (nofZ N 0))).

  Lemma SetupFit_walk (o : opts T) (s : setup T) psf mask errors infos norm fmt ty cash mlr merr solver only over calls obj :
    o K_psfImagePresent = VB (is_some psf) -> o K_normalizePSF = VB norm ->
    (forall c r pix, psf = Some (c, r, pix) -> 1 <= c /\ 1 <= r /\ List.length pix = c * r) ->
    s_psf s = option_map (fun q => (fst (fst q), snd (fst q))) psf ->
    o K_gain = VR (s_gain s) -> o K_readNoise = VR (s_readNoise s) -> o K_expTime = VR (s_expTime s) ->
    o K_nCombined = VZ (s_nCombined s) -> o K_originalSky = VR (s_sky s) ->
    o K_psfOversampling = VB over ->
    (if over then AddOversampledPsfs N (s_cols s) (s_rows s) infos [] else Ok (Some [])) = Ok calls ->
    o K_maskImagePresent = VB (is_some mask) -> o K_maskFormat = VZ fmt ->
    s_mask s = option_map (fun m => (m, fmt)) mask ->
    o K_useCashStatistic = VB cash -> o K_usePoissonMLR = VB mlr -> o K_solver = VZ solver ->
    o K_printFitStatisticOnly = VB only -> o K_noiseImagePresent = VB (is_some errors) -> o K_errorType = VZ ty ->
    o K_useModelForErrors = VB merr ->
    s_stat s = (if cash then Cash else if mlr then PMLR else
                match errors with Some e => ChiUserErrors e ty | None => if merr then ChiModelErrors else ChiDataErrors end) ->
    SetupModelObject N s = Ok obj ->
    SetupFit N o (s_cols s) (s_rows s) (s_data s) psf mask errors infos =
      Ok (if match psf with Some (_, _, pix) => good_psf norm pix | None => true end then
            match calls with
            | None => Ended (-1)
            | Some cl => if cash && (solver =? 1)%Z && negb only then Ended (-1)
                         else Started (mkJob obj (option_map (fun q => mkPSF (snd q) (fst (fst q)) (snd (fst q)) norm) psf) cl)
            end
          else Ended (-1)).
  Proof.
    intros E1 E2 HP E3 E4 E5 E6 E7 E8 E9 EC E10 E11 E12 E13 E14 E15 E16 E17 E18 E19 E20 ES.
    unfold SetupFit. rewrite E1, E2. cbn [as_bool bind].
    set (ps := option_map (fun q => mkPSF (snd q) (fst (fst q)) (snd (fst q)) norm) psf).
    assert (EP : (if is_some psf then
                    match psf with
                    | Some (c, r, pix) => do a <- AddPSFVector N (c * r) c r pix norm false; Ok (fst (fst a), snd a)
                    | None => Undef
                    end
                  else Ok (0%Z, None)) =
      Ok (if match psf with Some (_, _, pix) => good_psf norm pix | None => true end then (0%Z, ps) else ((-1)%Z, None))).
    { destruct psf as [[[c r] pix]|]; [|reflexivity]. cbn [is_some].
      destruct (HP _ _ _ eq_refl) as (A & B & C). destruct (@AddPSFVector_ok T N c r pix norm A B C) as (l & ->). cbn [bind].
      unfold good_psf, ps. cbn [option_map fst snd]. destruct (_ && _); reflexivity. }
    rewrite EP. clear EP. cbn [bind].
    destruct (match psf with Some (_, _, pix) => good_psf norm pix | None => true end); [|reflexivity].
    change ((0 <? 0)%Z) with false. cbn iota.
    unfold SetupModelObject in ES.
    assert (EO : match s_psf s with Some (c, r) => AddPSF_size (new_object N) c r | None => new_object N end =
                 match ps with Some p => AddPSF_size (new_object N) (ps_cols p) (ps_rows p) | None => new_object N end).
    { rewrite E3. unfold ps. destruct psf as [[[c r] pix]|]; reflexivity. }
    rewrite EO in ES. clear EO. cbv zeta in ES |- *.
    rewrite E4, E5, E6, E7, E8. cbn [as_real as_int bind].
    match type of ES with (do _ <- ?a; _) = _ => destruct a as [m| | |] eqn:EI end; try discriminate. cbn [bind] in ES |- *.
    rewrite E9. cbn [as_bool bind]. rewrite EC. cbn [bind].
    destruct calls as [cl|]; [|reflexivity].
    rewrite E10, E11. cbn [as_bool as_int bind].
    match type of ES with (do _ <- ?a; _) = _ => destruct a as [m2| | |] eqn:EM end; try discriminate. cbn [bind] in ES.
    assert (EM' : exists st, (if is_some mask then
               AddMaskVector N m (s_cols s) (s_rows s) (match mask with Some p => p | None => [] end) fmt
               else Ok (0%Z, m)) = Ok (st, m2) /\ (st <? 0)%Z = false).
    { rewrite E12 in EM. destruct mask as [p|]; cbn [option_map is_some] in *.
      - destruct (AddMaskVector N m (s_cols s) (s_rows s) p fmt) as [[st m']| | |]; try discriminate. cbn [bind fst snd] in EM.
        destruct (st <? 0)%Z eqn:Es; [discriminate|]. injection EM as ->. eauto.
      - injection EM as ->. eauto. }
    destruct EM' as (st & -> & Hst). cbn [bind]. rewrite Hst.
    rewrite E13, E14, E15, E16, E17, E18, E19. cbn [as_bool as_int bind].
    rewrite E20 in ES. change MPFIT_SOLVER with 1%Z.
    destruct cash; cbn [andb].
    { destruct ((solver =? 1)%Z && negb only); [reflexivity|]. injection ES as ->. reflexivity. }
    destruct mlr; [injection ES as ->; reflexivity|].
    destruct errors as [e|]; cbn [is_some].
    - rewrite ES. reflexivity.
    - destruct merr; injection ES as ->; reflexivity.
  Qed.
End Setup.

Section Run.
  Variable T : Type.
  Variable N : Num T.
  Variable strtod : word -> T.
  Variable dbl : string -> T.
  Variable cores : Z.
  Variable FileExists : word -> bool.
  Variable ReadImage : word -> option (nat * nat * list T).
  Variable ReadConfig : word -> option (list (word * word)).
  Variable its : list item.
  Variable p : program.
  Hypothesis HP : fit_program p.
  Hypothesis CL : clean its.
  Hypothesis RD : reader FileExists ReadImage.

  Notation first := (first its).
  Notation columns := (Start_Spec.columns ReadImage). Notation rows := (Start_Spec.rows ReadImage).
  Notation pixels := (Start_Spec.pixels ReadImage).
  Notation meaning := (meaning_of T strtod dbl cores its p).
  Notation image := (image_name its).
  Definition nm (x : option word) : word := match x with Some w => w | None => [] end.

  Lemma text_first n : text T its [n] "" = VS (nm (first n)).
  Proof. unfold text, Start_Spec.first, nm. destruct (values its [n]); reflexivity. Qed.
  Lemma has_first n : has its n = is_some (first n).
  Proof. unfold has, Start_Spec.first. destruct (values its [n]); reflexivity. Qed.
  Lemma first_clean n w : first n = Some w -> no_nul w.
  Proof.
    unfold Start_Spec.first. intros H. destruct CL as [_ C]. specialize (C [n]). destruct (values its [n]); [discriminate|].
    injection H as <-. apply Forall_cons_iff in C. apply C.
  Qed.
  Lemma argument_image : argument T its "" = VS image.
  Proof. unfold argument, image_name. destruct (positional its); reflexivity. Qed.
  Lemma image_clean : no_nul image.
  Proof.
    unfold image_name. destruct CL as [C _]. destruct (positional its) as [|w l]; [intros []|].
    apply Forall_cons_iff in C. apply C.
  Qed.
  Lemma config_clean : no_nul (config_name its).
  Proof.
    unfold config_name. destruct CL as [_ C]. specialize (C ["config"; "c"]%string).
    destruct (values its ["config"; "c"]%string) as [|w l].
    - intros H. apply In_nth with (d := zero) in H. destruct H as (i & Hi & E).
      assert (F : forallb (fun c => negb (Ascii.eqb c zero)) (wd "imfit_config.dat") = true) by reflexivity.
      rewrite forallb_forall in F. specialize (F (nth i (wd "imfit_config.dat") zero) (nth_In _ _ Hi)).
      rewrite E in F. discriminate.
    - apply Forall_cons_iff in C. apply C.
  Qed.

  Lemma files_ok (o : opts T) : (forall k, o k = meaning k) ->
    exists b, RequestedFilesPresent FileExists o = Ok b /\ (b = true <-> AllPresent FileExists its).
  Proof.
    intros D. unfold RequestedFilesPresent.
    assert (K1 : o K_configFileName = VS (config_name its)).
    { rewrite D. unfold config_name. destruct HP as [-> | ->]; cbn [meaning_of]; cbn; unfold text;
        destruct (values its ["config"; "c"]%string); reflexivity. }
    assert (K2 : o K_imageFileName = VS image) by (rewrite D, <- argument_image; destruct HP as [-> | ->]; reflexivity).
    assert (K3 : o K_maskFileName = VS (nm (first "mask"))) by (rewrite D, <- text_first; destruct HP as [-> | ->]; reflexivity).
    assert (K4 : o K_noiseFileName = VS (nm (first "noise"))) by (rewrite D, <- text_first; destruct HP as [-> | ->]; reflexivity).
    assert (K5 : o K_psfFileName = VS (nm (first "psf"))) by (rewrite D, <- text_first; destruct HP as [-> | ->]; reflexivity).
    assert (K6 : o K_maskImagePresent = VB (is_some (first "mask"))) by (rewrite D, <- has_first; destruct HP as [-> | ->]; reflexivity).
    assert (K7 : o K_noiseImagePresent = VB (is_some (first "noise"))) by (rewrite D, <- has_first; destruct HP as [-> | ->]; reflexivity).
    assert (K8 : o K_psfImagePresent = VB (is_some (first "psf"))) by (rewrite D, <- has_first; destruct HP as [-> | ->]; reflexivity).
    rewrite K1, K2, K3, K4, K5, K6, K7, K8. cbn [as_str as_bool bind].
    rewrite (c_str_id config_clean).
    destruct (@present_ok FileExists _ image_clean) as (b1 & E1 & H1). rewrite E1. cbn [bind].
    assert (G : forall n, exists b, (if is_some (first n) then ImageFileExists FileExists (nm (first n)) else Ok true) = Ok b /\
      (b = true <-> forall w, first n = Some w -> Present FileExists w)).
    { intros n. destruct (first n) as [w|] eqn:E; cbn [is_some nm].
      - destruct (@present_ok FileExists _ (first_clean E)) as (b & Eb & Hb). exists b. split; [exact Eb|]. rewrite Hb.
        split; [intros H w' [= <-]; exact H|auto].
      - exists true. split; [reflexivity|]. split; [discriminate|reflexivity]. }
    destruct (G "mask"%string) as (b2 & E2 & H2). destruct (G "noise"%string) as (b3 & E3 & H3). destruct (G "psf"%string) as (b4 & E4 & H4).
    rewrite E2. cbn [bind]. rewrite E3. cbn [bind]. rewrite E4. cbn [bind]. eexists. split; [reflexivity|].
    rewrite !andb_true_iff, H1, H2, H3, H4. unfold AllPresent. split.
    - intros ((((A & B) & C) & D') & E). repeat split; auto. intros q w [<-|[<-|[<-|[]]]] Hw; auto.
    - intros (A & B & C). repeat split; auto; intros w Hw; (eapply C; [|exact Hw]); cbn; auto.
  Qed.

  Definition same (n : word) : bool :=
    match ReadImage n with Some (c, r, _) => (c =? columns image) && (r =? rows image) | None => false end.
  Lemma same_iff n : same n = true <-> SameSize ReadImage its n.
  Proof.
    unfold same, SameSize, Start_Spec.columns at 2, Start_Spec.rows at 2.
    destruct (ReadImage n) as [[[c r] q]|].
    - rewrite andb_true_iff, !Nat.eqb_eq. split; [intros [A B]; repeat split; auto; discriminate|tauto].
    - split; [discriminate|intros [H _]; congruence].
  Qed.
  Lemma present_nonempty w : Present FileExists w -> w <> [].
  Proof.
    intros [(a & b & [E|E])|H] ->.
    - symmetry in E. apply app_eq_nil in E. destruct E as [_ E]. discriminate.
    - symmetry in E. apply app_eq_nil in E. destruct E as [_ E]. discriminate.
    - cbn in H. destruct RD as [F _]. congruence.
  Qed.
  Lemma image_size : ReadImage image <> None -> 1 <= columns image /\ 1 <= rows image.
  Proof.
    intros HI. unfold Start_Spec.columns, Start_Spec.rows. destruct (ReadImage image) as [[[c r] q]|] eqn:E; [|congruence].
    destruct RD as [_ R]. destruct (R _ _ _ _ E) as (A & B & _). auto.
  Qed.
  Lemma check_ok n : ReadImage image <> None ->
    GetAndCheckImage ReadImage n (columns image) (rows image) =
      if same n then (Some (pixels n), 0%Z) else match ReadImage n with Some _ => (None, (-2)%Z) | None => (None, (-1)%Z) end.
  Proof.
    intros HI. unfold GetAndCheckImage, same, Start_Spec.pixels.
    pose proof (image_size HI) as H.
    destruct (ReadImage n) as [[[c r] q]|]; [|reflexivity].
    replace (0 <? columns image) with true by (symmetry; apply Nat.ltb_lt; lia).
    replace (0 <? rows image) with true by (symmetry; apply Nat.ltb_lt; lia). cbn [andb].
    rewrite <- negb_andb. destruct ((c =? columns image) && (r =? rows image)); reflexivity.
  Qed.

  Lemma mask_errors_ok : ReadImage image <> None -> AllPresent FileExists its ->
    exists m e st, GetMaskAndErrorImages ReadImage (columns image) (rows image) (nm (first "mask")) (nm (first "noise")) = (m, e, st) /\
      (((st <? 0)%Z = false /\ m = option_map pixels (first "mask") /\ e = option_map pixels (first "noise") /\
        forall q w, In q ["mask"; "noise"]%string -> first q = Some w -> SameSize ReadImage its w) \/
       ((st <? 0)%Z = true /\ ~ forall q w, In q ["mask"; "noise"]%string -> first q = Some w -> SameSize ReadImage its w)).
  Proof.
    intros HI (_ & _ & AP). unfold GetMaskAndErrorImages.
    assert (NE : forall q w, In q ["mask"; "noise"]%string -> first q = Some w -> w <> []).
    { intros q w Hq Hw. apply present_nonempty. apply (AP q w); auto. cbn in *. tauto. }
    assert (NEm : forall w, first "mask" = Some w -> w <> []) by (intros w; apply NE; cbn; auto).
    assert (NEe : forall w, first "noise" = Some w -> w <> []) by (intros w; apply NE; cbn; auto).
    assert (SPLIT : (forall q w, In q ["mask"; "noise"]%string -> first q = Some w -> SameSize ReadImage its w) <->
      (forall w, first "mask" = Some w -> SameSize ReadImage its w) /\ (forall w, first "noise" = Some w -> SameSize ReadImage its w)).
    { split.
      - intros H. split; intros w Hw; (eapply H; [|exact Hw]); cbn; auto.
      - intros [A B] q w [<-|[<-|[]]] Hw; auto. }
    setoid_rewrite SPLIT. clear SPLIT NE.
    assert (ERR : forall (mk : option (list T)) st, (st = 0 \/ st = 1)%Z ->
      exists e st', match nm (first "noise") with
         | [] => (mk, None, st)
         | _ => let (e, st') := GetAndCheckImage ReadImage (nm (first "noise")) (columns image) (rows image) in
                if (st' <? 0)%Z then (mk, e, (-1)%Z) else (mk, e, (st + 2)%Z)
         end = (mk, e, st') /\
        (((st' <? 0)%Z = false /\ e = option_map pixels (first "noise") /\ forall w, first "noise" = Some w -> SameSize ReadImage its w) \/
         ((st' <? 0)%Z = true /\ ~ forall w, first "noise" = Some w -> SameSize ReadImage its w))).
    { intros mk st Hst. destruct (first "noise") as [e|] eqn:Ee; cbn [nm].
      - specialize (NEe e eq_refl). rewrite (check_ok _ HI).
        destruct e as [|c e']; [congruence|]. set (e := c :: e') in *. pose proof (same_iff e) as SI.
        destruct (same e).
        + eexists _, _. split; [reflexivity|]. left. split; [destruct Hst; subst st; reflexivity|]. split; [reflexivity|].
          intros w [= <-]. now apply SI.
        + destruct (ReadImage e); (eexists _, _; split; [reflexivity|right; split; [reflexivity|]]);
            intros H; specialize (H e eq_refl); apply SI in H; discriminate.
      - eexists _, _. split; [reflexivity|]. left. split; [destruct Hst; subst st; reflexivity|]. split; [reflexivity|discriminate]. }
    destruct (first "mask") as [m|] eqn:Em; cbn [nm].
    - specialize (NEm m eq_refl). rewrite (check_ok _ HI).
      destruct m as [|c m']; [congruence|]. set (m := c :: m') in *. pose proof (same_iff m) as SI.
      destruct (same m).
      + change (0 <? 0)%Z with false. cbn iota. change (1 <? 0)%Z with false. cbn iota.
        destruct (ERR (Some (pixels m)) 1%Z (or_intror eq_refl)) as (e & st & E & H). rewrite E.
        exists (Some (pixels m)), e, st. split; [reflexivity|]. destruct H as [(A & B & C)|(A & B)].
        * left. split; [exact A|]. split; [reflexivity|]. split; [exact B|]. split; [|exact C]. intros w [= <-]. now apply SI.
        * right. split; [exact A|]. intros [_ H]. auto.
      + assert (SW : ~ forall w, Some m = Some w -> SameSize ReadImage its w).
        { intros H. specialize (H m eq_refl). apply SI in H. discriminate. }
        destruct (ReadImage m); (eexists _, _, _; split; [reflexivity|right; split; [reflexivity|]]); intros [H _]; auto.
    - change (0 <? 0)%Z with false. cbn iota.
      destruct (ERR None 0%Z (or_introl eq_refl)) as (e & st & E & H). rewrite E.
      exists None, e, st. split; [reflexivity|]. destruct H as [(A & B & C)|(A & B)].
      + left. split; [exact A|]. split; [reflexivity|]. split; [exact B|]. split; [discriminate|exact C].
      + right. split; [exact A|]. intros [_ H]. auto.
  Qed.

  (** ---- the whole ---- *)
  Lemma integer_pos v m : Positive v m -> (1 <= integer v)%Z.
  Proof.
    intros (NE & HD & NZ & _). destruct v as [|c d]; [congruence|]. specialize (NZ c d eq_refl).
    apply Forall_cons_iff in HD. destruct HD as [Hc HD]. unfold Dig in Hc.
    unfold integer. destruct (Ascii.eqb_spec c (ascii_of_nat 45)) as [->|_].
    { vm_compute in Hc. lia. }
    unfold decimal. cbn [fold_left].
    assert (G : forall l a, (1 <= a)%Z -> Forall Dig l -> (1 <= fold_left (fun a c => (10 * a + (Z.of_nat (code c) - 48))%Z) l a)%Z).
    { induction l as [|x l IH]; intros a Ha Hl; [exact Ha|]. cbn [fold_left]. apply Forall_cons_iff in Hl. destruct Hl as [Hx Hl].
      apply IH; [|exact Hl]. unfold Dig in Hx. lia. }
    apply G; [lia|exact HD].
  Qed.

  Hypothesis AC : Accepted (sheet_of p) its.
  Hypothesis NOK : numbers_ok N strtod dbl ReadImage ReadConfig its.
  Lemma ncombined_pos : (1 <= combined_images ReadConfig its)%Z.
  Proof.
    destruct NOK as (_ & HU & _). unfold combined_images.
    destruct AC as (_ & _ & G).
    assert (I : In (Count, ["ncombined"%string]) (sheet_of p)).
    { destruct HP as [-> | ->]; cbn; tauto. }
    specialize (G _ _ I). unfold counted in G. cbn [is_queue] in G.
    destruct (values its ["ncombined"%string]) as [|v l] eqn:Ev.
    - destruct (last_value (cfg ReadConfig its) ["NCOMBINED"%string]) as [v|] eqn:El; [|lia].
      apply last_in in El. destruct El as (n & In_ & Nm).
      eapply integer_pos. apply (HU v). split; [exact Ev|]. eauto.
    - cbn [firstn] in G. apply Forall_cons_iff in G. destruct G as [G _]. eapply integer_pos. exact G.
  Qed.
  Lemma scales_pos k : k < List.length (scales its) -> (1 <= nth k (scales its) 0)%Z.
  Proof.
    intros Hk. destruct AC as (_ & _ & G).
    assert (I : In (Counts, ["overpsf_scale"%string]) (sheet_of p)).
    { destruct HP as [-> | ->]; cbn; tauto. }
    specialize (G _ _ I). unfold counted in G. cbn [is_queue] in G. unfold scales in *. rewrite map_length in Hk.
    rewrite (nth_indep _ 0%Z (integer []) ltac:(rewrite map_length; exact Hk)), map_nth.
    eapply integer_pos. apply (proj1 (Forall_forall _ _) G). apply nth_In. exact Hk.
  Qed.

  Lemma psf_image n : GetPsfImage ReadImage n = ReadImage n.
  Proof. unfold GetPsfImage, GetAndCheckImage. destruct (ReadImage n) as [[[c r] q]|]; reflexivity. Qed.

  Variable x y : Z.
  Hypothesis SS : SectionStart image x y.
  Hypothesis RO : psf_names its <> [] -> Forall (RegionOk ReadImage its x y) (region_texts its).

  Lemma iter_step (A : Type) (f : A -> A) k a : Nat.iter (S k) f a = f (Nat.iter k f a).
  Proof. reflexivity. Qed.
  Lemma iter_norm n k : ReadImage n <> None ->
    normalised_times N ReadImage k n = Ok (Nat.iter k (norm N) (pixels n)) /\
    List.length (Nat.iter k (norm N) (pixels n)) = columns n * rows n.
  Proof.
    intros HR. unfold normalised_times. induction k as [|k [IH1 IH2]].
    - split; [reflexivity|]. cbn. unfold Start_Spec.pixels, Start_Spec.columns, Start_Spec.rows.
      destruct (ReadImage n) as [[[c r] q]|] eqn:E; [|congruence]. destruct RD as [_ R]. apply (R _ _ _ _ E).
    - rewrite !iter_step, IH1. cbn [bind]. destruct (norm_eq N (Nat.iter k (norm N) (pixels n))) as [A B].
      rewrite <- IH2 at 1. rewrite A. split; [reflexivity|]. congruence.
  Qed.

  (** the oversampling part: [calls] is what AddOversampledPsfs returns *)
  Lemma over_ok (o : opts T) :
    ReadImage image <> None ->
    o K_nOversampleRegions = VZ (Z.of_nat (List.length (region_texts its))) ->
    o K_psfOversampledFileNames = VSs (psf_names its) -> o K_psfOversamplingScales = VZs (scales its) ->
    o K_psfOversampleRegions = VSs (region_texts its) ->
    psf_names its <> [] ->
    (GetOversampledPsfInfo ReadImage o (x - 1, y - 1)%Z = Ok None /\ ~ OverUsable N ReadImage its) \/
    exists infos calls, GetOversampledPsfInfo ReadImage o (x - 1, y - 1)%Z = Ok (Some infos) /\
      AddOversampledPsfs N (columns image) (rows image) infos [] = Ok calls /\
      match calls with
      | None => OverUsable N ReadImage its -> ~ stays_finite N ReadImage its
      | Some cs => OverUsable N ReadImage its /\ AllWanted N ReadImage its x y cs
      end.
  Proof.
    intros HI K1 K2 K3 K4 NE. specialize (RO NE).
    unfold GetOversampledPsfInfo. rewrite K1, K2, K3, K4. cbn [as_int strs ints bind]. rewrite Nat2Z.id.
    set (names := psf_names its) in *. set (regions := region_texts its) in *. set (scs := scales its) in *.
    assert (LN : 1 <= List.length names) by (destruct names; [congruence|cbn; lia]).
    assert (REJ : forall P : Prop, (OverUsable N ReadImage its -> ~ P) -> P -> ~ OverUsable N ReadImage its) by tauto.
    destruct (Z.ltb_spec (Z.of_nat (List.length regions)) 1) as [L1|L1].
    { left. split; [reflexivity|]. intros (A & _). fold regions in A. destruct regions; [congruence|cbn in L1; lia]. }
    destruct (Nat.eqb_spec (List.length names) (List.length scs)) as [L2|L2]; cbn [negb].
    2:{ left. split; [reflexivity|]. intros (_ & A & _). fold scs names in A. congruence. }
    destruct ((1 <? List.length names) && negb (Z.of_nat (List.length names) =? Z.of_nat (List.length regions))%Z) eqn:L3.
    { left. split; [reflexivity|]. intros (_ & _ & A & _). fold names regions in A. apply andb_true_iff in L3. destruct L3 as [B C].
      apply Nat.ltb_lt in B. apply negb_true_iff, Z.eqb_neq in C. lia. }
    assert (HN : List.length names = 1 \/ List.length names = List.length regions).
    { apply andb_false_iff in L3. destruct L3 as [B|B]; [apply Nat.ltb_ge in B; lia|].
      apply negb_false_iff, Z.eqb_eq in B. lia. }
    clear L3.
    rewrite (@collect_ok T ReadImage names regions scs (x - 1, y - 1)%Z (eq_sym L2) HN).
    assert (NM : forall k, k < List.length regions -> In (name names k) names).
    { intros k Hk. unfold name. destruct HN as [E|E].
      - rewrite (own_single [] k E). apply nth_In. lia.
      - destruct (Nat.eq_dec (List.length names) 1) as [E1|E1]; [rewrite (own_single [] k E1); apply nth_In; lia|].
        rewrite (own_many [] k E1). apply nth_In. lia. }
    assert (MN : forall n, In n names -> exists k, k < List.length regions /\ name names k = n).
    { intros n Hn. apply In_nth with (d := []) in Hn. destruct Hn as (i & Hi & E). unfold name. destruct HN as [E1|E1].
      - exists 0. split; [lia|]. rewrite (own_single [] 0 E1). rewrite <- E. f_equal. lia.
      - exists i. split; [lia|]. rewrite own_at; [exact E|lia]. }
    assert (RDa : forall n, readable ReadImage n = true <-> ReadImage n <> None).
    { intros n. unfold readable. destruct (ReadImage n); split; congruence. }
    destruct (forallb (readable ReadImage) (map (name names) (seq 0 (List.length regions)))) eqn:FR.
    2:{ left. split; [reflexivity|]. intros (_ & _ & _ & A). fold names in A.
        enough (X : forallb (readable ReadImage) (map (name names) (seq 0 (List.length regions))) = true) by congruence.
        apply forallb_forall. intros n Hn. apply in_map_iff in Hn. destruct Hn as (k & <- & Hk). apply in_seq in Hk.
        apply RDa. apply A. apply NM. lia. }
    right. eexists _, _. split; [reflexivity|].
    assert (RA : forall k, k < List.length regions -> readable ReadImage (name names k) = true).
    { intros k Hk. rewrite forallb_forall in FR. apply FR. apply in_map, in_seq. lia. }
    split.
    { apply (@add_ok T N ReadImage (proj2 RD) names regions scs (x - 1, y - 1)%Z (eq_sym L2) HN (columns image) (rows image) (image_size HI)); [|discriminate|exact LN].
      intros k Hk. split; [|split].
      - assert (Hk' : k < List.length regions) by lia.
        destruct (proj1 (Forall_forall _ _) RO (nth k regions []) (nth_In _ _ Hk')) as (x1 & x2 & y1 & y2 & RT & A & B & C & D & E & F).
        exists x1, x2, y1, y2. split; [exact (region_coords RT)|]. cbn [fst snd]. lia.
      - apply RA. lia.
      - destruct (Nat.eq_dec (List.length names) 1) as [E1|E1].
        + rewrite own_single by lia. apply scales_pos. fold scs. lia.
        + rewrite own_many by lia. apply scales_pos. fold scs. lia. }
    assert (FIN0 : forall n, In n names -> exists k, k < List.length regions /\ name names k = n /\ arr N ReadImage names k = pixels n).
    { intros n Hn. destruct (Nat.eq_dec (List.length names) 1) as [E1|E1].
      - exists 0. split; [lia|]. assert (E : name names 0 = n).
        { unfold name. rewrite (own_single [] 0 E1). destruct names as [|a [|]]; try discriminate. destruct Hn as [->|[]]. reflexivity. }
        split; [exact E|]. cbn [arr]. now rewrite E.
      - destruct (MN n Hn) as (k & Hk & E). exists k. split; [exact Hk|]. split; [exact E|]. rewrite (arr_own N ReadImage (eq_sym L2) HN); [now rewrite E|lia]. }
    destruct (forallb (fun k => forallb (nfin N) (arr N ReadImage names k)) (seq 0 (List.length regions))) eqn:FF.
    - rewrite forallb_forall in FF. split.
      + split; [fold regions; intros E; rewrite E in L1; cbn in L1; lia|]. split; [fold scs names; congruence|].
        split; [exact HN|]. fold names. intros n Hn. destruct (FIN0 n Hn) as (k & Hk & E1 & E2). split.
        * apply RDa. rewrite <- E1. apply RA. exact Hk.
        * rewrite <- E2. apply FF. apply in_seq. lia.
      + unfold AllWanted. fold names. destruct names as [|n0 names'] eqn:En; [congruence|]. rewrite <- En in *. clear NE.
        fold regions. split; [rewrite map_length, seq_length; reflexivity|].
        intros k w c Hw Hc.
        assert (Hk : k < List.length regions) by (apply nth_error_Some; congruence).
        rewrite nth_error_map in Hc. rewrite (nth_error_nth' (seq 0 (List.length regions)) 0) in Hc by (rewrite seq_length; exact Hk).
        rewrite seq_nth in Hc by exact Hk. cbn [option_map Nat.add] in Hc. injection Hc as <-.
        assert (Ew : nth k regions [] = w) by (apply nth_error_nth; exact Hw).
        destruct (proj1 (Forall_forall _ _) RO w (nth_error_In _ _ Hw)) as (x1 & x2 & y1 & y2 & RT & _).
        assert (ES : psf_names its = names) by (rewrite En; assumption || reflexivity).
        unfold OverWanted. rewrite ES.
        exists x1, x2, y1, y2, (arr N ReadImage names k). split; [exact RT|].
        pose proof (proj1 (RDa _) (RA k Hk)) as HR. unfold name in HR.
        split.
        * destruct (Nat.eqb_spec (List.length names) 1) as [E1|E1].
          -- rewrite (proj1 (iter_norm k HR)), (arr_shared N ReadImage k E1). unfold name.
             rewrite (own_single [] 0 E1), (own_single [] k E1). reflexivity.
          -- rewrite (proj1 (iter_norm 0 HR)). cbn. rewrite (arr_own N ReadImage (eq_sym L2) HN) by lia. reflexivity.
        * unfold call, coords. rewrite Ew, (region_coords RT). cbn [fst snd]. unfold name. reflexivity.
    - intros OU ST. enough (X : forallb (fun k => forallb (nfin N) (arr N ReadImage names k)) (seq 0 (List.length regions)) = true) by congruence.
      apply forallb_forall. intros k Hk. apply in_seq in Hk. destruct OU as (_ & _ & _ & A). fold names in A.
      destruct (Nat.eq_dec (List.length names) 1) as [E1|E1].
      + rewrite (arr_shared N ReadImage k E1). assert (H0 : In (name names 0) names) by (apply NM; lia).
        apply (ST (name names 0) k _); [|fold regions; lia|exact (proj1 (iter_norm k (proj1 (A _ H0))))].
        fold names. unfold name. rewrite (own_single [] 0 E1). clear - E1. destruct names as [|a [|]]; try discriminate. reflexivity.
      + rewrite (arr_own N ReadImage (eq_sym L2) HN) by lia. apply A. apply NM. lia.
  Qed.

  Notation "'?' n" := (given its [n%string]) (at level 9).
  Notation Wanted := (wanted strtod dbl ReadImage ReadConfig its).
  Notation OK := (Acceptable N FileExists ReadImage ReadConfig its).

  Lemma wanted_formed : ReadImage image <> None ->
    (forall q w, In q ["mask"; "noise"]%string -> first q = Some w -> SameSize ReadImage its w) -> well_formed N Wanted.
  Proof.
    intros HI HM. destruct NOK as (_ & _ & A & B & C & D).
    assert (LP : forall n, ReadImage n <> None -> List.length (pixels n) = columns n * rows n).
    { intros n H. unfold Start_Spec.pixels, Start_Spec.columns, Start_Spec.rows. destruct (ReadImage n) as [[[c r] q]|] eqn:E; [|congruence].
      destruct RD as [_ R]. apply (R _ _ _ _ E). }
    assert (LS : forall q w, In q ["mask"; "noise"]%string -> first q = Some w -> List.length (pixels w) = columns image * rows image).
    { intros q w Hq Hw. destruct (HM q w Hq Hw) as (S1 & S2 & S3). rewrite (LP w S1), S2, S3. reflexivity. }
    unfold well_formed, npix. cbn [s_cols s_rows s_data s_mask s_stat Start_Spec.wanted].
    split; [exact (LP _ HI)|]. split; [|split].
    - destruct (first "mask") as [m|] eqn:E; cbn [option_map]; [|exact I].
      split; [apply (LS "mask"%string); cbn; auto|]. destruct (?"mask-zero-is-bad"); auto.
    - unfold statistic_wanted. destruct (?"cashstat"); [exact I|]. destruct (?"poisson-mlr" || ?"mlr"); [exact I|].
      destruct (first "noise") as [e|] eqn:E; [|destruct (?"model-errors"); exact I].
      split; [apply (LS "noise"%string); cbn; auto|]. destruct (?"errors-are-weights"), (?"errors-are-variances"); auto.
    - split; [exact A|]. split; [exact B|]. split; [exact C|]. split; [exact ncombined_pos|exact D].
  Qed.

  Variable ws : list word.
  Variable prog : word.
  Hypothesis SY : Says (sheet_of p) its ws.

  Theorem start_ok : exists r,
    start_fit N strtod dbl cores FileExists ReadImage ReadConfig p (prog :: ws) = Ok r /\
    (~ OK -> r = Ended (-1)) /\
    (cash_refused its p = true -> r = Ended (-1)) /\
    (OK -> cash_refused its p = false -> stays_finite N ReadImage its ->
                exists obj cs, SetupModelObject N Wanted = Ok obj /\ AllWanted N ReadImage its x y cs /\
                  r = Started (mkJob obj (psf_wanted ReadImage its) cs)).
  Proof.
    destruct (proj1 (all_lines strtod dbl cores prog SY) AC) as (o & EO & DO).
    unfold start_fit. rewrite EO. cbn [bind]. clear EO.
    assert (END : forall P : Prop, (OK -> False) -> exists r, Ok (Ended (-1)) = Ok r /\ (~ OK -> r = Ended (-1)) /\
      (cash_refused its p = true -> r = Ended (-1)) /\ (OK -> cash_refused its p = false -> stays_finite N ReadImage its ->
                exists obj cs, SetupModelObject N Wanted = Ok obj /\ AllWanted N ReadImage its x y cs /\
                  r = Started (mkJob obj (psf_wanted ReadImage its) cs))).
    { intros _ H. exists (Ended (-1)). split; [reflexivity|]. split; [reflexivity|]. split; [reflexivity|]. intros K. destruct (H K). }
    specialize (END True).
    destruct (files_ok (o := o) DO) as (b & -> & Hb). cbn [bind].
    destruct b; cbn [negb]; [|apply END; intros (K & _); apply Hb in K; discriminate].
    pose proof (proj1 Hb eq_refl) as AP. clear Hb.
    assert (K0 : o K_configFileName = VS (config_name its)).
    { rewrite DO. unfold config_name. destruct HP as [-> | ->]; cbn [meaning_of]; cbn; unfold text;
        destruct (values its ["config"; "c"]%string); reflexivity. }
    rewrite K0. cbn [as_str bind].
    destruct (ReadConfig (config_name its)) as [cf|] eqn:EC; [|apply END; intros (_ & K & _); congruence].
    assert (Ecf : cfg ReadConfig its = cf) by (unfold cfg; now rewrite EC).
    destruct (NOK) as (NN & NU & _). rewrite Ecf in NN, NU.
    destruct (@config_fit_whole T strtod dbl cores p its cf o HP DO NN NU) as (o' & -> & D'). cbn [bind]. clear NN NU.
    clear DO K0 o. rename o' into o, D' into D.
    assert (NoIm : o K_noImage = VB (no_argument its)) by (rewrite D; destruct HP as [-> | ->]; reflexivity).
    rewrite NoIm. cbn [as_bool bind]. clear NoIm.
    destruct (no_argument its) eqn:EN.
    { apply END. intros (_ & _ & K & _). unfold no_argument in EN. destruct (positional its); congruence. }
    assert (PN : positional its <> []) by (unfold no_argument in EN; destruct (positional its); congruence). clear EN.
    assert (K2 : o K_imageFileName = VS image) by (rewrite D, <- argument_image; destruct HP as [-> | ->]; reflexivity).
    rewrite K2. cbn [as_str bind]. clear K2.
    destruct (ReadImage image) as [[[cols rws] pix]|] eqn:EI; [|apply END; intros (_ & _ & _ & K & _); congruence].
    assert (HI : ReadImage image <> None) by congruence.
    assert (Ec : cols = columns image) by (unfold Start_Spec.columns; now rewrite EI).
    assert (Er : rws = rows image) by (unfold Start_Spec.rows; now rewrite EI).
    assert (Ep : pix = pixels image) by (unfold Start_Spec.pixels; now rewrite EI).
    subst cols rws pix. clear EI.
    rewrite (section_start SS). cbn [bind].
    assert (K3 : o K_maskFileName = VS (nm (first "mask"))) by (rewrite D, <- text_first; destruct HP as [-> | ->]; reflexivity).
    assert (K4 : o K_noiseFileName = VS (nm (first "noise"))) by (rewrite D, <- text_first; destruct HP as [-> | ->]; reflexivity).
    assert (K5 : o K_psfFileName = VS (nm (first "psf"))) by (rewrite D, <- text_first; destruct HP as [-> | ->]; reflexivity).
    assert (K6 : o K_maskImagePresent = VB (is_some (first "mask"))) by (rewrite D, <- has_first; destruct HP as [-> | ->]; reflexivity).
    assert (K7 : o K_noiseImagePresent = VB (is_some (first "noise"))) by (rewrite D, <- has_first; destruct HP as [-> | ->]; reflexivity).
    assert (K8 : o K_psfImagePresent = VB (is_some (first "psf"))) by (rewrite D, <- has_first; destruct HP as [-> | ->]; reflexivity).
    rewrite K3, K4. cbn [as_str bind].
    destruct (mask_errors_ok HI AP) as (m & e & st & -> & [(Hst & -> & -> & SZ)|(Hst & SZ)]); rewrite Hst;
      [|apply END; intros (_ & _ & _ & _ & K & _); auto].
    clear Hst st. rewrite K8, K5. cbn [as_bool as_str bind].
    assert (EQ : (if is_some (first "psf") then GetPsfImage ReadImage (nm (first "psf")) else None) =
      match first "psf" with Some w => ReadImage w | None => None end).
    { destruct (first "psf"); cbn [is_some nm]; [apply psf_image|reflexivity]. }
    rewrite EQ. clear EQ.
    set (psf := match first "psf" with Some w => ReadImage w | None => None end).
    destruct (is_some (first "psf") && match psf with None => true | Some _ => false end) eqn:EPS.
    { apply andb_true_iff in EPS. destruct EPS as [A B]. destruct (first "psf") as [w|] eqn:Ew; [|discriminate].
      apply END. intros (_ & _ & _ & _ & _ & K & _). destruct (K w Ew) as (K' & _). unfold psf in B. destruct (ReadImage w); congruence. }
    assert (K9 : o K_psfOversampling = VB (has its "overpsf")) by (rewrite D; destruct HP as [-> | ->]; reflexivity).
    assert (K10 : o K_psfOversampledImagePresent = VB (has its "overpsf")) by (rewrite D; destruct HP as [-> | ->]; reflexivity).
    rewrite K9, K10. cbn [as_bool bind]. rewrite andb_diag.
    assert (HO : has its "overpsf" = match psf_names its with [] => false | _ => true end) by reflexivity.
    (* the regions *)
    assert (OV : (exists infos calls,
        (if has its "overpsf" then GetOversampledPsfInfo ReadImage o (x - 1, y - 1)%Z else Ok (Some [])) = Ok (Some infos) /\
        (if has its "overpsf" then AddOversampledPsfs N (columns image) (rows image) infos [] else Ok (Some [])) = Ok calls /\
        match calls with
        | None => (psf_names its <> [] -> OverUsable N ReadImage its) -> ~ stays_finite N ReadImage its
        | Some cs => (psf_names its <> [] -> OverUsable N ReadImage its) /\ AllWanted N ReadImage its x y cs
        end) \/
      (if has its "overpsf" then GetOversampledPsfInfo ReadImage o (x - 1, y - 1)%Z else Ok (Some [])) = Ok None /\
      ~ (psf_names its <> [] -> OverUsable N ReadImage its)).
    { assert (CS : psf_names its = [] \/ psf_names its <> []) by (destruct (psf_names its); [left; reflexivity|right; discriminate]).
      destruct CS as [EP0|NE].
      - rewrite HO, EP0. left. exists [], (Some []). split; [reflexivity|]. split; [reflexivity|]. split; [congruence|].
        unfold AllWanted. rewrite EP0. reflexivity.
      - replace (has its "overpsf") with true by (rewrite HO; clear - NE; destruct (psf_names its); [congruence|reflexivity]).
        destruct (@over_ok o HI) as [(A & B)|(infos & calls & A & B & C)].
        + rewrite D. destruct HP as [-> | ->]; reflexivity.
        + rewrite D. destruct HP as [-> | ->]; reflexivity.
        + rewrite D. destruct HP as [-> | ->]; reflexivity.
        + rewrite D. destruct HP as [-> | ->]; reflexivity.
        + exact NE.
        + right. split; [exact A|]. intros K. apply B. apply K. exact NE.
        + left. exists infos, calls. split; [exact A|]. split; [exact B|]. destruct calls as [cs|].
          * destruct C as [C1 C2]. split; [auto|exact C2].
          * intros K. apply C. apply K. exact NE. }
    destruct OV as [(infos & calls & -> & EA & HC)|(-> & NOU)]; cbn [bind];
      [|apply END; intros (_ & _ & _ & _ & _ & _ & K); auto].
    (* the object *)
    destruct (@setup_ok T N Wanted (wanted_formed HI SZ)) as (obj & EOB & _).
    assert (ESO : exists solver, o K_solver = VZ solver /\
      (solver =? 1)%Z = match p with Imfit => default_solver its | _ => true end).
    { unfold default_solver. rewrite D. destruct HP as [-> | ->].
      - eexists. split; [reflexivity|].
        destruct (?"de"), (?"de-lhs"), (?"nm"), (has its "nlopt"); reflexivity.
      - eexists. split; reflexivity. }
    destruct ESO as (solver & KS & HS).
    assert (EON : o K_printFitStatisticOnly = VB (match p with Imfit => no_fit its | _ => false end)).
    { rewrite D. destruct HP as [-> | ->]; reflexivity. }
    assert (PSOME : is_some (first "psf") = is_some psf).
    { destruct (first "psf"); [|reflexivity]. cbn [is_some] in *. destruct psf; [reflexivity|discriminate]. }
    assert (WALK := @SetupFit_walk T N o Wanted psf (option_map pixels (first "mask")) (option_map pixels (first "noise")) infos
      (negb (?"no-normalize")) (if ?"mask-zero-is-bad" then 20 else 10)%Z
      (if ?"errors-are-weights" then 120 else if ?"errors-are-variances" then 110 else 100)%Z
      (?"cashstat") (?"poisson-mlr" || ?"mlr") (?"model-errors") solver (match p with Imfit => no_fit its | _ => false end)
      (has its "overpsf") calls obj).
    change (columns image) with (s_cols Wanted). change (rows image) with (s_rows Wanted). change (pixels image) with (s_data Wanted).
    rewrite WALK; clear WALK.
    - assert (CR : ?"cashstat" && (solver =? 1)%Z && negb (match p with Imfit => no_fit its | _ => false end) = cash_refused its p).
      { rewrite HS. unfold cash_refused. destruct HP as [-> | ->]; destruct (?"cashstat"); cbn [andb]; try reflexivity. }
      rewrite CR. clear CR.
      assert (PU : (match psf with Some (_, _, q) => good_psf N (negb (?"no-normalize")) q | None => true end) = true <->
        forall n, first "psf" = Some n -> PsfUsable N ReadImage its n).
      { destruct (first "psf") as [w|] eqn:Ew.
        - assert (EW : ReadImage w = psf) by reflexivity.
          assert (SP : forall q : word -> Prop, (forall n, Some w = Some n -> q n) <-> q w).
          { intros q. split; [auto|]. intros H n [= <-]. exact H. }
          rewrite SP. unfold PsfUsable, Start_Spec.pixels. rewrite EW. destruct psf as [[[c r] q]|]; [|discriminate].
          unfold good_psf. rewrite andb_true_iff, orb_true_iff, !negb_true_iff. rewrite negb_false_iff.
          split; [intros [A B]; split; [discriminate|auto]|intros (_ & A & B); auto].
        - split; [discriminate|reflexivity]. }
      assert (EPW : option_map (fun q => mkPSF (snd q) (fst (fst q)) (snd (fst q)) (negb (?"no-normalize"))) psf = psf_wanted ReadImage its).
      { unfold psf_wanted. unfold psf in *. destruct (first "psf") as [w|]; [|reflexivity]. cbn [option_map].
        unfold Start_Spec.pixels, Start_Spec.columns, Start_Spec.rows. destruct (ReadImage w) as [[[c r] q]|]; [reflexivity|discriminate]. }
      rewrite EPW.
      destruct (match psf with Some (_, _, q) => good_psf N (negb (?"no-normalize")) q | None => true end).
      2:{ apply END. intros (_ & _ & _ & _ & _ & K & _). apply PU in K. discriminate. }
      pose proof (proj1 PU eq_refl) as PUO. clear PU.
      destruct calls as [cs|].
      + destruct HC as [OU AW].
        assert (ALL : OK).
        { split; [exact AP|]. split; [congruence|]. split; [exact PN|]. split; [exact HI|]. split; [exact SZ|]. split; [exact PUO|exact OU]. }
        destruct (cash_refused its p); eexists; (split; [reflexivity|]); (split; [intros K; destruct (K ALL)|]).
        * split; [reflexivity|discriminate].
        * split; [discriminate|]. intros _ _ _. exists obj, cs. auto.
      + exists (Ended (-1)). split; [reflexivity|]. split; [reflexivity|]. split; [reflexivity|]. intros (_ & _ & _ & _ & _ & _ & OU) _ ST.
        destruct (HC OU ST).
    - now rewrite K8, PSOME.
    - rewrite D. destruct HP as [-> | ->]; reflexivity.
    - intros c r q Eq. unfold psf in Eq. destruct (first "psf"); [|discriminate]. destruct RD as [_ R]. apply (R _ _ _ _ Eq).
    - cbn [s_psf Start_Spec.wanted]. unfold psf in *. destruct (first "psf") as [w|]; [|reflexivity]. cbn [option_map].
      unfold Start_Spec.columns, Start_Spec.rows. destruct (ReadImage w) as [[[c r] q]|]; [reflexivity|discriminate].
    - rewrite D. cbn [fit_configured s_gain Start_Spec.wanted]. unfold config_real, number. rewrite Ecf.
      destruct (values its ["gain"%string]), (last_value cf ["GAIN"%string]); reflexivity.
    - rewrite D. cbn [fit_configured s_readNoise Start_Spec.wanted]. unfold config_real, number. rewrite Ecf.
      destruct (values its ["readnoise"%string]), (last_value cf ["READNOISE"%string]); reflexivity.
    - rewrite D. cbn [fit_configured s_expTime Start_Spec.wanted]. unfold config_real, number. rewrite Ecf.
      destruct (values its ["exptime"%string]), (last_value cf ["EXPTIME"%string]); reflexivity.
    - rewrite D. cbn [fit_configured s_nCombined Start_Spec.wanted]. unfold config_count, combined_images. rewrite Ecf.
      destruct (values its ["ncombined"%string]), (last_value cf ["NCOMBINED"%string]); reflexivity.
    - rewrite D. cbn [fit_configured s_sky Start_Spec.wanted]. unfold config_real, number. rewrite Ecf.
      destruct (values its ["sky"%string]), (last_value cf ["ORIGINAL_SKY"%string]); reflexivity.
    - exact K9.
    - exact EA.
    - rewrite K6. destruct (first "mask"); reflexivity.
    - rewrite D. destruct HP as [-> | ->]; reflexivity.
    - cbn [s_mask Start_Spec.wanted]. destruct (first "mask"); reflexivity.
    - rewrite D. destruct HP as [-> | ->]; reflexivity.
    - rewrite D. destruct HP as [-> | ->]; reflexivity.
    - exact KS.
    - exact EON.
    - rewrite K7. destruct (first "noise"); reflexivity.
    - rewrite D. destruct HP as [-> | ->]; reflexivity.
    - rewrite D. destruct HP as [-> | ->]; reflexivity.
    - cbn [s_stat Start_Spec.wanted]. unfold statistic_wanted. destruct (?"cashstat"); [reflexivity|].
      destruct (?"poisson-mlr" || ?"mlr"); [reflexivity|]. destruct (first "noise"); reflexivity.
    - exact EOB.
  Qed.
End Run.

Lemma announce_ok (T : Type) (strtod : word -> T) dbl cores (ReadImage : word -> option (nat * nat * list T)) its p cf (o : opts T) : fit_program p ->
  (forall k, o k = fit_configured T strtod dbl its cf (meaning_of T strtod dbl cores its p) k) ->
  announce o = Ok (if given its ["cashstat"%string] then ACash
                   else if given its ["poisson-mlr"%string] || given its ["mlr"%string] then APoisson
                   else if given its ["model-errors"%string] then AModelErrors
                   else announcement_of (statistic_wanted ReadImage its)).
Proof.
  intros HP D. unfold announce.
  assert (K1 : o K_useCashStatistic = VB (given its ["cashstat"%string])) by (rewrite D; destruct HP as [-> | ->]; reflexivity).
  assert (K2 : o K_usePoissonMLR = VB (given its ["poisson-mlr"%string] || given its ["mlr"%string]))
    by (rewrite D; destruct HP as [-> | ->]; reflexivity).
  assert (K3 : o K_useModelForErrors = VB (given its ["model-errors"%string])) by (rewrite D; destruct HP as [-> | ->]; reflexivity).
  assert (K4 : o K_noiseImagePresent = VB (is_some (first its "noise"))) by (rewrite D, <- has_first; destruct HP as [-> | ->]; reflexivity).
  rewrite K1, K2, K3, K4. cbn [as_bool bind]. unfold statistic_wanted.
  destruct (given its ["cashstat"%string]); [reflexivity|].
  destruct (given its ["poisson-mlr"%string] || given its ["mlr"%string]); [reflexivity|].
  destruct (given its ["model-errors"%string]); [reflexivity|]. destruct (first its "noise"); reflexivity.
Qed.

Lemma collect_offset (T : Type) (RI : word -> option (nat * nat * list T)) off names regions scs n l :
  collect RI off names regions scs n = Ok (Some l) -> Forall (fun i => oi_offset i = off) l.
Proof.
  unfold collect. intros H.
  match type of H with (do _ <- for_ n ?f ?s; _) = _ => destruct (for_ n f s) as [r| | |] eqn:E end; try discriminate. cbn [bind] in H.
  assert (P : match r with Some (l, _) => Forall (fun i => oi_offset i = off) l | None => True end).
  { refine (@for_ok _ (fun _ w => match w with Some (l, _) => Forall (fun i => oi_offset i = off) l | None => True end) _ _ _ _ _ _ E).
    - constructor.
    - intros i w w' _ Hw Hf. destruct w as [[l0 cur]|]; [|injection Hf as <-; exact I].
      destruct (get regions i); try discriminate. cbn [bind] in Hf.
      destruct ((i =? 0) || (1 <? List.length names)).
      + destruct (get names i) as [nm| | |]; try discriminate. cbn [bind] in Hf.
        destruct (RI nm) as [[[c q] pix]|]; [|injection Hf as <-; exact I].
        destruct (get scs i); try discriminate. cbn [bind] in Hf. injection Hf as <-.
        apply Forall_app. split; [exact Hw|]. constructor; [reflexivity|constructor].
      + destruct cur as [[pp sc]|]; [|discriminate]. injection Hf as <-.
        apply Forall_app. split; [exact Hw|]. constructor; [reflexivity|constructor]. }
  destruct r as [[l' cur]|]; [|discriminate]. cbn in H. injection H as <-. exact P.
Qed.

(** ---- the PSF that several regions share, in exact arithmetic ---- *)
From Coq Require Import Reals.
From Verif Require Import Sums Conv_Spec Conv_Proof.
Lemma total_scaled v : total v <> 0%R -> total (map (fun x => (x / total v)%R) v) = 1%R.
Proof.
  intros H. unfold total at 1. rewrite map_length.
  rewrite (@rsum_ext _ _ (fun k => (nth k v 0 * / total v)%R)).
  - rewrite rsum_scal_r. fold (total v). apply Rinv_r. exact H.
  - intros k Hk. rewrite (nth_indep _ 0%R (0 / total v)%R) by (rewrite map_length; exact Hk).
    rewrite (map_nth (fun x => (x / total v)%R)). reflexivity.
Qed.
Lemma shared_normalised ReadImage n k c r pix : ReadImage n = Some (c, r, pix) -> List.length pix = c * r -> total pix <> 0%R ->
  normalised_times NumR ReadImage (S k) n = Ok (used_psf pix true).
Proof.
  intros E L H. unfold normalised_times, Start_Spec.pixels, Start_Spec.columns, Start_Spec.rows. rewrite E. cbn [used_psf].
  induction k as [|k IH]; rewrite iter_step.
  - cbn [Nat.iter nat_rect bind]. rewrite <- L. apply NormalizePSF_ok.
  - rewrite IH. cbn [bind used_psf]. rewrite <- L. rewrite <- (map_length (fun x => (x / total pix)%R) pix), NormalizePSF_ok.
    f_equal. rewrite (total_scaled H). rewrite <- map_id. apply map_ext. intros a. field.
Qed.
