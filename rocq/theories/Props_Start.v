(** C71, C72: what imfit and imfit-mcmc hand to the fit, and which files they refuse;
    where the oversampled regions lie. *)
From Coq Require Import ZArith List Bool Ascii String Reals Lra Lia.
From Verif Require Import Base Num Conv_Model Conv_Spec Fit_Model CmdLine_Spec StrUtil_Spec StrUtil_Proof CmdLine_Proof
  Opt_Model Opt_Spec Opt_Config Props_Opt Start_Model Start_Spec Start_Text Start_Over Start_Proof.
Import ListNotations.
Local Open Scope string_scope.
Local Open Scope list_scope.

(** ---- C71 ---- *)
(** [start_fit p (prog :: ws)]: from the command line [prog ws] to the call of the solver.
    [FileExists], [ReadImage], [ReadConfig]: what is on the disk. *)
Theorem C71_start : forall (T : Type) (N : Num T) (strtod : word -> T) (dbl : string -> T) (cores : Z)
    (FileExists : word -> bool) (ReadImage : word -> option (nat * nat * list T)) (ReadConfig : word -> option (list (word * word)))
    (p : program) (its : list item) (ws : list word) (prog : word) (x y : Z),
  p = Imfit \/ p = Mcmc -> Says (sheet_of p) its ws -> Accepted (sheet_of p) its -> clean its ->
  reader FileExists ReadImage -> numbers_ok N strtod dbl ReadImage ReadConfig its ->
  SectionStart (image_name its) x y ->
  (psf_names its <> [] -> Forall (RegionOk ReadImage its x y) (region_texts its)) ->
  let run := start_fit N strtod dbl cores FileExists ReadImage ReadConfig p (prog :: ws) in
  (~ Acceptable N FileExists ReadImage ReadConfig its -> run = Ok (Ended (-1))) /\
  (cash_refused its p = true -> run = Ok (Ended (-1))) /\
  (Acceptable N FileExists ReadImage ReadConfig its -> cash_refused its p = false -> stays_finite N ReadImage its ->
   exists obj regions,
     run = Ok (Started (mkJob obj (psf_wanted ReadImage its) regions)) /\
     SetupModelObject N (wanted strtod dbl ReadImage ReadConfig its) = Ok obj /\
     AllWanted N ReadImage its x y regions).
Proof.
  intros T N strtod dbl cores FE RI RC p its ws prog x y HP HS HA HC HR HN HX HO run.
  destruct (@start_ok T N strtod dbl cores FE RI RC its p HP HC HR HA HN x y HX HO ws prog HS) as (r & E & H1 & H2 & H3).
  unfold run. rewrite E. split; [intros K; now rewrite (H1 K)|]. split.
  - intros K. now rewrite (H2 K).
  - intros K1 K2 K3. destruct (H3 K1 K2 K3) as (obj & cs & A & B & ->). eauto.
Qed.
Print Assumptions C71_start.

(** the line about the fit statistic that imfit prints before it fits *)
Theorem C71_announcement_partial : forall (T : Type) (strtod : word -> T) (dbl : string -> T) (cores : Z)
    (ReadImage : word -> option (nat * nat * list T))
    (its : list item) (ws : list word) (prog : word) (cfg : list (word * word)),
  Says imfit_sheet its ws -> Accepted imfit_sheet its ->
  Forall (fun nv => no_nul (snd nv)) cfg ->
  (forall v, Used its cfg "ncombined" ["NCOMBINED"] v -> Good Count v) ->
  given its ["model-errors"] = false \/ first its "noise" = None ->
  exists o o', options_of T strtod dbl cores Imfit (prog :: ws) = Ok (Run o) /\
    HandleConfigFileOptions strtod cfg o = Ok o' /\
    announce o' = Ok (announcement_of (statistic_wanted ReadImage its)).
Proof.
  intros T strtod dbl cores RI its ws prog cfg HS HA HN HG H.
  destruct (proj1 (@all_lines T strtod dbl cores Imfit its ws prog HS) HA) as (o & E & D). exists o.
  destruct (@config_fit_whole T strtod dbl cores Imfit its cfg o (or_introl eq_refl) D HN HG) as (o' & E' & D').
  exists o'. split; [exact E|]. split; [exact E'|].
  rewrite (@announce_ok T strtod dbl cores RI its Imfit cfg o' (or_introl eq_refl) D').
  unfold statistic_wanted. destruct (given its ["cashstat"]); [reflexivity|].
  destruct (given its ["poisson-mlr"] || given its ["mlr"]); [reflexivity|].
  destruct H as [-> | ->]; [reflexivity|]. destruct (given its ["model-errors"]); reflexivity.
Qed.
Print Assumptions C71_announcement_partial.
(** with both, the error image is used and model errors are announced *)
Theorem C71_announcement_refuted : forall (T : Type) (strtod : word -> T) (dbl : string -> T) (cores : Z)
    (ReadImage : word -> option (nat * nat * list T)),
  let its := [UArg (wd "a.fits"); UOpt (wd "noise") (wd "n.fits"); UFlag (wd "model-errors")] in
  exists o, options_of T strtod dbl cores Imfit (map wd ["imfit"; "a.fits"; "--noise"; "n.fits"; "--model-errors"]) = Ok (Run o) /\
    announce o = Ok AModelErrors /\ announcement_of (statistic_wanted ReadImage its) = AErrorImage.
Proof. intros. eexists. split; [vm_compute; reflexivity|]. split; vm_compute; reflexivity. Qed.
Print Assumptions C71_announcement_refuted.
(** imfit-mcmc has --cashstat, but never runs with it *)
Theorem C71_mcmc_cash_refuted : forall (T : Type) (N : Num T) (strtod : word -> T) (dbl : string -> T) (cores : Z)
    (FileExists : word -> bool) (ReadImage : word -> option (nat * nat * list T)) (ReadConfig : word -> option (list (word * word)))
    (its : list item) (ws : list word) (prog : word) (x y : Z),
  Says mcmc_sheet its ws -> Accepted mcmc_sheet its -> clean its ->
  reader FileExists ReadImage -> numbers_ok N strtod dbl ReadImage ReadConfig its ->
  SectionStart (image_name its) x y ->
  (psf_names its <> [] -> Forall (RegionOk ReadImage its x y) (region_texts its)) ->
  given its ["cashstat"] = true ->
  start_fit N strtod dbl cores FileExists ReadImage ReadConfig Mcmc (prog :: ws) = Ok (Ended (-1)).
Proof.
  intros T N strtod dbl cores FE RI RC its ws prog x y HS HA HC HR HN HX HO HG.
  apply (@C71_start T N strtod dbl cores FE RI RC Mcmc its ws prog x y (or_intror eq_refl) HS HA HC HR HN HX HO).
  unfold cash_refused. now rewrite HG.
Qed.
Print Assumptions C71_mcmc_cash_refuted.

(** ---- C72 ---- *)
(** Region number [k] is given in pixels of the file. The pixel (i, j) of the fitted image is
    the pixel (i + x - 1, j + y - 1) of the file. *)
Theorem C72_regions_partial : forall (T : Type) (N : Num T) (strtod : word -> T) (dbl : string -> T) (cores : Z)
    (FileExists : word -> bool) (ReadImage : word -> option (nat * nat * list T)) (ReadConfig : word -> option (list (word * word)))
    (p : program) (its : list item) (ws : list word) (prog : word) (x y : Z) (jb : job T),
  p = Imfit \/ p = Mcmc -> Says (sheet_of p) its ws -> Accepted (sheet_of p) its -> clean its ->
  reader FileExists ReadImage -> numbers_ok N strtod dbl ReadImage ReadConfig its ->
  SectionStart (image_name its) x y -> Forall (RegionOk ReadImage its x y) (region_texts its) ->
  Acceptable N FileExists ReadImage ReadConfig its -> cash_refused its p = false -> stays_finite N ReadImage its ->
  psf_names its <> [] ->
  start_fit N strtod dbl cores FileExists ReadImage ReadConfig p (prog :: ws) = Ok (Started jb) ->
  List.length (j_regions jb) = List.length (region_texts its) /\
  forall k w c x1 x2 y1 y2, nth_error (region_texts its) k = Some w -> nth_error (j_regions jb) k = Some c ->
    RegionText w x1 x2 y1 y2 ->
    (forall i j, (rc_x1 c <= i <= rc_x2 c /\ rc_y1 c <= j <= rc_y2 c <->
                  x1 <= i + x - 1 <= x2 /\ y1 <= j + y - 1 <= y2)%Z) /\
    rc_scale c = own_of (scales its) k 0%Z /\ ps_normalize (rc_psf c) = true /\
    ps_cols (rc_psf c) = columns ReadImage (own_of (psf_names its) k []) /\
    ps_rows (rc_psf c) = rows ReadImage (own_of (psf_names its) k []) /\
    (k = 0%nat \/ List.length (psf_names its) <> 1%nat ->
     ps_pixels (rc_psf c) = pixels ReadImage (own_of (psf_names its) k [])).
Proof.
  intros T N strtod dbl cores FE RI RC p its ws prog x y jb HP HS HA HC HR HN HX HO HAcc HCash HSt HNe HRun.
  destruct (proj2 (proj2 (@C71_start T N strtod dbl cores FE RI RC p its ws prog x y HP HS HA HC HR HN HX (fun _ => HO))) HAcc HCash HSt)
    as (obj & rs & E & _ & AW).
  rewrite E in HRun. injection HRun as <-. cbn [j_regions]. unfold AllWanted in AW.
  destruct (psf_names its) as [|n0 ns] eqn:EP; [congruence|]. destruct AW as [AL AW]. split; [exact AL|].
  intros k w c x1 x2 y1 y2 Hw Hc HT. destruct (AW k w c Hw Hc) as (a1 & a2 & b1 & b2 & v & HT' & HV & ->).
  pose proof (region_coords_unique HT HT') as Eq. injection Eq as -> -> -> ->.
  cbn [rc_x1 rc_x2 rc_y1 rc_y2 rc_psf rc_scale ps_normalize ps_cols ps_rows ps_pixels]. rewrite EP in *.
  split; [intros i j; lia|]. repeat (split; [reflexivity|]).
  intros Hk. replace (if Nat.eqb (List.length (n0 :: ns)) 1 then k else 0%nat) with 0%nat in HV.
  - now injection HV as <-.
  - destruct Hk as [-> |Hk]; [now destruct (Nat.eqb _ _)|]. apply Nat.eqb_neq in Hk. now rewrite Hk.
Qed.
Print Assumptions C72_regions_partial.

(** Regions that share a PSF image do not get the same PSF: the first has the pixels of
    the file, the others the normalised ones. (The image of the region itself is made with
    the normalised PSF in all of them: Image_Spec.requested; but point sources are made
    from the pixels as they are here.) *)
Theorem C72_shared_psf_refuted : forall (ReadImage : word -> option (nat * nat * list R)) (its : list item) (x y : Z)
    (rs : list (region_call R)) (n : word) (c r : nat) (pix : list R),
  AllWanted NumR ReadImage its x y rs ->
  psf_names its = [n] -> ReadImage n = Some (c, r, pix) -> List.length pix = (c * r)%nat ->
  total pix <> 0%R -> total pix <> 1%R ->
  (forall k q, nth_error rs k = Some q -> ps_pixels (rc_psf q) = match k with O => pix | S _ => used_psf pix true end) /\
  used_psf pix true <> pix.
Proof.
  intros RI its x y rs n c r pix AW EP ER EL H0 H1. unfold AllWanted in AW. rewrite EP in AW. destruct AW as [AL AW]. split.
  - intros k q Hq. assert (Hk : (k < List.length (region_texts its))%nat) by (rewrite <- AL; apply nth_error_Some; congruence).
    destruct (nth_error (region_texts its) k) as [w|] eqn:Ew; [|apply nth_error_None in Ew; lia].
    destruct (AW k w q Ew Hq) as (a1 & a2 & b1 & b2 & v & _ & HV & ->). rewrite EP in HV.
    cbn [List.length Nat.eqb own_of] in HV. cbn [rc_psf ps_pixels]. destruct k as [|k].
    + injection HV as <-. unfold pixels. now rewrite ER.
    + rewrite (@shared_normalised RI n k c r pix ER EL H0) in HV. injection HV as <-. reflexivity.
  - intros E. assert (E2 : total (used_psf pix true) = 1%R) by (apply total_scaled; exact H0). rewrite E in E2. exact (H1 E2).
Qed.
Print Assumptions C72_shared_psf_refuted.

(** multimfit: the regions are taken as they are written, whatever section of the file is
    fitted *)
Theorem C72_multimfit_refuted : forall (T : Type) (ReadImage : word -> option (nat * nat * list T))
    (names regions : list word) (scales : list Z) (set : bool) (infos : list (oinfo T)),
  ExtractAndStorePsfOversampling ReadImage names regions scales set = Ok (Some infos) ->
  forall i x1 x2 y1 y2, In i infos -> RegionText (oi_region i) x1 x2 y1 y2 ->
  GetCorrectedRegionCoords i = Ok (x1, x2, y1, y2).
Proof.
  intros T RI names regions scs set infos H i x1 x2 y1 y2 Hi HT.
  unfold ExtractAndStorePsfOversampling in H.
  destruct (negb _); [discriminate|]. destruct (_ && _); [discriminate|]. destruct (negb set); [discriminate|].
  apply collect_offset in H. rewrite Forall_forall in H. specialize (H i Hi).
  unfold GetCorrectedRegionCoords. rewrite (region_coords HT), H. cbn. now rewrite !Z.sub_0_r.
Qed.
Print Assumptions C72_multimfit_refuted.

(** ---- the hypotheses can be met ---- *)
Definition s_its : list item := [UArg (wd "galaxy.fits[11:20,21:24]"); UOptEq (wd "gain") (wd "4.5");
  UOpt (wd "mask") (wd "mask.fits"); UOpt (wd "psf") (wd "psf.fits"); UOpt (wd "overpsf") (wd "over.fits");
  UOpt (wd "overpsf_scale") (wd "3"); UOpt (wd "overpsf_region") (wd "12:15,21:23"); UOpt (wd "overpsf_region") (wd "[17:18,22:24]")].
Definition s_ws : list word := map wd ["galaxy.fits[11:20,21:24]"; "--gain=4.5"; "--mask"; "mask.fits"; "--psf"; "psf.fits";
  "--overpsf"; "over.fits"; "--overpsf_scale"; "3"; "--overpsf_region"; "12:15,21:23"; "--overpsf_region"; "[17:18,22:24]"].
Definition s_exists (w : word) : bool := match w with [] => false | _ => true end.
Definition s_read (w : word) : option (nat * nat * list R) :=
  if str_eqb w (wd "galaxy.fits[11:20,21:24]") then Some (10%nat, 4%nat, repeat 7%R 40)
  else if str_eqb w (wd "mask.fits") then Some (10%nat, 4%nat, repeat 0%R 40)
  else if str_eqb w (wd "psf.fits") then Some (3%nat, 1%nat, [1; 2; 1]%R)
  else if str_eqb w (wd "over.fits") then Some (1%nat, 3%nat, [1; 3; 1]%R)
  else None.
Definition s_config (w : word) : option (list (word * word)) :=
  if str_eqb w (wd "imfit_config.dat") then Some [(wd "READNOISE", wd "2.5"); (wd "NCOMBINED", wd "4")] else None.
Definition s_strtod (w : word) : R := if str_eqb w (wd "4.5") then 4.5%R else 2.5%R.
Definition s_dbl (s : string) : R := if String.eqb s "0.0" then 0%R else 1%R.

Ltac two a b := refine (@Dig_more [ascii_of_nat (48 + Z.to_nat a)] a (ascii_of_nat (48 + Z.to_nat b)) b _ _);
  [apply Dig_one|]; (split; [lia|reflexivity]).
Ltac region a b c d := exists (wd a), (wd b), (wd c), (wd d); split; [reflexivity|].
Lemma s_region1 : RegionText (wd "12:15,21:23") 12 15 21 23.
Proof.
  left. region "12" "15" "21" "23". split; [two 1%Z 2%Z|]. split; [two 1%Z 5%Z|]. split; [two 2%Z 1%Z|]. split; [two 2%Z 3%Z|]. lia.
Qed.
Lemma s_region2 : RegionText (wd "[17:18,22:24]") 17 18 22 24.
Proof.
  right. exists (wd "17:18,22:24"). split; [reflexivity|].
  region "17" "18" "22" "24". split; [two 1%Z 7%Z|]. split; [two 1%Z 8%Z|]. split; [two 2%Z 2%Z|]. split; [two 2%Z 4%Z|]. lia.
Qed.
Lemma s_no_char n w : existsb (ch_eqb (ascii_of_nat n)) w = false -> no_char n w.
Proof.
  intros H. apply Forall_forall. intros c Hc ->. assert (existsb (ch_eqb (ascii_of_nat n)) w = true); [|congruence].
  apply existsb_exists. exists (ascii_of_nat n). split; [exact Hc|]. now apply ch_eqb_true.
Qed.
Ltac rtrue := first [apply Rltb_true | apply Rleb_true | apply Rleb_false].
Ltac start_says := unfold s_its, s_ws; argd "galaxy.fits[11:20,21:24]"; opteq "gain" "4.5"; optd "--" "mask" "mask.fits";
  optd "--" "psf" "psf.fits"; optd "--" "overpsf" "over.fits"; optd "--" "overpsf_scale" "3";
  optd "--" "overpsf_region" "12:15,21:23"; optd "--" "overpsf_region" "[17:18,22:24]".
Lemma s_columns w : columns s_read w = match s_read w with Some (c, _, _) => c | None => 0%nat end.
Proof. reflexivity. Qed.

Example C71_hyp_example :
  Says (sheet_of Imfit) s_its s_ws /\ Accepted (sheet_of Imfit) s_its /\ clean s_its /\ reader s_exists s_read /\
  numbers_ok NumR s_strtod s_dbl s_read s_config s_its /\ SectionStart (image_name s_its) 11 21 /\
  Forall (RegionOk s_read s_its 11 21) (region_texts s_its) /\
  Acceptable NumR s_exists s_read s_config s_its /\ cash_refused s_its Imfit = false /\ stays_finite NumR s_read s_its.
Proof.
  split; [split|split; [split; [|split]|split; [split|split; [split|split; [|split; [|split; [|split; [|split]]]]]]]].
  - start_says. constructor.
  - repeat constructor; discriminate.
  - discriminate.
  - intros ns H. repeat (destruct H as [H|H]; [inversion H; subst; try reflexivity|]). destruct H.
  - intros k ns H. repeat (destruct H as [H|H]; [inversion H; subst; clear H; eval_counted|]); [| | |now destruct H].
    + constructor; [|constructor]. count_ok.
    + repeat constructor.
    + constructor; [|constructor]. split; [no_nul_ok|]. left. do 2 eexists. split; [reflexivity|]. apply dig_ok. reflexivity.
  - repeat constructor; no_nul_ok.
  - intros ns. unfold s_its, values. cbn [flat_map].
    repeat (match goal with |- context [named ns ?b] => destruct (named ns b) end; cbn [app]);
      repeat (constructor; [no_nul_ok|]); constructor.
  - reflexivity.
  - intros n c r p. unfold s_read.
    repeat (match goal with |- context [str_eqb n ?b] => destruct (str_eqb n b) end; [intros E; injection E as <- <- <-; repeat split; try lia; reflexivity|]).
    discriminate.
  - split; [repeat constructor; no_nul_ok|]. split.
    + intros v [_ (n & I & Nm)]. repeat (destruct I as [I|I]; [inversion I; subst; try discriminate Nm|]); [|destruct I]. count_ok.
    + change (s_gain (wanted s_strtod s_dbl s_read s_config s_its)) with (s_strtod (wd "4.5")).
      change (s_readNoise (wanted s_strtod s_dbl s_read s_config s_its)) with (s_strtod (wd "2.5")).
      change (s_expTime (wanted s_strtod s_dbl s_read s_config s_its)) with (s_dbl "1.0").
      change (s_sky (wanted s_strtod s_dbl s_read s_config s_its)) with (s_dbl "0.0").
      cbn -[Rltb Rleb]. repeat split; rtrue; lra.
  - refine (@Sec1 (wd "galaxy.fits") (wd "11:20,21:24") [] 11 21 _ _ _ _ _); try lia; try (apply s_no_char; reflexivity).
    exists (wd "11:20"), (wd "21:24"). split; [reflexivity|]. split.
    + refine (@Sec_range (wd "11") (wd "20") 11 20 _ _); [two 1%Z 1%Z|two 2%Z 0%Z].
    + refine (@Sec_range (wd "21") (wd "24") 21 24 _ _); [two 2%Z 1%Z|two 2%Z 4%Z].
  - change (region_texts s_its) with [wd "12:15,21:23"; wd "[17:18,22:24]"].
    assert (EC : columns s_read (image_name s_its) = 10%nat) by reflexivity.
    assert (ER : rows s_read (image_name s_its) = 4%nat) by reflexivity.
    constructor; [|constructor; [|constructor]]; unfold RegionOk; rewrite EC, ER.
    + exists 12%Z, 15%Z, 21%Z, 23%Z. split; [exact s_region1|]. lia.
    + exists 17%Z, 18%Z, 22%Z, 24%Z. split; [exact s_region2|]. lia.
  - split.
    { split; [reflexivity|]. split; [right; reflexivity|].
      intros o n [<-|[<-|[<-|[]]]] E; try (vm_compute in E; discriminate E); injection E as <-; right; reflexivity. }
    split; [discriminate|]. split; [discriminate|]. split; [discriminate|]. split; [|split].
    + intros o n [<-|[<-|[]]] E; try (vm_compute in E; discriminate E). injection E as <-. split; [discriminate|split; reflexivity].
    + intros n E. injection E as <-. split; [discriminate|]. split; [reflexivity|]. right.
      change (pixels s_read (wd "psf.fits")) with [1; 2; 1]%R. cbn -[Rleb]. rtrue. lra.
    + intros _. split; [discriminate|]. split; [reflexivity|]. split; [left; reflexivity|].
      intros n E. change (psf_names s_its) with [wd "over.fits"] in E. destruct E as [<-|[]]. split; [discriminate|reflexivity].
  - reflexivity.
  - intros n k v _ _ _. apply forallb_forall. reflexivity.
Qed.
(** and what is then fitted *)
Example C72_case : exists obj rs,
  start_fit NumR s_strtod s_dbl 8 s_exists s_read s_config Imfit (wd "imfit" :: s_ws) = Ok (Started (mkJob obj
    (Some (mkPSF [1; 2; 1]%R 3 1 true)) rs)) /\
  map rc_x1 rs = [2; 7]%Z /\ map rc_x2 rs = [5; 8]%Z /\ map rc_y1 rs = [1; 2]%Z /\ map rc_y2 rs = [3; 4]%Z /\
  map rc_scale rs = [3; 3]%Z /\ map (fun c => ps_pixels (rc_psf c)) rs = [[1; 3; 1]; [1 / 5; 3 / 5; 1 / 5]]%R.
Proof.
  destruct C71_hyp_example as (A & B & C & D & E & F & G & H & I & J).
  destruct (proj2 (proj2 (@C71_start R NumR s_strtod s_dbl 8 s_exists s_read s_config Imfit s_its s_ws (wd "imfit") 11 21
    (or_introl eq_refl) A B C D E F (fun _ => G))) H I J) as (obj & rs & E1 & _ & AW).
  assert (EP : psf_names s_its = [wd "over.fits"]) by reflexivity.
  assert (TT : total [1; 3; 1]%R = 5%R) by (unfold total; cbn; lra).
  destruct (@C72_shared_psf_refuted s_read s_its 11 21 rs (wd "over.fits") 1 3 [1; 3; 1]%R AW EP eq_refl eq_refl) as (SH & _); [lra|lra|].
  exists obj, rs. split; [exact E1|].
  unfold AllWanted in AW. rewrite EP in AW. destruct AW as [AL AW].
  change (region_texts s_its) with [wd "12:15,21:23"; wd "[17:18,22:24]"] in *.
  destruct rs as [|c1 [|c2 [|]]]; try discriminate AL. clear AL.
  pose proof (SH 0%nat c1 eq_refl) as P1. pose proof (SH 1%nat c2 eq_refl) as P2. cbn [map]. rewrite P1, P2. clear SH P1 P2.
  destruct (AW 0%nat _ c1 eq_refl eq_refl) as (a1 & a2 & b1 & b2 & v & T1 & _ & ->).
  destruct (AW 1%nat _ c2 eq_refl eq_refl) as (a1' & a2' & b1' & b2' & v' & T2 & _ & ->). clear AW.
  pose proof (region_coords_unique s_region1 T1) as U1. injection U1 as -> -> -> ->.
  pose proof (region_coords_unique s_region2 T2) as U2. injection U2 as -> -> -> ->.
  cbn [rc_x1 rc_x2 rc_y1 rc_y2 rc_scale].
  repeat (split; [reflexivity|]).
  unfold used_psf. rewrite TT. reflexivity.
Qed.
(** multimfit's reading of a region of a section that starts at pixel 11, 21 *)
Example C72_multi_case : exists i,
  ExtractAndStorePsfOversampling s_read [wd "over.fits"] [wd "12:15,21:23"] [3%Z] true = Ok (Some [i]) /\
  GetCorrectedRegionCoords i = Ok (12, 15, 21, 23)%Z.
Proof.
  exists (mkOinfo (0, 0)%Z (wd "12:15,21:23") (mkPSF [1; 3; 1]%R 1 3 true) true 3%Z). split; [reflexivity|].
  unfold GetCorrectedRegionCoords. cbn [oi_region oi_offset]. rewrite (region_coords s_region1). reflexivity.
Qed.
Example C71_cash_example : cash_refused (s_its ++ [UFlag (wd "cashstat")]) Imfit = true /\
  cash_refused (s_its ++ [UFlag (wd "cashstat"); UFlag (wd "nm")]) Imfit = false /\
  cash_refused (s_its ++ [UFlag (wd "cashstat")]) Mcmc = true.
Proof. repeat split; vm_compute; reflexivity. Qed.
