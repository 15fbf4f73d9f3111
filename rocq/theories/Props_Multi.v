(** C85-C88: multimfit and makemultimages after their input files have been read. *)
From Coq Require Import ZArith List Bool Ascii String Reals Lra Lia.
From Verif Require Import Base Num Sums StrUtil_Model StrUtil_Proof Fit_Model Fit_Spec Fit_Proof Fit_Multi Config_Model ImgPar_Model ImgPar_Proof Params_Model Params_Spec Params_Proof
  Build_Model Save_Model Save_Spec Build_Spec Build_Proof Finish_Model Finish_Spec Props_Fit Multi_Model Multi_Spec Multi_Proof Multi_Draw Multi_Start Multi_Sect.
Import ListNotations.
Local Open Scope string_scope.
Local Open Scope list_scope.

(** ---- C85 ---- *)
(** When every image can be drawn, the joint model is built. Unless the number of
    parameters in the configuration file is that of its functions, and the set-up of
    every image succeeds, multimfit stops with status -1. Otherwise (no image having
    functions of its own) the solver gets the values and limits of the two files, in the
    order: images after the first, model; moved to the coordinates of the fitted sections;
    and the degrees of freedom are the valid pixels of all images less the parameters that
    are not fixed. Missing: images with functions of their own, see the next theorem. *)
Theorem C85_start_partial : forall (T : Type) (N : Num T) bs imgs locs (infos : list (ImageInfo T)) psfs,
  Images bs imgs locs infos -> List.length psfs = List.length infos -> Forall (Drawable bs) (combine psfs locs) ->
  exists ms j desc n descLimits lim,
    image_models (shared_of bs) infos psfs = Ok (inr ms) /\ joint_model (shared_of bs) ms = Ok (inr j) /\
    GetImageDescriptionParams_limits N infos [] = Ok (desc, n, descLimits, lim) /\
    forall po offs objs, List.length (o_limits po) = List.length (o_params po) -> List.length offs = List.length infos ->
      (List.length (o_params po) <> List.length (sflat bs) -> begin_multimfit N j infos desc descLimits po offs objs = Ok (inl (-1)%Z)) /\
      (forall good o rest good' st o', objs = good ++ o :: rest ->
         Forall2 (fun o o' => FinalSetupForFitting N o = Ok (0%Z, o')) good good' -> FinalSetupForFitting N o = Ok (st, o') -> (st < 0)%Z ->
         begin_multimfit N j infos desc descLimits po offs objs = Ok (inl (-1)%Z)) /\
      (forall objs', List.length (o_params po) = List.length (sflat bs) -> Forall (fun l => l = []) locs ->
         Forall2 (fun o o' => FinalSetupForFitting N o = Ok (0%Z, o')) objs objs' ->
         exists h dof, begin_multimfit N j infos desc descLimits po offs objs = Ok (inr (h, dof, objs')) /\
           JointHanded N bs infos po offs h /\ dof = (fold_right Z.add 0 (map (@nValid T) objs') - h_free h)%Z).
Proof.
  intros T N bs imgs locs infos psfs HI HL HD. destruct (joint_ok' HI HL HD) as (ms & fs & E1 & Lm & E2).
  assert (Hne : infos <> []) by (pose proof (im_count HI) as C; destruct infos; discriminate).
  do 2 eexists. exists (flat_map (@dv T) (tl infos)). eexists. exists (flat_map (@dl T) (tl infos)). eexists.
  split; [exact E1|]. split; [exact E2|]. split; [exact (desc_limits_ok N [] Hne)|].
  intros po offs objs Ll Lf. split; [|split].
  - intros H. now apply (count_bad N HI HL offs fs Lm).
  - intros good o rest good' st o' -> HF Ho Hs.
    destruct (Nat.eq_dec (List.length (o_params po)) (List.length (sflat bs))) as [Lo|Lo]; [|now apply (count_bad N HI HL offs fs Lm)].
    destruct (setup_bad rest HF Ho Hs) as (l & El). exact (setup_fails HI HL offs fs Lm Lo Ll El Hs).
  - intros objs' Lo Hno HF. destruct (begin_ok HI HL fs Lm Lo Ll Lf (no_locals Hno) (setup_ok HF)) as (h & E & HJ).
    exists h. eexists. split; [exact E|]. split; [exact HJ|]. f_equal. clear.
    rewrite <- fold_symmetric; [reflexivity|intros; lia|intros; lia].
Qed.
Print Assumptions C85_start_partial.

(** If some image cannot be drawn, both programs stop with status -1. *)
Theorem C85_undrawable : forall (T : Type) bs imgs locs (infos : list (ImageInfo T)) psfs,
  Images bs imgs locs infos -> List.length psfs = List.length infos -> ~ Forall (Drawable bs) (combine psfs locs) ->
  image_models (shared_of bs) infos psfs = Ok (inl (-1)%Z).
Proof.
  intros T bs imgs locs infos psfs HI HL HD. destruct (im_model HI) as (Hne & HP).
  destruct (@image_models_ok T bs locs infos psfs Hne HP (im_plain HI) (im_single HI) (im_locals HI) HL) as ([z|ms] & E & H); destruct H as (H1 & H2).
  - subst z. exact E.
  - contradiction.
Qed.
Print Assumptions C85_undrawable.

(** As soon as an image has a function of its own, multimfit reads the values of the
    configuration file past their end. *)
Theorem C85_local_functions_refuted : forall (T : Type) (N : Num T) bs imgs locs (infos : list (ImageInfo T)) psfs po offs objs objs',
  Images bs imgs locs infos -> List.length psfs = List.length infos -> Forall (Drawable bs) (combine psfs locs) ->
  List.length (o_params po) = List.length (sflat bs) -> List.length (o_limits po) = List.length (o_params po) ->
  ~ Forall (fun l => l = []) locs -> Forall2 (fun o o' => FinalSetupForFitting N o = Ok (0%Z, o')) objs objs' ->
  exists ms j desc n descLimits lim,
    image_models (shared_of bs) infos psfs = Ok (inr ms) /\ joint_model (shared_of bs) ms = Ok (inr j) /\
    GetImageDescriptionParams_limits N infos [] = Ok (desc, n, descLimits, lim) /\
    begin_multimfit N j infos desc descLimits po offs objs = Undef.
Proof.
  intros T N bs imgs locs infos psfs po offs objs objs' HI HL HD Lo Ll Hno HF. destruct (joint_ok' HI HL HD) as (ms & fs & E1 & Lm & E2).
  assert (Hne : infos <> []) by (pose proof (im_count HI) as C; destruct infos; discriminate).
  do 2 eexists. exists (flat_map (@dv T) (tl infos)). eexists. exists (flat_map (@dl T) (tl infos)). eexists.
  split; [exact E1|]. split; [exact E2|]. split; [exact (desc_limits_ok N [] Hne)|].
  refine (begin_locals HI HL offs fs Lm Lo Ll _ (setup_ok HF)). intros Hf. apply Hno. pose proof (im_plain HI) as HP. clear -Hf HP.
  induction HP as [|l ls H _ IH]; constructor; cbn [flat_map] in Hf; apply app_eq_nil in Hf; destruct Hf as (F1 & F2); auto.
  destruct l as [|b l]; [reflexivity|]. discriminate F1.
Qed.
Print Assumptions C85_local_functions_refuted.

(** ---- C86 ---- *)
(** Fitting sections of the images only changes coordinates: with the start values that
    the solver gets, image [k] is given the description and the model that it would have
    without sections, with every centre moved by the origin of its own section. *)
Theorem C86_sections : forall bs imgs locs (infos : list (ImageInfo R)) psfs po offs objs objs' k buf,
  Images bs imgs locs infos -> List.length psfs = List.length infos -> Forall (Drawable bs) (combine psfs locs) ->
  Forall (fun l => l = []) locs -> o_params po = sflat bs -> List.length (o_limits po) = List.length (o_params po) ->
  List.length offs = List.length infos -> Forall (fun im => 0 < i_pix im)%R imgs ->
  Forall2 (fun o o' => FinalSetupForFitting NumR o = Ok (0%Z, o')) objs objs' ->
  k < List.length infos -> List.length buf = List.length (sflat bs) ->
  exists ms j desc n descLimits lim h dof,
    image_models (shared_of bs) infos psfs = Ok (inr ms) /\ joint_model (shared_of bs) ms = Ok (inr j) /\
    GetImageDescriptionParams_limits NumR infos [] = Ok (desc, n, descLimits, lim) /\
    begin_multimfit NumR j infos desc descLimits po offs objs = Ok (inr (h, dof, objs')) /\
    for_image_i NumR j (h_start h) k buf =
      Ok (fst (view imgs bs locs k),
          sflat (moved_by (IZR (fst (nth k offs (0, 0)%Z))) (IZR (snd (nth k offs (0, 0)%Z))) (snd (view imgs bs locs k)))).
Proof.
  intros bs imgs locs infos psfs po offs objs objs' k buf HI HL HD Hno Hpo Ll Lf Hp HF Hk Hb.
  destruct (@C85_start_partial R NumR bs imgs locs infos psfs HI HL HD) as (ms & j & desc & n & dls & lim & E1 & E2 & E3 & H).
  destruct (H po offs objs Ll Lf) as (_ & _ & H'). assert (Lo : List.length (o_params po) = List.length (sflat bs)) by (now rewrite Hpo).
  destruct (H' objs' Lo Hno HF) as (h & dof & E4 & HJ & _).
  exists ms, j, desc, n, dls, lim, h, dof. split; [exact E1|]. split; [exact E2|]. split; [exact E3|]. split; [exact E4|].
  destruct (joint_ok HI HL) as [(HN & _)|(_ & ms' & j' & E1' & E2' & _ & _ & _ & S)]; [contradiction|].
  rewrite E1 in E1'. injection E1' as <-. rewrite E2 in E2'. injection E2' as <-.
  destruct offs as [|o0 os]; [pose proof (im_count HI); cbn in Lf; lia|].
  assert (Los : List.length os = List.length imgs) by (pose proof (im_count HI); cbn in Lf; lia).
  assert (Es : h_start h = joint_vector (in_sections (o0 :: os) imgs) (moved_by (IZR (fst o0)) (IZR (snd o0)) bs) locs).
  { rewrite <- (start_vector bs o0 Los (no_locals Hno)). rewrite (jh_start _ _ _ _ _ _ _ HJ). unfold given_values. rewrite (desc_flat HI), Hpo. reflexivity. }
  rewrite Es.
  destruct (S (in_sections (o0 :: os) imgs) (moved_by (IZR (fst o0)) (IZR (snd o0)) bs) locs (sections_len o0 Los) (moved_shape _ _ bs) (shapes_refl locs)) as (_ & S').
  rewrite S'.
  - rewrite view_sections by (auto; pose proof (im_count HI); lia). reflexivity.
  - now apply sections_pix.
  - rewrite (Forall2_len (im_locals HI)). exact Hk.
  - rewrite (no_local k Hno). cbn [sflat map flat flat_map List.length]. rewrite Nat.add_0_r, Hb. apply shape_flat. apply moved_shape.
Qed.
Print Assumptions C86_sections.

(** ---- C87 ---- *)
(** [ImageStat o mv s]: the statistic of an image by itself *)
Theorem C87_statistic : forall bs imgs locs (infos : list (ImageInfo R)) psfs,
  Images bs imgs locs infos -> List.length psfs = List.length infos -> Forall (Drawable bs) (combine psfs locs) ->
  exists ms j, image_models (shared_of bs) infos psfs = Ok (inr ms) /\ joint_model (shared_of bs) ms = Ok (inr j) /\
  forall imgs' bs' locs' bufs create cash (l : list (mobj R * list R * R)),
    (** any other values of the parameters *)
    List.length imgs' = List.length imgs -> same_shape bs bs' -> Forall2 same_shape locs locs' -> Forall (fun im => 0 < i_pix im)%R imgs' ->
    Forall2 (fun buf loc => List.length buf = List.length (sflat bs') + List.length (sflat loc)) bufs locs' ->
    (** [l]: for each image, its object, its model image drawn for its own description
        and parameters, and its own fit statistic *)
    List.length l = List.length infos ->
    (forall k o mv s, nth_error l k = Some (o, mv, s) ->
        create k (fst (view imgs' bs' locs' k)) (sflat (snd (view imgs' bs' locs' k))) = Ok mv /\
        useCash o = cash /\ exists o', GetFitStatistic NumR o mv = Ok (o', s)) ->
    JointFitStatistic NumR create cash j (map (fun t => fst (fst t)) l) (joint_vector imgs' bs' locs') bufs = Ok (rsuml (map snd l)).
Proof.
  intros bs imgs locs infos psfs HI HL HD. destruct (joint_ok HI HL) as [(HN & _)|(_ & ms & j & E1 & E2 & _ & Ej & Lm & S)]; [contradiction|].
  exists ms, j. split; [exact E1|]. split; [exact E2|]. intros imgs' bs' locs' bufs create cash l Li Sb Sl Hp HB Lll Hl.
  destruct (S imgs' bs' locs' Li Sb Sl) as (_ & S'). specialize (S' Hp).
  assert (Ln : List.length locs' = List.length infos) by (rewrite <- (Forall2_len Sl); exact (Forall2_len (im_locals HI))).
  pose (pix k := nth k (map (fun t => snd (fst t)) l) []).
  assert (G : forall k, k < List.length locs' -> exists o mv s, nth_error l k = Some (o, mv, s) /\ pix k = mv).
  { intros k Hk. destruct (nth_error l k) as [((o, mv), s)|] eqn:E; [|apply nth_error_None in E; lia]. exists o, mv, s. split; [reflexivity|].
    unfold pix. apply nth_error_nth. rewrite nth_error_map, E. reflexivity. }
  rewrite (@stat_multi bs' imgs' locs' j (joint_vector imgs' bs' locs') bufs create pix); [| | exact S'|exact HB| |].
  - rewrite <- (@pix_map pix (List.length locs') (map (fun t => snd (fst t)) l)).
    + rewrite (@multi_stat R NumR cash l).
      * f_equal. change (nadd NumR) with Rplus. rewrite fold_left_rsuml. apply Rplus_0_l.
      * apply Forall_forall. intros ((o, mv), s) Hin. apply In_nth_error in Hin. destruct Hin as (k & Hk). destruct (Hl _ _ _ _ Hk) as (_ & Hc & Hg). auto.
    + rewrite map_length. lia.
    + intros k Hk. destruct (G k Hk) as (o & mv & s & En & ->). rewrite nth_error_map, En. reflexivity.
  - rewrite Ej, Lm. exact (Forall2_len Sl).
  - intros k Hk. destruct (G k Hk) as (o & mv & s & En & ->). exact (proj1 (Hl _ _ _ _ En)).
  - rewrite map_length. lia.
Qed.
Print Assumptions C87_statistic.

(** The deviates of a joint fit (without bootstrap) are those of the images, one after the
    other. *)
Theorem C87_deviates : forall bs imgs locs (infos : list (ImageInfo R)) psfs,
  Images bs imgs locs infos -> List.length psfs = List.length infos -> Forall (Drawable bs) (combine psfs locs) ->
  exists ms j, image_models (shared_of bs) infos psfs = Ok (inr ms) /\ joint_model (shared_of bs) ms = Ok (inr j) /\
  forall imgs' bs' locs' bufs create (l : list (setup R * mobj R * list R * list R)) y,
    List.length imgs' = List.length imgs -> same_shape bs bs' -> Forall2 same_shape locs locs' -> Forall (fun im => 0 < i_pix im)%R imgs' ->
    Forall2 (fun buf loc => List.length buf = List.length (sflat bs') + List.length (sflat loc)) bufs locs' ->
    (** [l]: for each image, its input, its object, its model image drawn for its own
        description and parameters, and its own deviates *)
    List.length l = List.length infos ->
    (forall k s o mv d, nth_error l k = Some (s, o, mv, d) ->
        create k (fst (view imgs' bs' locs' k)) (sflat (snd (view imgs' bs' locs' k))) = Ok mv /\
        well_formed NumR s /\ List.length mv = model_size s /\ (exists st, prepare NumR s = Ok (st, o)) /\
        exists y o', List.length y = npix s /\ ComputeDeviates NumR o mv y 0 = Ok (o', d)) ->
    List.length y = fold_right (fun t a => npix (fst (fst (fst t))) + a) 0 l ->
    JointDeviates NumR create j (map (fun t => snd (fst (fst t))) l) (joint_vector imgs' bs' locs') bufs y = Ok (List.concat (map snd l)).
Proof.
  intros bs imgs locs infos psfs HI HL HD. destruct (joint_ok HI HL) as [(HN & _)|(_ & ms & j & E1 & E2 & _ & Ej & Lm & S)]; [contradiction|].
  exists ms, j. split; [exact E1|]. split; [exact E2|]. intros imgs' bs' locs' bufs create l y Li Sb Sl Hp HB Lll Hl Ly.
  destruct (S imgs' bs' locs' Li Sb Sl) as (_ & S'). specialize (S' Hp).
  assert (Ln : List.length locs' = List.length infos) by (rewrite <- (Forall2_len Sl); exact (Forall2_len (im_locals HI))).
  pose (pix k := nth k (map (fun t => snd (fst t)) l) []).
  assert (G : forall k, k < List.length locs' -> exists s o mv d, nth_error l k = Some (s, o, mv, d) /\ pix k = mv).
  { intros k Hk. destruct (nth_error l k) as [(((s, o), mv), d)|] eqn:E; [|apply nth_error_None in E; lia]. exists s, o, mv, d. split; [reflexivity|].
    unfold pix. apply nth_error_nth. rewrite nth_error_map, E. reflexivity. }
  rewrite (@dev_multi bs' imgs' locs' j (joint_vector imgs' bs' locs') bufs create pix); [| |exact S'|exact HB| |].
  - rewrite <- (@pix_map pix (List.length locs') (map (fun t => snd (fst t)) l)).
    + apply multi_dev; [ | |..|exact Ly].
      * cbn. apply Rltb_true. lra.
      * cbn. destruct (Rltb 0 0) eqn:E; [apply Rltb_true in E; lra|reflexivity].
      * apply Forall_forall. intros (((s, o), mv), d) Hin. apply In_nth_error in Hin. destruct Hin as (k & Hk). destruct (Hl _ _ _ _ _ Hk) as (_ & H). exact H.
    + rewrite map_length. lia.
    + intros k Hk. destruct (G k Hk) as (s & o & mv & d & En & ->). rewrite nth_error_map, En. reflexivity.
  - rewrite Ej, Lm. exact (Forall2_len Sl).
  - intros k Hk. destruct (G k Hk) as (s & o & mv & d & En & ->). exact (proj1 (Hl _ _ _ _ _ En)).
  - rewrite map_length. lia.
Qed.
Print Assumptions C87_deviates.

(** ---- C88 ---- *)
(** makemultimages stops with status -1 unless the number of parameters is right, and
    otherwise saves, for every image, the model image of its own description and
    parameters (those of its own functions included) as <root>_<number>.fits. *)
Theorem C88_images_partial : forall bs imgs locs (infos : list (ImageInfo R)) psfs,
  Images bs imgs locs infos -> List.length psfs = List.length infos -> Forall (Drawable bs) (combine psfs locs) ->
  exists ms j desc n,
    image_models (shared_of bs) infos psfs = Ok (inr ms) /\ joint_model (shared_of bs) ms = Ok (inr j) /\
    GetImageDescriptionParams NumR infos = Ok (desc, n) /\
    (forall po, List.length (o_params po) <> List.length (sflat bs) -> makemulti_params NumR j infos desc po = Ok (inl (-1)%Z)) /\
    forall po bufs create pix dec root, o_params po = sflat bs -> Forall (fun im => 0 < i_pix im)%R imgs ->
      Forall2 (fun buf loc => List.length buf = List.length (sflat bs) + List.length (sflat loc)) bufs locs ->
      (forall k, k < List.length infos -> create k (fst (view imgs bs locs k)) (sflat (snd (view imgs bs locs k))) = Ok (pix k)) ->
      c_str root = root -> (forall k, k < List.length infos -> List.length (root ++ lit "_" ++ dec k ++ lit ".fits") < 1024) ->
      exists v, makemulti_params NumR j infos desc po = Ok (inr v) /\
        makemulti_images NumR create dec root j v bufs =
          Ok (map (fun k => (root ++ lit "_" ++ dec k ++ lit ".fits", pix k)) (seq 0 (List.length infos))).
Proof.
  intros bs imgs locs infos psfs HI HL HD. destruct (joint_ok HI HL) as [(HN & _)|(_ & ms & j & E1 & E2 & _ & Ej & Lm & S)]; [contradiction|].
  assert (Hne : infos <> []) by (pose proof (im_count HI) as C; destruct infos; discriminate).
  exists ms, j, (flat_map (@dv R) (tl infos)). eexists. split; [exact E1|]. split; [exact E2|]. split; [exact (desc_params NumR Hne)|].
  destruct (S imgs bs locs eq_refl (shape_refl bs) (shapes_refl locs)) as (En & S').
  assert (Ed : flat_map (@dv R) (tl infos) = img_flat imgs) by exact (desc_flat HI).
  split.
  - intros po Hn. rewrite make_params, En, (locals_flat HI), Ed. unfold joint_vector. rewrite !app_length.
    match goal with |- context [(?a =? ?b)%nat] => destruct (Nat.eqb_spec a b); [lia|reflexivity] end.
  - intros po bufs create pix dec root Hpo Hp HB Hd Hr Hs. exists (joint_vector imgs bs locs).
    split.
    + rewrite make_params, En, (locals_flat HI), Ed, Hpo. unfold joint_vector. rewrite !app_length, Nat.add_assoc, Nat.eqb_refl. reflexivity.
    + assert (Ln : List.length locs = List.length infos) by exact (Forall2_len (im_locals HI)).
      rewrite <- Ln in *. eapply draw_files; eauto. rewrite Ej. exact Lm.
Qed.
Print Assumptions C88_images_partial.

(** Two functions of its own in one block of an image: both programs read the list of
    block starts past its end. *)
Theorem C88_two_local_refuted : forall (T : Type) (bs : list (sblock T)) (p : perImage_ T) (info : ImageInfo T) psf,
  i_perImage info = Some p -> List.length (pi_starts p) < List.length (pi_names p) -> List.length (pi_labels p) = List.length (pi_names p) ->
  image_models (shared_of bs) [info] [psf] = Undef.
Proof.
  intros T bs p info psf Hi Hs Hl. unfold image_models, for_. cbn [List.length for_from].
  assert (G1 : get [info] 0 = Ok info) by reflexivity. assert (G2 : get [psf] 0 = Ok psf) by reflexivity. rewrite G1, G2. cbn [bind].
  assert (E : image_functions (shared_of bs) info = Undef).
  { unfold image_functions. rewrite Hi. revert Hs. unfold for_.
    assert (K : forall n k st, k + n = List.length (pi_names p) -> k <= List.length (pi_starts p) -> List.length (pi_starts p) < List.length (pi_names p) ->
      for_from k n (fun j '(names, labels, starts) => do nm <- get (pi_names p) j; do lb <- get (pi_labels p) j; do st <- get (pi_starts p) j;
        Ok (names ++ [nm], labels ++ [lb], starts ++ [List.length (g_names (shared_of bs)) + st])) st = Undef).
    { induction n as [|n IH]; intros k ((a, b), c) Hk Hks Hss; [lia|]. cbn [for_from].
      destruct (@get_lt _ (pi_names p) k) as (nm & ->); [lia|]. destruct (@get_lt _ (pi_labels p) k) as (lb & ->); [lia|]. cbn [bind].
      destruct (Nat.eq_dec k (List.length (pi_starts p))) as [->|Hne].
      - assert (G : get (pi_starts p) (List.length (pi_starts p)) = Undef) by (unfold get; rewrite (proj2 (nth_error_None _ _)) by lia; reflexivity).
        rewrite G. reflexivity.
      - destruct (@get_lt _ (pi_starts p) k) as (st & ->); [lia|]. cbn [bind]. apply IH; lia. }
    intros Hs'. apply K; lia. }
  rewrite E. reflexivity.
Qed.
Print Assumptions C88_two_local_refuted.

(** ---- a case that meets the hypotheses: two images, the second with a sky of its own ---- *)
Definition exB : list (sblock R) :=
  [mkSblock 50%R 60%R [mkSfunc (lit "Exponential") (lit "disk") [] [45%R; 0.3%R; 10%R; 12%R]];
   mkSblock 80%R 20%R [mkSfunc (lit "Sersic") [] [] [0%R; 0.1%R; 4%R; 1%R; 3%R]]].
Definition exL : list (sblock R) := [mkSblock 1%R 1%R [mkSfunc (lit "FlatSky") [] [] [7%R]]].
Definition exI : imgpar R := Params_Spec.mkImg 2%R 30%R 1.5%R 110%R 125%R.
Definition exP : mp_par R := mkPar false false false 0%R 0%R.
Definition ex_info (l : list (sblock R)) : ImageInfo R :=
  mkInfo (Some (lit "a.fits")) None true None 0 None 1%R 1%R 0%R 0%R 1%R 1 110%R 125%R 200 200 2%R 1.5%R 30%R [] [] []
    (match l with [] => None | _ => Some (mkPerImage (map s_name (sall l)) (map s_label (sall l)) (sstarts l) (sflat l) false (map (fun _ => exP) (sflat l))) end)
    exP exP exP exP exP.

Lemma ex_sized n (vs : list R) : match find_class classes n with Some c => Nat.eqb (List.length vs) (List.length (c_params c)) | None => false end = true ->
  exists c, In c classes /\ c_name c = n /\ List.length vs = List.length (c_params c).
Proof.
  intros H. destruct (find_class classes n) as [c|] eqn:E; [|discriminate]. exists c. apply find_class_sound in E. destruct E.
  apply Nat.eqb_eq in H. auto.
Qed.
Lemma ex_known n : match find_class classes n with Some c => true | None => false end = true -> Known n.
Proof. intros H. destruct (find_class classes n) as [c|] eqn:E; [|discriminate]. exists c. exact (find_class_sound E). Qed.
Lemma ex_plain : Forall Plain exB /\ Forall Plain exL.
Proof.
  split; repeat constructor; try discriminate; apply ex_sized; vm_compute; reflexivity.
Qed.
Lemma ex_images l : l = [] \/ l = exL -> Images exB [exI] [[]; l] [ex_info []; ex_info l] /\ Forall (Drawable exB) (combine [None; None] [[]; l]).
Proof.
  intros Hl. split.
  - constructor.
    + split; [discriminate|exact (proj1 ex_plain)].
    + constructor; [reflexivity|]. constructor; [|constructor]. destruct Hl as [-> | ->]; [reflexivity|]. cbn. repeat split.
    + constructor; [constructor|]. constructor; [|constructor]. destruct Hl as [-> | ->]; [constructor|exact (proj2 ex_plain)].
    + constructor; [constructor|]. constructor; [|constructor]. destruct Hl as [-> | ->]; [constructor|]. constructor; [|constructor]. eexists. reflexivity.
    + reflexivity.
    + constructor; [|constructor]. repeat split.
  - assert (D : forall l', l' = [] \/ l' = exL -> Drawable exB (None, l')).
    { intros l' H. split.
      - cbn [snd]. destruct H as [-> | ->]; repeat apply Forall_cons; try apply Forall_nil; (split; [apply ex_known; vm_compute; reflexivity|left; reflexivity]).
      - intros H'. exfalso. destruct H as [-> | ->]; cbn in H'; repeat (inversion H' as [? ? HP|? ? H'']; subst; clear H'; [destruct HP as [HP|HP]; discriminate HP|rename H'' into H']); inversion H'. }
    constructor; [apply D; left; reflexivity|]. constructor; [apply D; exact Hl|constructor].
Qed.
Example C85_case : Images exB [exI] [[]; []] [ex_info []; ex_info []] /\ Forall (Drawable exB) (combine [None; None] [[]; []]) /\
  Images exB [exI] [[]; exL] [ex_info []; ex_info exL] /\ Forall (Drawable exB) (combine [None; None] [[]; exL]) /\
  ~ Forall (fun l => l = []) [[]; exL] /\ Forall (fun im => 0 < i_pix im)%R [exI] /\
  exists o o', FinalSetupForFitting NumR o = Ok (0%Z, o').
Proof.
  destruct (ex_images [] (or_introl eq_refl)) as (H1 & H2). destruct (ex_images exL (or_intror eq_refl)) as (H3 & H4).
  split; [exact H1|]. split; [exact H2|]. split; [exact H3|]. split; [exact H4|]. split; [|split].
  - intros H. inversion H as [|? ? _ H']. inversion H'. discriminate.
  - constructor; [cbn; lra|constructor].
  - destruct C28_negative_data_refuted as (s & o & mv & o1 & o2 & dev & f & _ & _ & E & _). unfold prepare in E.
    destruct (SetupModelObject NumR s) as [o0| | |]; [|discriminate|discriminate|discriminate]. exists o0, o. exact E.
Qed.
(** the second image of the example: twice as many pixels, turned by 30 degrees; the
    first centre is where the image says, the second 30 and -40 reference pixels away *)
Example C87_case : view [exI] exB [[]; exL] 1 =
  ((2, 30, 1.5)%R, [mkSblock 110%R 125%R [mkSfunc (lit "Exponential") (lit "disk") [] [45%R; 0.3%R; 10%R; 12%R]];
     mkSblock (110 + 2 * (30 * cos (rad 30) + (-40) * sin (rad 30)))%R (125 + 2 * (- 30 * sin (rad 30) + (-40) * cos (rad 30)))%R
       [mkSfunc (lit "Sersic") [] [] [0%R; 0.1%R; 4%R; 1%R; 3%R]]] ++ exL).
Proof.
  unfold view. cbn [nth_error exI nth]. unfold seen_in, exB. cbn [map s_x s_y s_funcs i_pix i_rot i_flux i_x i_y]. unfold place. cbn [fst snd].
  replace (50 - 50)%R with 0%R by ring. replace (60 - 60)%R with 0%R by ring. replace (80 - 50)%R with 30%R by ring. replace (20 - 60)%R with (-40)%R by ring.
  cbn [app]. f_equal. f_equal. f_equal; cbn [exI i_x i_y i_pix i_rot]; ring.
Qed.
Example C88_case : exists p : perImage_ R, List.length (pi_starts p) < List.length (pi_names p) /\ List.length (pi_labels p) = List.length (pi_names p).
Proof. exists (mkPerImage [lit "FlatSky"; lit "Exponential"] [[]; []] [0] [] false []). cbn. lia. Qed.
