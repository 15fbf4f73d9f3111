(** C91: the table of bootstrap results that multimfit saves. *)
From Coq Require Import Ascii String List ZArith Reals Lra Lia.
From Verif Require Import Base Num StrUtil_Model StrUtil_Spec Config_Spec Config_Model ImgPar_Model Params_Spec Build_Model Save_Model.
From Verif Require Import Save_Spec Build_Spec Build_Proof Save_Proof Save_Final Table_Spec Table_Proof Multi_Model Multi_Spec Multi_Proof Multi_FilesSpec Multi_Files
  Params_Proof Multi_RowsSpec Multi_Rows Props_Table Props_Multi Props_MultiFiles.
Import ListNotations.
Local Open Scope list_scope.

(** With two images or more the header is "#" and five names per further image, then the
    names of the columns of the model of the first image; a row has the values of the
    descriptions, then those of the shared model, centres in coordinates of the full first
    image. If the first image has no functions of its own there is a name for every value;
    if no image has, there is a value for every parameter of the fit. *)
Theorem C91_table_partial : forall (T : Type) (N : Num T) (g10 : T -> str) (dec : nat -> str) (sep : str)
    (bs : list (sblock T)) imgs locs (infos : list (ImageInfo T)) psfs,
  Images bs imgs locs infos -> List.length psfs = List.length infos -> Forall (Drawable bs) (combine psfs locs) ->
  DecOK dec -> ShowOK g10 -> SepOK sep ->
  (Z.of_nat (List.length infos) <= 2 ^ 31 - 1)%Z -> (Z.of_nat (List.length (sall (bs ++ nth 0 locs []))) <= 2 ^ 31 - 1)%Z ->
  imgs <> [] ->
  exists ms j, image_models (shared_of bs) infos psfs = Ok (inr ms) /\ joint_model (shared_of bs) ms = Ok (inr j) /\
  forall imgs' bs' locs' o0 offs, List.length imgs' = List.length imgs -> Refitted bs bs' -> Forall2 Refitted locs locs' ->
  let names := flat_map (image_cols dec) (seq 2 (List.length imgs)) ++ columns dec (bs ++ nth 0 locs []) in
  let values := img_flat imgs' ++ map fst (shown (nadd N) (nofZ N (fst o0)) (nofZ N (snd o0)) bs') in
  exists h r, JointParamHeader dec j = Ok h /\ JointHorizontalString N g10 j (o0 :: offs) (joint_vector imgs' bs' locs') sep = Ok r /\
    Tokens Blank h (lit "#" :: names) /\ Tokens Blank r (map g10 values) /\
    (nth 0 locs [] = [] -> List.length names = List.length values) /\
    (Forall (fun l => l = []) locs -> List.length values = List.length (joint_vector imgs' bs' locs')).
Proof.
  intros T N g10 dec sep bs imgs locs infos psfs HI HL HDr HD HS HP Hs1 Hs2 Hne.
  destruct (joint_table N HI HL HDr HD HS HP Hs1 Hs2) as (ms & j & E1 & E2 & h & Eh & Wh & H).
  exists ms, j. split; [exact E1|]. split; [exact E2|]. intros imgs' bs' locs' o0 offs Li RB RL names values.
  destruct (H imgs' bs' locs' o0 offs Li RB) as (r & Er & Wr). exists h, r. split; [exact Eh|]. split; [exact Er|]. split; [exact Wh|].
  destruct imgs' as [|im imgs']; [destruct imgs; [congruence|discriminate]|].
  split; [|split].
  - unfold values. rewrite map_app, map_map. exact Wr.
  - intros E0. unfold names, values. rewrite E0, app_nil_r, !app_length, im_cols_len, map_length, img_flat_length, Li.
    rewrite (columns_length dec (nofZ N (fst o0)) (nofZ N (snd o0)) (nadd N)) by (apply plain_sized; exact (proj2 (im_model HI))).
    rewrite (refit_shown (nadd N) (nofZ N (fst o0)) (nofZ N (snd o0)) (nofZ N (fst o0)) (nofZ N (snd o0)) RB). unfold Params_Model.N_IMAGE_PARAMS. lia.
  - intros E0. unfold values, joint_vector. rewrite !app_length, map_length, shown_flat.
    assert (Ez : flat_map sflat locs' = []).
    { clear - E0 RL. induction RL as [|l l' a b R _ IH]; [reflexivity|]. inversion E0; subst. inversion R; subst. cbn. apply IH. assumption. }
    rewrite Ez. cbn [List.length]. lia.
Qed.
Print Assumptions C91_table_partial.

(** Refuted: with a single image every row has one value more than there are columns. The
    x coordinate of the first centre comes twice, first as it is in the fitted section. *)
Theorem C91_single_refuted : forall (T : Type) (N : Num T) (g10 : T -> str) (dec : nat -> str) (sep : str)
    (bs : list (sblock T)) (info : ImageInfo T) psf,
  Images bs [] [[]] [info] -> Drawable bs (psf, []) ->
  DecOK dec -> ShowOK g10 -> SepOK sep -> (Z.of_nat (List.length (sall bs)) <= 2 ^ 31 - 1)%Z ->
  exists ms j h, image_models (shared_of bs) [info] [psf] = Ok (inr ms) /\ joint_model (shared_of bs) ms = Ok (inr j) /\
    JointParamHeader dec j = Ok h /\ Tokens Blank h (lit "#" :: columns dec bs) /\
    forall bs' o0, Refitted bs bs' ->
    exists b r, hd_error bs' = Some b /\ JointHorizontalString N g10 j [o0] (joint_vector [] bs' [[]]) sep = Ok r /\
      let values := map fst (shown (nadd N) (nofZ N (fst o0)) (nofZ N (snd o0)) bs') in
      Tokens Blank r (g10 (s_x b) :: map g10 values) /\ List.length values = List.length (columns dec bs).
Proof.
  intros T N g10 dec sep bs info psf HI HDr HD HS HP Hs.
  destruct (@joint_table T N g10 dec sep bs [] [[]] [info] [psf] HI eq_refl) as (ms & j & E1 & E2 & h & Eh & Wh & H); auto.
  { constructor; [exact HDr|constructor]. }
  { cbn. lia. }
  { cbn [nth]. now rewrite app_nil_r. }
  cbn [List.length seq flat_map nth app] in Wh. rewrite app_nil_r in Wh.
  exists ms, j, h. split; [exact E1|]. split; [exact E2|]. split; [exact Eh|]. split; [exact Wh|].
  intros bs' o0 RB. destruct (H [] bs' [[]] o0 [] eq_refl RB) as (r & Er & Wr).
  destruct bs' as [|b bs']; [inversion RB; subst; destruct (im_model HI) as (Q & _); congruence|].
  exists b, r. split; [reflexivity|]. split; [exact Er|]. split.
  - rewrite map_map. exact Wr.
  - rewrite map_length, <- (refit_shown (nadd N) (nofZ N (fst o0)) (nofZ N (snd o0)) (nofZ N (fst o0)) (nofZ N (snd o0)) RB).
    symmetry. apply columns_length, plain_sized. exact (proj2 (im_model HI)).
Qed.
Print Assumptions C91_single_refuted.

(** Refuted: the functions of single images. If the first image has its own, the header
    names their parameters but no row has their values; parameters of the others are in
    neither. *)
Theorem C91_own_refuted : forall (T : Type) (N : Num T) (g10 : T -> str) (dec : nat -> str) (sep : str)
    (bs : list (sblock T)) imgs locs (infos : list (ImageInfo T)) psfs,
  Images bs imgs locs infos -> List.length psfs = List.length infos -> Forall (Drawable bs) (combine psfs locs) ->
  DecOK dec -> ShowOK g10 -> SepOK sep ->
  (Z.of_nat (List.length infos) <= 2 ^ 31 - 1)%Z -> (Z.of_nat (List.length (sall (bs ++ nth 0 locs []))) <= 2 ^ 31 - 1)%Z ->
  imgs <> [] -> nth 0 locs [] <> [] ->
  exists ms j h names, image_models (shared_of bs) infos psfs = Ok (inr ms) /\ joint_model (shared_of bs) ms = Ok (inr j) /\
    JointParamHeader dec j = Ok h /\ Tokens Blank h (lit "#" :: names) /\
    forall imgs' bs' locs' o0 offs, List.length imgs' = List.length imgs -> Refitted bs bs' ->
    exists r words, JointHorizontalString N g10 j (o0 :: offs) (joint_vector imgs' bs' locs') sep = Ok r /\ Tokens Blank r words /\
      List.length words + 2 <= List.length names.
Proof.
  intros T N g10 dec sep bs imgs locs infos psfs HI HL HDr HD HS HP Hs1 Hs2 Hne H0.
  destruct (joint_table N HI HL HDr HD HS HP Hs1 Hs2) as (ms & j & E1 & E2 & h & Eh & Wh & H).
  exists ms, j, h. eexists. split; [exact E1|]. split; [exact E2|]. split; [exact Eh|]. split; [exact Wh|].
  intros imgs' bs' locs' o0 offs Li RB. destruct (H imgs' bs' locs' o0 offs Li RB) as (r & Er & Wr). eexists r, _. split; [exact Er|]. split; [exact Wr|].
  destruct imgs' as [|im imgs']; [destruct imgs; [congruence|discriminate]|].
  assert (HS0 : Forall Sized (sall (bs ++ nth 0 locs []))).
  { apply plain_sized, Forall_app. split; [exact (proj2 (im_model HI))|]. pose proof (im_plain HI) as Q. destruct locs; [constructor|]. inversion Q; auto. }
  unfold row_values. rewrite !app_length, !map_length, im_cols_len, img_flat_length, Li.
  rewrite (columns_length dec (nofZ N 0) (nofZ N 0) (nadd N) HS0), shown_app, app_length.
  rewrite (refit_shown (nadd N) (nofZ N 0) (nofZ N 0) (nofZ N (fst o0)) (nofZ N (snd o0)) RB).
  destruct (nth 0 locs []) as [|b l]; [congruence|]. cbn [shown flat_map app List.length]. unfold Params_Model.N_IMAGE_PARAMS. lia.
Qed.
Print Assumptions C91_own_refuted.

(** Refuted: rows do not depend on the sections of further images, so their centres are in
    coordinates of the fitted sections, unlike those of the model. *)
Theorem C91_sections_refuted : forall (T : Type) (N : Num T) (g10 : T -> str) j o0 (offs offs' : list (Z * Z)) (params : list T) sep,
  JointHorizontalString N g10 j (o0 :: offs) params sep = JointHorizontalString N g10 j (o0 :: offs') params sep.
Proof. reflexivity. Qed.
Print Assumptions C91_sections_refuted.

(** ---- the hypotheses can be met ---- *)
Example C91_case : Images exB [exI] [[]; []] [ex_info []; ex_info []] /\ Forall (Drawable exB) (combine [None; None] [[]; []]) /\
  DecOK decN /\ ShowOK showR /\ SepOK TAB /\
  (Z.of_nat (List.length (sall (exB ++ nth 0 [[]; []] []))) <= 2 ^ 31 - 1)%Z /\
  flat_map (image_cols decN) (seq 2 1) ++ columns decN (exB ++ []) =
    map lit ["PIXEL_SCALE_IM_2"; "IMAGE_PA_IM_2"; "FLUX_SCALE_IM_2"; "X0_IM_2"; "Y0_IM_2";
             "X0_1"; "Y0_1"; "PA_1"; "ell_1"; "I_0_1"; "h_1"; "X0_2"; "Y0_2"; "PA_2"; "ell_2"; "n_2"; "I_e_2"; "r_e_2"]%string.
Proof.
  destruct (ex_images [] (or_introl eq_refl)) as (H1 & H2). split; [exact H1|]. split; [exact H2|].
  pose proof C68_hyp_example as (A & B & C & _). split; [exact A|]. split; [exact B|]. split; [exact C|].
  split; [cbn; lia|vm_compute; reflexivity].
Qed.
Example C91_single_case : Images exL [] [[]] [ex_info []] /\ Drawable exL (None, []).
Proof.
  destruct skyImages as (HI & HD). split.
  - constructor; [exact (im_model HI)| | | |reflexivity|constructor].
    + constructor; [reflexivity|constructor].
    + constructor; constructor.
    + constructor; constructor.
  - inversion HD; assumption.
Qed.
Example C91_own_case : Images exL [exI] [exL; []] [ex_info exL; ex_info []] /\ Forall (Drawable exL) (combine [None; None] [exL; []]) /\ nth 0 [exL; []] [] <> [].
Proof.
  destruct skyImages as (HI & HD). split; [|split; [|discriminate]].
  - constructor; [exact (im_model HI)| | | |reflexivity|exact (im_descr HI)].
    + constructor; [repeat split|]. constructor; [reflexivity|constructor].
    + constructor; [exact (proj2 ex_plain)|]. constructor; constructor.
    + constructor; [|constructor; constructor]. constructor; [eexists; reflexivity|constructor].
  - inversion HD as [|? ? D HD']; subst. constructor; [|exact HD']. split.
    + cbn [snd]. repeat apply Forall_cons; try apply Forall_nil; (split; [apply ex_known; vm_compute; reflexivity|left; reflexivity]).
    + intros H'. exfalso. cbn in H'. repeat (inversion H' as [? ? HP|? ? H'']; subst; clear H'; [destruct HP as [HP|HP]; discriminate HP|rename H'' into H']); inversion H'.
Qed.
