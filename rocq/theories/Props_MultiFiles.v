(** C90: the configuration files that multimfit saves for the single images. *)
From Coq Require Import ZArith List Bool Ascii String Reals Lra Lia.
From Verif Require Import Base Num StrUtil_Model StrUtil_Spec StrUtil_Proof Config_Model Config_Spec ConfigL_Spec ImgPar_Model Params_Model Params_Spec Func_Model
  Build_Model Save_Model Save_Spec Build_Spec Build_Proof Save_Proof Save_Final Save_Printf Props_Save Multi_Model Multi_Spec Multi_Proof Multi_Draw Multi_TextSpec Multi_Text
  Props_Multi Props_MultiText Multi_FilesSpec Multi_Files.
Import ListNotations.
Local Open Scope list_scope.

(** When every image can be drawn, and whatever values the fit ends with, one file is
    saved for every image, under a name made of the root and the number of the image.
    Read as a configuration file it has the functions of the model followed by those of
    that image, and their parameters to the precision printed; the centres are where that
    image shows them, in the coordinates of its full file. *)
Theorem C90_files_partial : forall bs imgs locs (infos : list (ImageInfo R)) psfs,
  Images bs imgs locs infos -> List.length psfs = List.length infos -> Forall (Drawable bs) (combine psfs locs) ->
  exists ms j, image_models (shared_of bs) infos psfs = Ok (inr ms) /\ joint_model (shared_of bs) ms = Ok (inr j) /\
  forall imgs' bs' locs' (finite : R -> Prop) (f4 g g5 : R -> str) (dec : nat -> str) (strtod : str -> R) (IsNumeric : str -> bool)
         (bufs : list (list R)) (offs : list (Z * Z)) (files : list str) (root : str) (header : list str),
    List.length imgs' = List.length imgs -> Refitted bs bs' -> Forall2 Refitted locs locs' ->
    Forall (fun im => 0 < i_pix im)%R imgs' ->
    Forall2 (fun buf loc => List.length buf = List.length (sflat bs') + List.length (sflat loc)) bufs locs' ->
    PrintfOK (fun r => r) finite f4 g g5 -> AcceptsDecimals IsNumeric ->
    List.length offs = List.length infos -> List.length files = List.length infos -> Forall OneLine files -> Forall Comment header ->
    OneLine root -> (List.length root < 400) -> (forall k, k <= List.length infos -> List.length (dec k) < 400) ->
    let w k := snd (view imgs' bs' locs' k) in
    let ox k := IZR (fst (nth k offs (0, 0)%Z)) in
    let oy k := IZR (snd (nth k offs (0, 0)%Z)) in
    (forall k, k < List.length infos -> GoodModel (w k) /\ AllFinite finite Rplus (ox k) (oy k) (w k)) ->
    exists out, SaveMultImageParameters NumR f4 g g5 dec j offs files (joint_vector imgs' bs' locs') bufs root header = Ok out /\
      List.length out = List.length infos /\
      forall k name txt, nth_error out k = Some (name, txt) ->
        name = match k with
               | O => root ++ list_ascii_of_string "_refimage.dat"
               | S _ => root ++ list_ascii_of_string "_image" ++ dec (k + 1) ++ list_ascii_of_string ".dat"
               end /\
        exists po, ReadConfigFile_full NumR strtod IsNumeric (file_lines txt) true [] = Ok (0%Z, Some (po, [])) /\
          ReadBack (fun r => r) Rplus 0%R strtod (ox k) (oy k) (w k) po.
Proof.
  intros bs imgs locs infos psfs HI HL HD. destruct (joint_ok HI HL) as [(HN & _)|(_ & ms & j & E1 & E2 & HB & Ej & Lm & S)]; [contradiction|].
  exists ms, j. split; [exact E1|]. split; [exact E2|].
  intros imgs' bs' locs' finite f4 g g5 dec sd isn bufs offs files root header Li Rb Rl Hp HBuf PF HA Lo Lf HO HH Hr Lr Ld w ox oy HG.
  destruct (S imgs' bs' locs' Li (refit_shape Rb) (refits_shape Rl)) as (_ & S').
  refine (@files_saved finite f4 g g5 dec PF bs imgs locs infos psfs HI HL imgs' bs' locs' Li Rb Rl ms j bufs offs files root header sd isn HB Ej Lm (S' Hp) HBuf Lo Lf HO HH HA _ _ HG).
  - apply Multi_Text.c_str_id, OneLine_NoNul. exact Hr.
  - intros [|k] Hk; unfold file_name; rewrite !app_length; cbn [List.length lit list_ascii_of_string]; [lia|].
    specialize (Ld (Datatypes.S k + 1)). lia.
Qed.
Print Assumptions C90_files_partial.

(** ---- a case ---- *)
Lemma skyImages : Images exL [exI] [[]; []] [ex_info []; ex_info []] /\ Forall (Drawable exL) (combine [None; None] [[]; []]).
Proof.
  split.
  - constructor.
    + split; [discriminate|exact (proj2 ex_plain)].
    + constructor; [reflexivity|]. constructor; [reflexivity|constructor].
    + constructor; [constructor|]. constructor; constructor.
    + constructor; [constructor|]. constructor; constructor.
    + reflexivity.
    + constructor; [|constructor]. repeat split.
  - assert (D : Drawable exL (None, [])).
    { split.
      - cbn [snd]. repeat apply Forall_cons; try apply Forall_nil; (split; [apply ex_known; vm_compute; reflexivity|left; reflexivity]).
      - intros H'. exfalso. cbn in H'. inversion H' as [? ? HP|? ? H'']; subst; [destruct HP as [HP|HP]; discriminate HP|inversion H'']. }
    constructor; [exact D|]. constructor; [exact D|constructor].
Qed.
Lemma skyView k : k < 2 -> snd (view [exI] exL [[]; []] k) = [mkSblock (if Nat.eqb k 0 then 1 else 110)%R (if Nat.eqb k 0 then 1 else 125)%R (s_funcs (hd (mkSblock 0 0 []) exL))]%R.
Proof.
  intros Hk. destruct k as [|[|k]]; [reflexivity| |lia]. cbn [view nth_error exI nth seen_in exL map snd app s_x s_y s_funcs hd Nat.eqb]. unfold place. cbn [fst snd i_x i_y i_pix i_rot exI].
  f_equal. f_equal; ring.
Qed.
Lemma skyGood k : k < 2 -> GoodModel (snd (view [exI] exL [[]; []] k)) /\
  AllFinite moderate Rplus (IZR (fst (nth k [(0, 0); (9, 0)]%Z (0, 0)%Z))) (IZR (snd (nth k [(0, 0); (9, 0)]%Z (0, 0)%Z))) (snd (view [exI] exL [[]; []] k)).
Proof.
  intros Hk. rewrite (skyView k Hk). split.
  - split; [discriminate|]. split; [constructor; [discriminate|constructor]|].
    constructor; [|constructor]. split; [apply ex_sized; vm_compute; reflexivity|]. split; [left; reflexivity|]. split; constructor.
  - assert (M : forall x n, x = IZR n -> (1 <= n < 10 ^ 10)%Z -> moderate x) by (intros x n -> H; now apply mod_int).
    destruct k as [|[|k]]; [| |lia]; cbn [Nat.eqb nth fst snd]; unfold AllFinite, shown; cbn [flat_map s_x s_y s_funcs exL hd s_vals app map].
    + apply Forall_cons; [cbn [fst]; apply (M _ 1%Z); [lra|lia]|]. apply Forall_cons; [cbn [fst]; apply (M _ 1%Z); [lra|lia]|].
      apply Forall_cons; [cbn [fst]; apply (M _ 7%Z); [lra|lia]|constructor].
    + apply Forall_cons; [cbn [fst]; apply (M _ 119%Z); [lra|lia]|]. apply Forall_cons; [cbn [fst]; apply (M _ 125%Z); [lra|lia]|].
      apply Forall_cons; [cbn [fst]; apply (M _ 7%Z); [lra|lia]|constructor].
Qed.

Lemma OneLine_lit s : forallb (fun c => negb (Nat.eqb (nat_of_ascii c) 0) && negb (Nat.eqb (nat_of_ascii c) 10)) (lit s) = true -> OneLine (lit s).
Proof.
  rewrite forallb_forall. intros H. apply Forall_forall. intros c Hc. specialize (H c Hc). apply andb_true_iff in H. destruct H as (H1 & H2).
  apply negb_true_iff in H1, H2. apply Nat.eqb_neq in H1, H2. split; intros ->; [now apply H1|now apply H2].
Qed.

(** Refuted: the file does not show what the image shows unless pixel scale, rotation and
    flux scale of the image are those of the reference. Only centres are changed; all
    other values are those of the reference image. Two images of a sky of 7, the second
    with flux scale 1.5: that image is compared with a model of 10.5, and its file gives
    the sky as 7. *)
Theorem C90_scale_refuted : forall (strtod : str -> R) (IsNumeric : str -> bool) (K1 : R -> R) (x y : R), AcceptsDecimals IsNumeric ->
  exists ms j out name txt po px py v s r,
    image_models (shared_of exL) [ex_info []; ex_info []] [None; None] = Ok (inr ms) /\ joint_model (shared_of exL) ms = Ok (inr j) /\
    SaveMultImageParameters NumR f4R gR gR exDec j [(0, 0); (9, 0)]%Z [lit "a.fits"; lit "b.fits"] (joint_vector [exI] exL [[]; []])
      [[0; 0; 0]; [0; 0; 0]]%R (lit "fit") [] = Ok out /\
    nth_error out 1 = Some (name, txt) /\
    ReadConfigFile_full NumR strtod IsNumeric (file_lines txt) true [] = Ok (0%Z, Some (po, [])) /\
    o_names po = [lit "FlatSky"] /\ o_params po = [px; py; v] /\ v = strtod s /\ Decimal s r /\ (Rabs (r - 7) < 1 / 1000)%R /\
    fst (view [exI] exL [[]; []] 1) = (2, 30, 1.5)%R /\
    value_at NumR K1 FlatSky (mkDesc 2%R 30%R 1.5%R) [7%R] 0 110%R 125%R false x y = Ok 10.5%R.
Proof.
  intros sd isn K1 x y HA. destruct skyImages as (HI & HD).
  destruct (C90_files_partial exL [exI] [[]; []] [ex_info []; ex_info []] [None; None] HI eq_refl HD) as (ms & j & E1 & E2 & S).
  destruct (S [exI] exL [[]; []] moderate f4R gR gR exDec sd isn [[0; 0; 0]; [0; 0; 0]]%R [(0, 0); (9, 0)]%Z [lit "a.fits"; lit "b.fits"] (lit "fit") []) as (out & E & Lo & Hout); auto.
  - repeat constructor.
  - repeat constructor.
  - constructor; [cbn; lra|constructor].
  - exact printfR.
  - constructor; [apply OneLine_lit; reflexivity|]. constructor; [apply OneLine_lit; reflexivity|constructor].
  - apply OneLine_lit; reflexivity.
  - cbn. lia.
  - intros k _. unfold exDec. pose proof (print_length 40 (Z.of_nat k)). lia.
  - exact skyGood.
  - cbn [List.length] in Lo. destruct out as [|e0 [|[name txt] [|? ?]]]; try discriminate.
    destruct (Hout 1 name txt eq_refl) as (_ & po & ER & HR). rewrite (skyView 1) in HR by lia.
    destruct HR as (Hn & _ & _ & HP & _). cbn in Hn. cbn [Nat.eqb nth fst snd shown flat_map s_x s_y s_funcs exL hd s_vals app map] in HP.
    inversion HP as [|px ? l1 ? _ HP1 Epo]; subst. inversion HP1 as [|py ? l2 ? _ HP2]; subst. inversion HP2 as [|v ? l3 ? Hv HP3]; subst. inversion HP3; subst.
    destruct Hv as (s & r & Ev & Dr & Hr). cbn [fst snd] in Hr.
    exists ms, j. eexists. exists name, txt, po, px, py, v, s, r. do 2 (split; [assumption|]). split; [exact E|]. split; [reflexivity|]. split; [exact ER|].
    split; [exact Hn|]. split; [symmetry; assumption|]. split; [exact Ev|]. split; [exact Dr|]. split; [|split; [reflexivity|]].
    + replace (Rabs 7) with 7%R in Hr by (symmetry; apply Rabs_pos_eq; lra). lra.
    + cbn. f_equal. lra.
Qed.
Print Assumptions C90_scale_refuted.
