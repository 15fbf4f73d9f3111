(** Proofs about multimfit and makemultimages: the joint model and what each image sees. *)
From Coq Require Import ZArith List Bool Ascii String Reals Lra Lia.
From Verif Require Import Base Num StrUtil_Model StrUtil_Proof Fit_Model Config_Model ImgPar_Model Params_Model Params_Spec Params_Proof
  Build_Model Save_Spec Build_Spec Build_Proof Finish_Model Finish_Spec Finish_Hand Multi_Model Multi_Spec.
Import ListNotations.
Local Open Scope string_scope.
Local Open Scope list_scope.
Set Implicit Arguments.
Unset Strict Implicit.

Lemma add_no_opts psf names labels starts :
  AddFunctions psf names labels starts [] = AddFunctions psf names labels starts (repeat ([] : smap) (List.length names)).
Proof.
  unfold AddFunctions.
  rewrite (@for_ext _ (fun i st => match st with inl s => Ok (inl s) | inr m => add_one psf names labels [] i m end)
     (fun i st => match st with inl s => Ok (inl s) | inr m => add_one psf names labels (repeat ([] : smap) (List.length names)) i m end)); [reflexivity|].
  intros i [z|m] Hi; [reflexivity|]. unfold add_one. destruct (@get_lt _ names i Hi) as (nm & ->). cbn [bind].
  destruct (find_class classes nm) as [c|]; [|reflexivity]. destruct (get labels i) as [lb| | |]; try reflexivity. cbn [bind].
  assert (G : @get smap (repeat ([] : smap) (List.length names)) i = Ok []).
  { apply get_Ok_iff. rewrite nth_error_repeat by exact Hi. reflexivity. }
  destruct (repeat ([] : smap) (List.length names)) as [|o os] eqn:E.
  - destruct names; [cbn in Hi; lia|discriminate].
  - rewrite G. reflexivity.
Qed.

Section J.
  Variable T : Type.
  Implicit Type bs loc : list (sblock T).

  Lemma sall_app bs loc : sall (bs ++ loc) = sall bs ++ sall loc.
  Proof. unfold sall. apply flat_map_app. Qed.
  Lemma sflat_app bs loc : sflat (bs ++ loc) = sflat bs ++ sflat loc.
  Proof. unfold sflat, flat. rewrite map_app. apply flat_map_app. Qed.
  Lemma param_names_app bs loc : param_names (bs ++ loc) = param_names bs ++ param_names loc.
  Proof. unfold param_names. apply flat_map_app. Qed.
  Lemma starts_app (a b : list (blk T)) : forall k, starts k (a ++ b) = starts k a ++ starts (k + List.length (flat_map Params_Spec.b_funcs a)) b.
  Proof.
    induction a as [|x a IH]; intros k; cbn [app starts flat_map List.length]; [now rewrite Nat.add_0_r|].
    rewrite IH, app_length, Nat.add_assoc. reflexivity.
  Qed.
  Lemma starts_shift (b : list (blk T)) : forall k d, starts (d + k) b = map (Nat.add d) (starts k b).
  Proof. induction b as [|x b IH]; intros k d; cbn [starts map]; auto. rewrite <- Nat.add_assoc, IH. reflexivity. Qed.
  Lemma blk_funcs bs : List.length (flat_map Params_Spec.b_funcs (map as_blk bs)) = List.length (sall bs).
  Proof. unfold sall. induction bs as [|b bs IH]; auto. cbn [map flat_map]. rewrite !app_length, IH. cbn [as_blk Params_Spec.b_funcs]. now rewrite map_length. Qed.
  Lemma sstarts_app bs loc : sstarts (bs ++ loc) = sstarts bs ++ map (Nat.add (List.length (sall bs))) (sstarts loc).
  Proof.
    unfold sstarts. rewrite map_app, starts_app, blk_funcs. f_equal. cbn [Nat.add].
    rewrite <- (Nat.add_0_r (List.length (sall bs))) at 1. apply starts_shift.
  Qed.
  Lemma single_length loc : Forall Single loc -> List.length (sstarts loc) = List.length (sall loc).
  Proof.
    unfold sstarts. rewrite starts_length, map_length. unfold sall.
    induction 1 as [|b loc (f & Hf) _ IH]; auto. cbn [flat_map List.length]. rewrite app_length, Hf, IH. reflexivity.
  Qed.

  Lemma firstn_snoc {A} (l : list A) i x : nth_error l i = Some x -> firstn (S i) l = firstn i l ++ [x].
  Proof. revert i. induction l as [|a l IH]; intros [|i] H; cbn in *; try discriminate; [congruence|]. f_equal. now apply IH. Qed.

  Lemma image_functions_ok bs loc (info : ImageInfo T) : HasLocal loc info -> Forall Single loc ->
    image_functions (shared_of bs) info = Ok (map s_name (sall (bs ++ loc)), map s_label (sall (bs ++ loc)), sstarts (bs ++ loc)).
  Proof.
    unfold HasLocal, image_functions. intros HL HS. rewrite sall_app, !map_app, sstarts_app.
    destruct (i_perImage info) as [p|].
    2:{ subst loc. cbn [sall flat_map map sstarts starts as_blk]. rewrite !app_nil_r. reflexivity. }
    destruct HL as (E1 & E2 & E3 & _). rewrite E1, E2, E3, map_length. cbn [g_names g_labels g_starts shared_of]. rewrite map_length.
    set (ns := map s_name (sall loc)). set (ls := map s_label (sall loc)). set (ss := sstarts loc).
    assert (L1 : List.length ns = List.length (sall loc)) by apply map_length.
    assert (L2 : List.length ls = List.length (sall loc)) by apply map_length.
    assert (L3 : List.length ss = List.length (sall loc)) by (now apply single_length).
    clearbody ns ls ss.
    match goal with |- for_ ?n ?f ?s0 = _ => destruct (@for_inv (list str * list str * list nat)
      (fun i st => st = (map s_name (sall bs) ++ firstn i ns, map s_label (sall bs) ++ firstn i ls,
           sstarts bs ++ map (Nat.add (List.length (sall bs))) (firstn i ss))) f n s0) as (v & E & P) end.
    - cbn [firstn map]. rewrite !app_nil_r. reflexivity.
    - intros i st Hi ->.
      destruct (nth_error ns i) as [a|] eqn:Ea; [|apply nth_error_None in Ea; lia].
      destruct (nth_error ls i) as [b|] eqn:Eb; [|apply nth_error_None in Eb; lia].
      destruct (nth_error ss i) as [c|] eqn:Ec; [|apply nth_error_None in Ec; lia].
      rewrite (proj2 (get_Ok_iff _ _ _) Ea), (proj2 (get_Ok_iff _ _ _) Eb), (proj2 (get_Ok_iff _ _ _) Ec). cbn [bind].
      eexists. split; [reflexivity|]. rewrite (firstn_snoc Ea), (firstn_snoc Eb), (firstn_snoc Ec), map_app, !app_assoc. reflexivity.
    - rewrite E, P. rewrite !firstn_all2 by lia. reflexivity.
  Qed.

  Lemma plain_opts bs : Forall Plain bs -> map s_opts (sall bs) = repeat ([] : smap) (List.length (map s_name (sall bs))).
  Proof.
    rewrite map_length. unfold sall. induction 1 as [|b bs (_ & H) _ IH]; auto. cbn [flat_map].
    rewrite map_app, app_length, repeat_app, IH. f_equal. induction H as [|f fs (Hf & _) _ IHf]; auto. cbn. now rewrite Hf, IHf.
  Qed.
  Lemma plain_sized bs : Forall Plain bs -> Forall Sized (sall bs).
  Proof.
    unfold sall. induction 1 as [|b bs (_ & H) _ IH]; [constructor|]. cbn [flat_map]. apply Forall_app. split; auto.
    eapply Forall_impl; [|exact H]. cbn. tauto.
  Qed.
  Lemma plain_funcs bs : Forall Plain bs -> Forall (fun b => s_funcs b <> []) bs.
  Proof. intros H. eapply Forall_impl; [|exact H]. intros b (Hb & _). exact Hb. Qed.
  Lemma roles_length bs : List.length (roles bs) = List.length (sflat bs).
  Proof.
    unfold sflat, flat, roles. induction bs as [|b bs IH]; auto. cbn [flat_map map List.length].
    rewrite !app_length, IH. cbn [List.length as_blk Params_Spec.b_funcs]. rewrite repeat_length, flat_map_concat_map. reflexivity.
  Qed.
  Lemma names_length bs : Forall Plain bs -> List.length (param_names bs) = List.length (sflat bs).
  Proof. intros H. rewrite <- roles_length, <- (names_roles (plain_sized H)), map_length. reflexivity. Qed.

  (** the functions of an image *)
  Definition Built (bs : list (sblock T)) (m : built) (pl : option (Z * Z) * list (sblock T)) : Prop :=
    exists os, m = mkBuilt os (flag_list (map as_blk (bs ++ snd pl))) (param_names (bs ++ snd pl)) (List.length (param_names (bs ++ snd pl))) /\
      Forall2 (@MadeBy T) os (sall (bs ++ snd pl)).

  Lemma add_image_ok bs loc psf : bs <> [] -> Forall Plain (bs ++ loc) ->
    let run := AddFunctions psf (map s_name (sall (bs ++ loc))) (map s_label (sall (bs ++ loc))) (sstarts (bs ++ loc)) [] in
    (exists s, run = Ok (s, None) /\ ~ Drawable bs (psf, loc)) \/
    (exists m, run = Ok (0%Z, Some m) /\ Built bs m (psf, loc) /\ Drawable bs (psf, loc)).
  Proof.
    intros Hne HP run. unfold run. rewrite add_no_opts, <- (plain_opts HP).
    assert (Hne' : bs ++ loc <> []) by (destruct bs; [congruence|discriminate]).
    destruct (@add_functions_ok T psf (bs ++ loc) Hne' (plain_funcs HP)) as [(s & Hs & E & HN)|(os & E & HB & H2 & _)]; cbv zeta in E; rewrite E.
    - left. exists s. auto.
    - right. eexists. split; [reflexivity|]. split; [exists os; auto|exact HB].
  Qed.

  Lemma image_models_ok bs locs infos psfs : bs <> [] -> Forall Plain bs -> Forall (Forall Plain) locs -> Forall (Forall Single) locs ->
    Forall2 HasLocal locs infos -> List.length psfs = List.length infos ->
    exists r, image_models (shared_of bs) infos psfs = Ok r /\
      match r with
      | inl z => z = (-1)%Z /\ ~ Forall (Drawable bs) (combine psfs locs)
      | inr ms => Forall2 (Built bs) ms (combine psfs locs) /\ Forall (Drawable bs) (combine psfs locs)
      end.
  Proof.
    intros Hne HP HPl HSl HL HLp. pose proof (Forall2_len HL) as HLl.
    set (pls := combine psfs locs). assert (Lp : List.length pls = List.length infos) by (unfold pls; rewrite combine_length; lia).
    unfold image_models.
    match goal with |- exists r, for_ ?n ?f ?s0 = _ /\ _ => destruct (@for_inv (Z + list built)
      (fun i st => match st with
        | inl z => z = (-1)%Z /\ ~ Forall (Drawable bs) pls
        | inr ms => Forall2 (Built bs) ms (firstn i pls) /\ Forall (Drawable bs) (firstn i pls) end) f n s0) as (v & E & P) end.
    - cbn [firstn]. split; constructor.
    - intros i [z|ms] Hi HI; [eexists; split; [reflexivity|exact HI]|].
      destruct (nth_error infos i) as [info|] eqn:Ei; [|apply nth_error_None in Ei; lia].
      destruct (nth_error psfs i) as [psf|] eqn:Ep; [|apply nth_error_None in Ep; lia].
      destruct (nth_error locs i) as [loc|] eqn:El; [|apply nth_error_None in El; lia].
      assert (Epl : nth_error pls i = Some (psf, loc)).
      { unfold pls. clear -Ep El. revert locs i Ep El. induction psfs as [|a psfs IH]; intros [|b locs] [|i] H1 H2; cbn in *; try discriminate; [congruence|]. now apply IH. }
      rewrite (proj2 (get_Ok_iff _ _ _) Ei), (proj2 (get_Ok_iff _ _ _) Ep). cbn [bind].
      assert (HH : HasLocal loc info).
      { clear -HL Ei El. revert i Ei El. induction HL as [|a b la lb H HF IH]; intros [|i] H1 H2; cbn in *; try discriminate; [congruence|]. eapply IH; eauto. }
      assert (HS : Forall Single loc) by (rewrite Forall_forall in HSl; apply HSl; eapply nth_error_In; eauto).
      assert (HPL : Forall Plain loc) by (rewrite Forall_forall in HPl; apply HPl; eapply nth_error_In; eauto).
      rewrite (image_functions_ok bs HH HS). cbn [bind].
      destruct (@add_image_ok bs loc psf Hne) as [(s & -> & HN)|(m & -> & HB & HC)]; [apply Forall_app; auto|..]; cbn [bind].
      + eexists. split; [reflexivity|]. split; [reflexivity|]. intros HF. apply HN. rewrite Forall_forall in HF. apply HF. eapply nth_error_In; eauto.
      + eexists. split; [reflexivity|]. destruct HI as (HI1 & HI2). rewrite (firstn_snoc Epl). split.
        * apply Forall2_app; auto.
        * apply Forall_app. auto.
    - exists v. split; [exact E|]. destruct v as [z|ms]; [exact P|]. rewrite firstn_all2 in P by lia. exact P.
  Qed.

  (** ---- the joint object ---- *)
  Definition image_labels : list str := map lit ["PIXEL_SCALE"; "ROTATION"; "FLUX_SCALE"; "X0"; "Y0"].
  Lemma add_images_ok ms : ms <> [] ->
    add_images ms = Ok (5 * (List.length ms - 1), concat (repeat image_labels (List.length ms - 1))).
  Proof.
    intros Hne. unfold add_images.
    match goal with |- for_ ?n ?f ?s0 = _ => destruct (@for_inv (nat * list str)
      (fun i st => st = (5 * (i - 1), concat (repeat image_labels (i - 1)))) f n s0) as (v & E & P) end.
    - reflexivity.
    - intros i st Hi ->. destruct i as [|i]; cbn [Nat.ltb Nat.leb]; eexists; (split; [reflexivity|]); [reflexivity|].
      replace (S (S i) - 1) with (S (S i - 1)) by lia. f_equal; [unfold N_IMAGE_PARAMS, Params_Model.N_IMAGE_PARAMS; lia|].
      replace (S (S i - 1)) with (S i - 1 + 1) by lia. rewrite repeat_app, concat_app. cbn [repeat concat]. rewrite app_nil_r. reflexivity.
    - rewrite E, P. reflexivity.
  Qed.

  Definition OfClass (o : fobj) (f : sfunc T) : Prop := In (fo_class o) classes /\ c_name (fo_class o) = s_name f.
  Lemma joint_functions_ok bs n : Forall (fun f => Known (s_name f)) (sall bs) -> (1 <= n)%nat ->
    exists fs, joint_functions (shared_of bs) n = Ok (inr fs) /\ Forall2 OfClass fs (sall bs).
  Proof.
    intros HK Hn. unfold joint_functions. cbn [g_names g_labels shared_of]. rewrite map_length.
    match goal with |- exists fs, for_ ?n ?f ?s0 = _ /\ _ => destruct (@for_inv (Z + list fobj)
      (fun i st => exists fs, st = inr fs /\ Forall2 OfClass fs (firstn i (sall bs))) f n s0) as (v & E & (fs & -> & P)) end.
    - exists []. split; [reflexivity|constructor].
    - intros i st Hi (fs & -> & HF). destruct (nth_error (sall bs) i) as [f|] eqn:Ef; [|apply nth_error_None in Ef; lia].
      assert (G1 : get (map s_name (sall bs)) i = Ok (s_name f)) by (apply get_Ok_iff; rewrite nth_error_map, Ef; reflexivity).
      assert (G2 : get (map s_label (sall bs)) i = Ok (s_label f)) by (apply get_Ok_iff; rewrite nth_error_map, Ef; reflexivity).
      rewrite G1. cbn [bind].
      rewrite Forall_forall in HK. destruct (HK f (nth_error_In _ _ Ef)) as (c & Hc & En). rewrite <- En, (class_unique Hc), G2. cbn [bind].
      replace (n <? 1)%nat with false by (symmetry; apply Nat.ltb_ge; lia). eexists. split; [reflexivity|]. eexists. split; [reflexivity|].
      rewrite (firstn_snoc Ef). apply Forall2_app; auto. constructor; [|constructor]. split; auto.
    - exists fs. split; [exact E|]. rewrite firstn_all2 in P by lia. exact P.
  Qed.

  Lemma class_names (fs : list fobj) (l : list (sfunc T)) :
    Forall2 OfClass fs l ->
    Forall2 (fun o f => GetParameterNames o = names_of f) fs l.
  Proof. induction 1 as [|o f fs l (Hc & En) _ IH]; constructor; auto. unfold GetParameterNames. symmetry. now apply names_of_class. Qed.

  Lemma pn_rest' l : forall os acc, Forall2 (fun o (f : sfunc T) => GetParameterNames o = names_of f) os l ->
    foldM pn_body (combine (repeat false (List.length l)) os) acc = Ok (acc ++ flat_map (@names_of T) l).
  Proof.
    induction l as [|f l IH]; intros os acc H2; inversion H2 as [|o ? os' ? E H2']; subst; cbn [List.length repeat combine foldM flat_map].
    - now rewrite app_nil_r.
    - unfold pn_body at 1. cbn [fst snd bind]. rewrite E, (IH _ _ H2'), <- app_assoc. reflexivity.
  Qed.
  Lemma pn_blocks' bs : Forall (fun b => s_funcs b <> []) bs -> forall os acc, Forall2 (fun o (f : sfunc T) => GetParameterNames o = names_of f) os (sall bs) ->
    foldM pn_body (combine (flag_list (map as_blk bs)) os) acc = Ok (acc ++ param_names bs).
  Proof.
    induction 1 as [|b bs Hb HF IH]; intros os acc H2.
    - inversion H2; subst. cbn. now rewrite app_nil_r.
    - unfold sall in H2. cbn [flat_map] in H2. fold (sall bs) in H2. apply Forall2_app_inv_r in H2. destruct H2 as (o1 & o2 & H1 & H2 & ->).
      unfold flag_list. cbn [map flat_map]. fold (flag_list (map as_blk bs)). cbn [as_blk Params_Spec.b_funcs].
      change (param_names (b :: bs)) with (lit "X0" :: lit "Y0" :: flat_map (@names_of T) (s_funcs b) ++ param_names bs).
      destruct (s_funcs b) as [|f l] eqn:Ef; [congruence|]. inversion H1 as [|o ? o1' ? E H1']; subst.
      cbn [map]. rewrite map_length.
      rewrite combine_app by (cbn; rewrite repeat_length; f_equal; symmetry; exact (Forall2_len H1')).
      rewrite foldM_app. cbn [combine foldM]. unfold pn_body at 1. cbn [fst snd bind].
      rewrite (pn_rest' _ H1'). cbn [bind]. rewrite (IH _ _ H2). f_equal. rewrite E. cbn [flat_map]. rewrite <- !app_assoc. reflexivity.
  Qed.

  Lemma joint_model_ok bs locs psfs ms : bs <> [] -> Forall Plain bs -> Forall (Forall Plain) locs ->
    List.length psfs = List.length locs -> locs <> [] ->
    Forall2 (Built bs) ms (combine psfs locs) -> Forall (Drawable bs) (combine psfs locs) ->
    exists fs, joint_model (shared_of bs) ms = Ok (inr (mkJoint ms fs (flag_list (map as_blk bs)) (List.length bs)
        (concat (repeat image_labels (List.length locs - 1)) ++ param_names bs)
        (5 * (List.length locs - 1) + List.length (sflat bs) + List.length (flat_map sflat locs)) (map (fun l => List.length (sflat l)) locs))) /\
      Forall2 OfClass fs (sall bs).
  Proof.
    intros Hne HP HPl HLp Hnl H2 HC.
    assert (Lm : List.length ms = List.length locs) by (rewrite (Forall2_len H2), combine_length; lia).
    unfold joint_model. rewrite add_images_ok by (destruct ms; [destruct locs; [congruence|discriminate]|discriminate]). cbn [bind].
    rewrite Lm.
    assert (HK : Forall (fun f => Known (s_name f)) (sall bs)).
    { destruct locs as [|l locs]; [congruence|]. destruct psfs as [|psf psfs]; [discriminate|]. cbn [combine] in HC. inversion HC as [|? ? (HB & _) _]; subst.
      cbn [snd] in HB. rewrite sall_app in HB. apply Forall_app in HB. eapply Forall_impl; [|exact (proj1 HB)]. cbn. tauto. }
    destruct (@joint_functions_ok bs (List.length locs) HK) as (fs & E & HF); [destruct locs; [congruence|cbn; lia]|].
    rewrite E. cbn [bind g_starts shared_of].
    assert (Lf : List.length fs = List.length (sizes (map as_blk bs))).
    { rewrite sizes_sall, map_length. exact (Forall2_len HF). }
    rewrite Lf. unfold sstarts at 1. rewrite (defsets_ok (as_blk_ok Hne (plain_funcs HP))). cbn [bind].
    unfold Build_Model.PopulateParameterNames.
    rewrite (@for_ext _ _ (fun n s => do o <- get fs n; do flag <- get (flag_list (map as_blk bs)) n; pn_body (flag, o) s)).
    2:{ intros k l Hk. reflexivity. }
    rewrite loop_flags by (rewrite flag_list_length; auto).
    rewrite (pn_blocks' (plain_funcs HP) [] (class_names HF)). cbn [bind app].
    assert (Ls : List.length (sstarts bs) = List.length bs) by (unfold sstarts; rewrite starts_length, map_length; reflexivity).
    assert (En : fold_left Nat.add (map (fun f => List.length (GetParameterNames f)) fs) 0 + 2 * List.length (sstarts bs) = List.length (sflat bs)).
    { rewrite Ls, <- (names_length HP), param_names_length, fold_add. cbn [Nat.add]. f_equal. f_equal.
      clear -HF. pose proof (class_names HF) as H. clear HF. induction H as [|o f fs l H _ IH]; auto. cbn [map]. now rewrite H, IH. }
    assert (Ee : map (fun b => b_nParamsTot b - List.length (sflat bs)) ms = map (fun l => List.length (sflat l)) locs).
    { clear -H2 HP HPl HLp. revert psfs locs HPl HLp H2. induction ms as [|m ms IH]; intros psfs locs HPl HLp H2.
      - destruct locs; [reflexivity|]. destruct psfs; [discriminate|]. inversion H2.
      - destruct locs as [|l locs]; destruct psfs as [|psf psfs]; try discriminate; [inversion H2|]. cbn [combine] in H2. inversion H2 as [|? ? ? ? HB H2']; subst.
        inversion HPl; subst. cbn [map]. f_equal; [|eapply IH; eauto]. destruct HB as (os & -> & _). cbn [b_nParamsTot snd].
        rewrite names_length by (apply Forall_app; auto). rewrite sflat_app, app_length. lia. }
    exists fs. split; [|exact HF]. unfold nParamsTot. rewrite En, Ee, Ls. f_equal. f_equal. f_equal.
    f_equal. clear. rewrite fold_add. cbn [Nat.add]. induction locs as [|l locs IH]; auto. cbn [map flat_map]. rewrite app_length, <- IH. reflexivity.
  Qed.
End J.

(** ---- what an image sees ---- *)
Section V.
  Variables (bs : list (sblock R)) (imgs : list (imgpar R)) (locs : list (list (sblock R))) (ms : list built) (j : joint) (fs : list fobj).
  Hypothesis Hne : bs <> [].
  Hypothesis HP : Forall Plain bs.
  Hypothesis Hl : List.length locs = S (List.length imgs).
  Hypothesis Hm : List.length ms = List.length locs.
  Hypothesis HF : Forall2 (@OfClass R) fs (sall bs).
  Hypothesis Hj : j = mkJoint ms fs (flag_list (map as_blk bs)) (List.length bs)
        (concat (repeat image_labels (List.length locs - 1)) ++ param_names bs)
        (5 * (List.length locs - 1) + List.length (sflat bs) + List.length (flat_map sflat locs)) (map (fun l => List.length (sflat l)) locs).

  Lemma of_sizes : map (fun f => List.length (GetParameterNames f)) fs = sizes (map as_blk bs).
  Proof.
    rewrite sizes_sall. pose proof (class_names HF) as H. pose proof (plain_sized HP) as HS. revert H HS. clear.
    induction 1 as [|o f l l' H _ IH]; intros HS; auto. inversion HS as [|? ? (c & Hc & En & El) HS']; subst. cbn [map]. rewrite H, IH by auto. f_equal. rewrite (names_of_class Hc En). symmetry. exact El.
  Qed.

  Lemma joint_length : List.length (joint_vector imgs bs locs) = j_nParamsTot j.
  Proof.
    rewrite Hj. cbn [j_nParamsTot]. unfold joint_vector. rewrite !app_length, img_flat_length, Hl. cbn [Nat.sub]. rewrite Nat.sub_0_r. unfold Params_Model.N_IMAGE_PARAMS. lia.
  Qed.

  Lemma seen_flat im : (0 < i_pix im)%R -> sflat (seen_in im bs) =
    flat (match map as_blk bs with [] => [] | b0 :: t => for_image NumR im b0 t end).
  Proof.
    intros Hp. destruct bs as [|b0 t]; [reflexivity|]. cbn [map]. rewrite for_image_all by exact Hp.
    unfold sflat, seen_in. change (as_blk b0 :: map as_blk t) with (map as_blk (b0 :: t)). unfold recentre. rewrite !map_map. reflexivity.
  Qed.

  Lemma sees k buf : Forall (fun im => (0 < i_pix im)%R) imgs -> k < List.length locs ->
    List.length buf = List.length (sflat bs) + List.length (sflat (nth k locs [])) ->
    for_image_i NumR j (joint_vector imgs bs locs) k buf =
      Ok (fst (view imgs bs locs k), sflat (snd (view imgs bs locs k))).
  Proof.
    intros Hp Hk Hb. unfold for_image_i.
    assert (El : nth_error locs k = Some (nth k locs [])) by (apply nth_error_nth'; exact Hk).
    assert (Hd : DescrForImage NumR (joint_vector imgs bs locs) k = Ok (fst (view imgs bs locs k))).
    { unfold DescrForImage, view. destruct k as [|k]; [reflexivity|].
      destruct (nth_error imgs k) as [im|] eqn:E; [|apply nth_error_None in E; lia].
      unfold joint_vector. rewrite (extract_ok _ E). reflexivity. }
    rewrite Hd. cbn [bind]. unfold ParamsForImage.
    assert (Ej : j_nParamsTot j = List.length (joint_vector imgs bs locs)) by (symmetry; apply joint_length). rewrite Ej.
    rewrite Hj. cbn [j_images j_funcs j_flags j_sets j_local]. rewrite of_sizes, Hm, Hl.
    assert (Hok : blocks_ok (map as_blk bs)) by exact (as_blk_ok Hne (plain_funcs HP)).
    destruct bs as [|b0 t] eqn:Eb; [congruence|]. rewrite <- Eb in *.
    assert (Em : map as_blk bs = as_blk b0 :: map as_blk t) by (rewrite Eb; reflexivity).
    pose proof (@holder_ok R NumR imgs (as_blk b0) (map as_blk t) (map sflat locs) k (sflat (nth k locs [])) buf) as H.
    rewrite <- Em in H. cbv zeta in H.
    assert (EL : List.length bs = List.length (map as_blk bs)) by (symmetry; apply map_length).
    assert (EV : img_flat imgs ++ flat (map as_blk bs) ++ concat (map sflat locs) = joint_vector imgs bs locs)
      by (unfold joint_vector; rewrite flat_map_concat_map; reflexivity).
    rewrite EV, map_map, <- EL in H. rewrite H; [|exact Hok|rewrite map_length; exact Hl|rewrite nth_error_map, El; reflexivity|exact Hb].
    cbn [bind]. f_equal. f_equal. unfold view. destruct k as [|k].
    - cbn [snd]. rewrite sflat_app. reflexivity.
    - destruct (nth_error imgs k) as [im|] eqn:E; [|apply nth_error_None in E; lia].
      cbn [snd]. rewrite sflat_app. f_equal. rewrite seen_flat by (rewrite Forall_forall in Hp; apply Hp; eapply nth_error_In; eauto).
      rewrite Em. reflexivity.
  Qed.
End V.
