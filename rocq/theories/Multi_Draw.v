(** Proofs about multimfit and makemultimages: parameter vectors, images, the fit statistic. *)
From Coq Require Import ZArith List Bool Ascii String Reals Lra Lia.
From Verif Require Import Base Num StrUtil_Model StrUtil_Proof Fit_Model Fit_Spec Fit_Proof Fit_Multi Config_Model ImgPar_Model Params_Model Params_Spec Params_Proof
  Build_Model Save_Model Save_Spec Build_Spec Build_Proof Save_Proof Finish_Model Finish_Spec Finish_Hand Multi_Model Multi_Spec Multi_Proof.
Import ListNotations.
Local Open Scope string_scope.
Local Open Scope list_scope.
Set Implicit Arguments.
Unset Strict Implicit.

Section G.
  Variables (T : Type) (N : Num T).

  Lemma fill (l : list T) : forall base k pre old post (v0 : nat), List.length pre = base + k -> List.length old = List.length l ->
    forall all, skipn k all = l ->
    for_from (base + k) (List.length l) (fun i v => do x <- get all (i - base); set v i x) (pre ++ old ++ post) = Ok (pre ++ l ++ post).
  Proof.
    induction l as [|x l IH]; intros base k pre old post v0 Lp Lo all Ha.
    - destruct old; [|discriminate]. reflexivity.
    - destruct old as [|o old]; [discriminate|]. cbn [List.length for_from].
      assert (G : get all (base + k - base) = Ok x).
      { replace (base + k - base) with k by lia. apply get_Ok_iff. rewrite <- (firstn_skipn k all), Ha.
        rewrite nth_error_app2; rewrite firstn_length_le; [now rewrite Nat.sub_diag|..].
        all: assert (L := f_equal (@List.length T) Ha); rewrite skipn_length in L; cbn in L; lia. }
      rewrite G. cbn [bind]. cbn [app]. rewrite (@set_app _ pre (old ++ post) o x (base + k)) by lia. cbn [bind].
      specialize (IH base (S k) (pre ++ [x]) old post v0). rewrite Nat.add_succ_r in IH. rewrite <- !app_assoc in IH. cbn [app] in IH.
      apply IH.
      + rewrite app_length, Lp. cbn [List.length]. lia.
      + cbn in Lo. lia.
      + assert (E : skipn (S k) all = skipn 1 (skipn k all)) by (rewrite skipn_add; f_equal; lia). rewrite E, Ha. reflexivity.
  Qed.
  Lemma fill0 (l pre old post : list T) base : List.length pre = base -> List.length old = List.length l ->
    for_from base (List.length l) (fun i v => do x <- get l (i - base); set v i x) (pre ++ old ++ post) = Ok (pre ++ l ++ post).
  Proof. intros H1 H2. pose proof (@fill l base 0 pre old post 0) as H. rewrite Nat.add_0_r in H. apply H; auto. Qed.
  Lemma fill00 (l old post : list T) : List.length old = List.length l ->
    for_ (List.length l) (fun i v => do x <- get l i; set v i x) (old ++ post) = Ok (l ++ post).
  Proof.
    intros H. pose proof (@fill0 l [] old post 0 eq_refl H) as E. cbn [app] in E. unfold for_. rewrite <- E. apply for_from_ext.
    intros i v Hi. now rewrite Nat.sub_0_r.
  Qed.

  Lemma locals_flat bs imgs locs (infos : list (ImageInfo T)) : Images bs imgs locs infos -> flat_map local_values infos = flat_map sflat locs.
  Proof.
    intros H. pose proof (im_locals H) as HL. clear H. induction HL as [|l i ls is H _ IH]; auto. cbn [flat_map]. rewrite IH. f_equal.
    unfold local_values. unfold HasLocal in H. destruct (i_perImage i); [tauto|subst; reflexivity].
  Qed.
  Lemma desc_flat bs imgs locs (infos : list (ImageInfo T)) : Images bs imgs locs infos ->
    flat_map (fun i => [i_pixelScale i; i_rotation i; i_intensityScale i; i_x0 i; i_y0 i]) (tl infos) = img_flat imgs.
  Proof.
    intros H. pose proof (im_descr H) as HL. clear H. induction HL as [|l i ls is (H1 & H2 & H3 & H4 & H5) _ IH]; auto.
    cbn [flat_map img_flat]. unfold img_flat in IH. rewrite IH, H1, H2, H3, H4, H5. reflexivity.
  Qed.

  Lemma make_params j (infos : list (ImageInfo T)) desc po :
    makemulti_params N j infos desc po =
    if (j_nParamsTot j =? List.length desc + List.length (o_params po) + List.length (flat_map local_values infos))%nat
    then Ok (inr (desc ++ o_params po ++ flat_map local_values infos)) else Ok (inl (-1)%Z).
  Proof.
    unfold makemulti_params. destruct (_ =? _)%nat; cbn [negb]; [|reflexivity].
    set (ls := flat_map local_values infos). set (ps := o_params po).
    set (z := nofZ N 0%Z). replace (repeat z (List.length desc + List.length ps + List.length ls)) with
      (repeat z (List.length desc) ++ repeat z (List.length ps) ++ repeat z (List.length ls)) by (rewrite <- !repeat_app; f_equal; lia).
    rewrite fill00 by apply repeat_length. cbn [bind]. rewrite fill0 by (auto using repeat_length). cbn [bind].
    pose proof (@fill0 ls (desc ++ ps) (repeat z (List.length ls)) [] (List.length desc + List.length ps)) as E.
    rewrite !app_nil_r, <- !app_assoc in E. rewrite E; [reflexivity|apply app_length|apply repeat_length].
  Qed.
End G.

(** ---- other values ---- *)
Section Shape.
  Variable T : Type.
  Implicit Types bs : list (sblock T).
  Lemma shape_len bs bs' : same_shape bs bs' -> List.length bs = List.length bs'.
  Proof. apply Forall2_len. Qed.
  Lemma shape_sall bs bs' : same_shape bs bs' -> Forall2 same_func (sall bs) (sall bs').
  Proof. unfold sall. induction 1; cbn [flat_map]; [constructor|]. apply Forall2_app; auto. Qed.
  Lemma shape_flat bs bs' : same_shape bs bs' -> List.length (sflat bs) = List.length (sflat bs').
  Proof.
    intros H. unfold sflat. rewrite !flat_length, !map_length, (shape_len H), !sizes_sall. f_equal. f_equal.
    pose proof (shape_sall H) as HF. induction HF as [|f f' l l' (_ & _ & E) _ IH]; cbn [map]; congruence.
  Qed.
  Lemma shape_names bs bs' : same_shape bs bs' -> param_names bs = param_names bs'.
  Proof.
    unfold param_names. induction 1 as [|b b' l l' H _ IH]; [reflexivity|]. cbn [flat_map]. rewrite IH. do 3 f_equal. clear -H.
    induction H as [|f f' l l' (E & _) _ IH]; [reflexivity|]. cbn [flat_map]. rewrite IH. f_equal. unfold names_of. rewrite E. reflexivity.
  Qed.
  Lemma shape_flags bs bs' : same_shape bs bs' -> flag_list (map as_blk bs) = flag_list (map as_blk bs').
  Proof.
    unfold flag_list. induction 1 as [|b b' l l' H _ IH]; [reflexivity|]. cbn [map flat_map]. rewrite IH. f_equal. cbn [as_blk Params_Spec.b_funcs].
    inversion H as [|f f' m m' _ Hm E1 E2]; [reflexivity|]. cbn [map]. rewrite !map_length, (Forall2_len Hm). reflexivity.
  Qed.
  Lemma shape_class fs bs bs' : same_shape bs bs' -> Forall2 (@OfClass T) fs (sall bs) -> Forall2 (@OfClass T) fs (sall bs').
  Proof.
    intros H. pose proof (shape_sall H) as HS. clear H. intros H. revert HS. generalize (sall bs') as l'. 
    induction H as [|o f fs l (Hc & En) _ IH]; intros l' HS; inversion HS as [|? f' ? m' (E & _) HS']; subst; constructor; auto. split; [auto|congruence].
  Qed.
  Lemma shape_plain bs bs' : same_shape bs bs' -> Forall Plain bs -> Forall Plain bs'.
  Proof.
    induction 1 as [|b b' l l' H _ IH]; intros HP; [constructor|]. inversion HP as [|? ? (Hn & Hf) HP']; subst. constructor; auto. split.
    - inversion H as [E|]; [congruence|]. discriminate.
    - clear -H Hf. induction H as [|f f' m m' (E1 & E2 & E3) _ IH]; [constructor|]. inversion Hf as [|? ? (Ho & c & Hc & En & El) Hf']; subst.
      constructor; [|auto]. split; [congruence|]. exists c. split; [exact Hc|]. split; congruence.
  Qed.
  Lemma shape_refl bs : same_shape bs bs.
  Proof. unfold same_shape. induction bs as [|b l IH]; constructor; auto. induction (s_funcs b) as [|f m IHm]; constructor; auto. repeat split. Qed.
  Lemma shapes_refl (locs : list (list (sblock T))) : Forall2 same_shape locs locs.
  Proof. induction locs; constructor; auto using shape_refl. Qed.
  Lemma shapes_len (locs locs' : list (list (sblock T))) : Forall2 same_shape locs locs' ->
    map (fun l => List.length (sflat l)) locs = map (fun l => List.length (sflat l)) locs' /\
    List.length (flat_map sflat locs) = List.length (flat_map sflat locs').
  Proof.
    induction 1 as [|l l' ls ls' H _ (IH1 & IH2)]; [auto|]. cbn [map flat_map]. rewrite !app_length, IH1, IH2, (shape_flat H). auto.
  Qed.
End Shape.

Section V.
  Variables (bs : list (sblock R)) (imgs : list (imgpar R)) (locs : list (list (sblock R))) (infos : list (ImageInfo R)) (psfs : list (option (Z * Z))).
  Hypothesis HI : Images bs imgs locs infos.
  Hypothesis HL : List.length psfs = List.length infos.

  Lemma locs_length : List.length locs = S (List.length imgs).
  Proof. rewrite (Forall2_len (im_locals HI)). exact (im_count HI). Qed.

  (** the joint model, in one place *)
  Lemma joint_ok :
    (~ Forall (Drawable bs) (combine psfs locs) /\ image_models (shared_of bs) infos psfs = Ok (inl (-1)%Z)) \/
    (Forall (Drawable bs) (combine psfs locs) /\
     exists ms j, image_models (shared_of bs) infos psfs = Ok (inr ms) /\ joint_model (shared_of bs) ms = Ok (inr j) /\
       Forall2 (@Built R bs) ms (combine psfs locs) /\ j_images j = ms /\ List.length ms = List.length locs /\
       (forall imgs' bs' locs', List.length imgs' = List.length imgs -> same_shape bs bs' -> Forall2 same_shape locs locs' ->
          j_nParamsTot j = List.length (joint_vector imgs' bs' locs') /\
          (Forall (fun im => (0 < i_pix im)%R) imgs' -> forall k buf, k < List.length locs' ->
             List.length buf = List.length (sflat bs') + List.length (sflat (nth k locs' [])) ->
             for_image_i NumR j (joint_vector imgs' bs' locs') k buf = Ok (fst (view imgs' bs' locs' k), sflat (snd (view imgs' bs' locs' k)))))).
  Proof.
    destruct (im_model HI) as (Hne & HP).
    destruct (@image_models_ok R bs locs infos psfs Hne HP (im_plain HI) (im_single HI) (im_locals HI) HL) as ([z|ms] & E & H).
    - left. destruct H as (-> & H). auto.
    - right. destruct H as (H1 & H2). split; [exact H2|].
      assert (Hl := locs_length).
      assert (Hlp : List.length psfs = List.length locs) by (rewrite HL; symmetry; exact (Forall2_len (im_locals HI))).
      assert (Hnl : locs <> []) by (destruct locs; [discriminate|discriminate]).
      destruct (@joint_model_ok R bs locs psfs ms Hne HP (im_plain HI) Hlp Hnl H1 H2) as (fs & Ej & HF).
      assert (Lm : List.length ms = List.length locs) by (rewrite (Forall2_len H1), combine_length; lia).
      eexists ms, _. split; [exact E|]. split; [exact Ej|]. split; [exact H1|]. split; [reflexivity|]. split; [exact Lm|].
      intros imgs' bs' locs' Li Sb Sl. destruct (shapes_len Sl) as (S1 & S2).
      assert (Ll' : List.length locs' = S (List.length imgs')) by (rewrite <- (Forall2_len Sl), Li; exact Hl).
      split.
      + cbn [j_nParamsTot]. unfold joint_vector. rewrite !app_length, img_flat_length, Hl, (shape_flat Sb), S2, Li. cbn [Nat.sub]. rewrite Nat.sub_0_r. unfold Params_Model.N_IMAGE_PARAMS. lia.
      + intros Hp k buf Hk Hb. rewrite (shape_flags Sb), (shape_len Sb), (shape_names Sb), (shape_flat Sb), S1, S2, (Forall2_len Sl).
        eapply sees; eauto.
        * intros ->. apply shape_len in Sb. destruct bs; [congruence|discriminate].
        * eapply shape_plain; eauto.
        * rewrite <- (Forall2_len Sl). exact Lm.
        * eapply shape_class; eauto.
  Qed.

  (** the previous contents of the buffers *)
  Definition BufsOk (bufs : list (list R)) : Prop :=
    Forall2 (fun buf l => List.length buf = List.length (sflat bs) + List.length (sflat l)) bufs locs.
  Lemma buf_at bufs k : BufsOk bufs -> k < List.length locs -> exists buf, get bufs k = Ok buf /\
    List.length buf = List.length (sflat bs) + List.length (sflat (nth k locs [])).
  Proof.
    unfold BufsOk. intros H. revert k. clear -H.
    induction H as [|buf l bufs ls E HF IH]; intros [|k] Hk; cbn in Hk; try lia.
    - exists buf. split; [reflexivity|exact E].
    - destruct (IH k) as (b' & G & L); [lia|]. exists b'. split; [|exact L]. apply get_Ok_iff. apply get_Ok_iff in G. exact G.
  Qed.
End V.

Lemma get_seq {A} (f : nat -> A) n k : k < n -> get (map f (seq 0 n)) k = Ok (f k).
Proof. intros H. apply get_Ok_iff. rewrite nth_error_map, (nth_error_nth' _ 0) by (rewrite seq_length; lia). rewrite seq_nth by lia. reflexivity. Qed.

Lemma seq_map {A} (l : list A) (d : A) : map (fun k => nth k l d) (seq 0 (List.length l)) = l.
  Proof.
    apply (nth_ext _ _ d d); [rewrite map_length, seq_length; reflexivity|]. intros k Hk. rewrite map_length, seq_length in Hk.
    rewrite (nth_indep _ d (nth 0 l d)) by (rewrite map_length, seq_length; exact Hk).
    rewrite (map_nth (fun k => nth k l d) (seq 0 (List.length l)) 0 k), seq_nth by exact Hk. reflexivity.
  Qed.
Lemma pix_map (pix : nat -> list R) n (l : list (list R)) : List.length l = n -> (forall k, k < n -> nth_error l k = Some (pix k)) -> l = map pix (seq 0 n).
  Proof.
    intros Ll H. rewrite <- (seq_map l []) at 1. rewrite Ll. apply map_ext_in. intros k Hk. apply in_seq in Hk. apply nth_error_nth. apply H. lia.
  Qed.

Section D.
  Variables (bs : list (sblock R)) (imgs : list (imgpar R)) (locs : list (list (sblock R))) (j : joint) (v : list R).
  Notation n := (List.length locs).
  Variable bufs : list (list R).
  Variable create : nat -> R * R * R -> list R -> res (list R).
  Variable pix : nat -> list R.
  Hypothesis Lj : List.length (j_images j) = n.
  Hypothesis Sees : forall k buf, k < n -> List.length buf = List.length (sflat bs) + List.length (sflat (nth k locs [])) ->
    for_image_i NumR j v k buf = Ok (fst (view imgs bs locs k), sflat (snd (view imgs bs locs k))).
  Hypothesis Bufs : BufsOk bs locs bufs.
  Hypothesis Draws : forall k, k < n -> create k (fst (view imgs bs locs k)) (sflat (snd (view imgs bs locs k))) = Ok (pix k).

  Lemma draw_all : CreateAllModelImages NumR create j v bufs = Ok (map pix (seq 0 n)).
  Proof.
    unfold CreateAllModelImages. rewrite Lj.
    match goal with |- for_ ?m ?f ?s0 = _ => destruct (@for_inv (list (list R)) (fun i st => st = map pix (seq 0 i)) f m s0) as (w & E & P) end.
    - reflexivity.
    - intros k st Hk ->. destruct (buf_at Bufs Hk) as (buf & -> & Lb). cbn [bind]. rewrite (Sees Hk Lb). cbn [bind fst snd]. rewrite (Draws Hk). cbn [bind].
      eexists. split; [reflexivity|]. rewrite seq_S, map_app. reflexivity.
    - rewrite E, P. reflexivity.
  Qed.

  Lemma draw_files dec root : c_str root = root ->
    (forall k, k < n -> List.length (root ++ lit "_" ++ dec k ++ lit ".fits") < 1024) ->
    makemulti_images NumR create dec root j v bufs = Ok (map (fun k => (root ++ lit "_" ++ dec k ++ lit ".fits", pix k)) (seq 0 n)).
  Proof.
    intros Hr Hd. unfold makemulti_images. rewrite draw_all. cbn [bind]. rewrite Lj, Hr.
    match goal with |- for_ ?m ?f ?s0 = _ => destruct (@for_inv (list (str * list R))
      (fun i st => st = map (fun k => (root ++ lit "_" ++ dec k ++ lit ".fits", pix k)) (seq 0 i)) f m s0) as (w & E & P) end.
    - reflexivity.
    - intros k st Hk ->. rewrite get_seq by exact Hk. cbn [bind]. rewrite print_short by (now apply Hd). cbn [bind].
      eexists. split; [reflexivity|]. rewrite seq_S, map_app. reflexivity.
    - rewrite E, P. reflexivity.
  Qed.

  Lemma stat_multi cash objs : List.length objs = n ->
    JointFitStatistic NumR create cash j objs v bufs = MultiFitStatistic NumR cash objs (map pix (seq 0 n)).
  Proof.
    intros Lo. unfold JointFitStatistic, MultiFitStatistic. rewrite Lj, Lo. apply for_ext. intros k st Hk.
    destruct (buf_at Bufs Hk) as (buf & -> & Lb). cbn [bind]. rewrite (Sees Hk Lb). cbn [bind fst snd].
    destruct (get objs k) as [o| | |]; cbn [bind]; auto. rewrite (Draws Hk). cbn [bind]. rewrite get_seq by exact Hk. reflexivity.
  Qed.
  Lemma dev_multi objs y : List.length objs = n ->
    JointDeviates NumR create j objs v bufs y = MultiDeviates NumR objs (map pix (seq 0 n)) y.
  Proof.
    intros Lo. unfold JointDeviates, MultiDeviates. rewrite Lj, Lo. f_equal. apply for_ext. intros k (a, b) Hk.
    destruct (buf_at Bufs Hk) as (buf & -> & Lb). cbn [bind]. rewrite (Sees Hk Lb). cbn [bind fst snd].
    destruct (get objs k) as [o| | |]; cbn [bind]; auto. rewrite (Draws Hk). cbn [bind]. rewrite get_seq by exact Hk. reflexivity.
  Qed.

End D.

(** ---- fitted sections ---- *)
Local Open Scope R_scope.
Lemma place_moved s th X Y x0 y0 x y dx dy : place s th X Y (x0 - dx) (y0 - dy) (x - dx) (y - dy) = place s th X Y x0 y0 x y.
Proof. unfold place. f_equal; ring. Qed.
Lemma seen_moved im dx dy bs : seen_in im (moved_by dx dy bs) = seen_in im bs.
Proof.
  destruct bs as [|b0 t]; [reflexivity|]. unfold moved_by, seen_in. cbn [map]. f_equal; [cbn [s_x s_y s_funcs]; now rewrite place_moved|].
  rewrite map_map. apply map_ext. intros b. cbn [s_x s_y s_funcs]. now rewrite place_moved.
Qed.
Lemma seen_shifted im dx dy bs :
  seen_in (Params_Spec.mkImg (i_pix im) (i_rot im) (i_flux im) (i_x im - dx) (i_y im - dy)) bs = moved_by dx dy (seen_in im bs).
Proof.
  destruct bs as [|b0 t]; [reflexivity|]. unfold moved_by, seen_in. rewrite map_map. apply map_ext. intros b. cbn [s_x s_y s_funcs Params_Spec.i_pix Params_Spec.i_rot Params_Spec.i_x Params_Spec.i_y].
  unfold place. cbn [fst snd]. f_equal; ring.
Qed.
