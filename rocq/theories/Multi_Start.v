(** Proofs about multimfit: start values, limits and degrees of freedom of a joint fit. *)
From Coq Require Import ZArith List Bool Ascii String Lia.
From Verif Require Import Base Num StrUtil_Model StrUtil_Proof Fit_Model Fit_Spec Fit_Proof Config_Model ImgPar_Model Params_Model Params_Spec Params_Proof
  Build_Model Save_Spec Build_Spec Build_Proof Finish_Model Finish_Spec Finish_Hand Multi_Model Multi_Spec Multi_Proof Multi_Draw.
Import ListNotations.
Local Open Scope string_scope.
Local Open Scope list_scope.
Set Implicit Arguments.
Unset Strict Implicit.

Section S.
  Variables (T : Type) (N : Num T).

  Lemma shift_ok i off a x b a' p b' : i = List.length a -> i = List.length a' ->
    shift_par N i off (a ++ x :: b, a' ++ p :: b') = Ok (a ++ less N (Some off) x :: b, a' ++ less_limits N (Some off) p :: b').
  Proof.
    intros H1 H2. unfold shift_par. cbn [fst snd]. rewrite (@get_app_eq _ a b x i H1). cbn [bind]. rewrite (@set_app _ a b x _ i H1). cbn [bind].
    rewrite (@get_app_eq _ a' b' p i H2). cbn [bind]. rewrite (@set_app _ a' b' p _ i H2). reflexivity.
  Qed.

  Definition dv (i : ImageInfo T) := [i_pixelScale i; i_rotation i; i_intensityScale i; i_x0 i; i_y0 i].
  Definition dl (i : ImageInfo T) := [i_pixelScaleLim i; i_rotationLim i; i_intensityScaleLim i; i_x0Lim i; i_y0Lim i].
  Definition sh (o : Z * Z) : list (option Z) := [None; None; None; Some (fst o); Some (snd o)].
  Definition lv ds vs := map (fun dv => less N (fst dv) (snd dv)) (combine ds vs).
  Definition ll ds ps := map (fun dp => less_limits N (fst dp) (snd dp)) (combine ds ps).
  Lemma less_none p : less_limits N None p = p.
  Proof. unfold less_limits, less. destruct p as [f a b lo hi]. cbn. destruct a, b; reflexivity. Qed.
  Lemma lv_app d1 d2 v1 v2 : List.length d1 = List.length v1 -> lv (d1 ++ d2) (v1 ++ v2) = lv d1 v1 ++ lv d2 v2.
  Proof. intros H. unfold lv. rewrite combine_app by exact H. apply map_app. Qed.
  Lemma ll_app d1 d2 v1 v2 : List.length d1 = List.length v1 -> ll (d1 ++ d2) (v1 ++ v2) = ll d1 v1 ++ ll d2 v2.
  Proof. intros H. unfold ll. rewrite combine_app by exact H. apply map_app. Qed.
  Lemma lv_length ds vs : List.length ds = List.length vs -> List.length (lv ds vs) = List.length vs.
  Proof. intros H. unfold lv. rewrite map_length, combine_length. lia. Qed.
  Lemma ll_length ds vs : List.length ds = List.length vs -> List.length (ll ds vs) = List.length vs.
  Proof. intros H. unfold ll. rewrite map_length, combine_length. lia. Qed.

  Lemma phase1 (offs : list (Z * Z)) o0 : forall is os done pre pre' post post',
    offs = o0 :: done ++ os -> List.length is = List.length os ->
    List.length pre = 5 * List.length done -> List.length pre' = 5 * List.length done ->
    for_from (S (List.length done)) (List.length os) (fun n st =>
      do o <- get offs n;
      do st <- shift_par N (n * N_IMAGE_PARAMS - 2) (fst o) st;
      shift_par N (n * N_IMAGE_PARAMS - 2 + 1) (snd o) st) (pre ++ flat_map dv is ++ post, pre' ++ flat_map dl is ++ post') =
    Ok (pre ++ lv (flat_map sh os) (flat_map dv is) ++ post, pre' ++ ll (flat_map sh os) (flat_map dl is) ++ post').
  Proof.
    induction is as [|i is IH]; intros os done pre pre' post post' Ho Hl Lp Lp'; destruct os as [|o os]; try discriminate.
    - reflexivity.
    - cbn [List.length for_from]. subst offs.
      assert (G : get (o0 :: done ++ o :: os) (S (List.length done)) = Ok o).
      { apply get_Ok_iff. cbn [nth_error]. rewrite nth_error_app2, Nat.sub_diag by lia. reflexivity. }
      rewrite G. cbn [bind].
      change (flat_map dv (i :: is)) with (i_pixelScale i :: i_rotation i :: i_intensityScale i :: i_x0 i :: i_y0 i :: flat_map dv is).
      change (flat_map dl (i :: is)) with (i_pixelScaleLim i :: i_rotationLim i :: i_intensityScaleLim i :: i_x0Lim i :: i_y0Lim i :: flat_map dl is).
      change (flat_map sh (o :: os)) with (None :: None :: None :: Some (fst o) :: Some (snd o) :: flat_map sh os).
      cbn [app].
      assert (I : S (List.length done) * N_IMAGE_PARAMS - 2 = 5 * List.length done + 3) by (unfold N_IMAGE_PARAMS, Params_Model.N_IMAGE_PARAMS; lia).
      rewrite I.
      set (r := flat_map dv is ++ post). set (r' := flat_map dl is ++ post').
      change (pre ++ i_pixelScale i :: i_rotation i :: i_intensityScale i :: i_x0 i :: i_y0 i :: r)
        with (pre ++ [i_pixelScale i; i_rotation i; i_intensityScale i] ++ i_x0 i :: i_y0 i :: r).
      change (pre' ++ i_pixelScaleLim i :: i_rotationLim i :: i_intensityScaleLim i :: i_x0Lim i :: i_y0Lim i :: r')
        with (pre' ++ [i_pixelScaleLim i; i_rotationLim i; i_intensityScaleLim i] ++ i_x0Lim i :: i_y0Lim i :: r').
      rewrite !(app_assoc pre), !(app_assoc pre').
      rewrite shift_ok by (rewrite app_length; cbn [List.length]; lia). cbn [bind].
      set (x := less N (Some (fst o)) (i_x0 i)). set (xl := less_limits N (Some (fst o)) (i_x0Lim i)).
      change (x :: i_y0 i :: r) with ([x] ++ i_y0 i :: r). change (xl :: i_y0Lim i :: r') with ([xl] ++ i_y0Lim i :: r').
      rewrite !(app_assoc (_ ++ [_; _; _])).
      rewrite shift_ok by (rewrite !app_length; cbn [List.length]; lia). cbn [bind].
      set (y := less N (Some (snd o)) (i_y0 i)). set (yl := less_limits N (Some (snd o)) (i_y0Lim i)).
      specialize (IH os (done ++ [o]) (pre ++ [i_pixelScale i; i_rotation i; i_intensityScale i; x; y])
        (pre' ++ [i_pixelScaleLim i; i_rotationLim i; i_intensityScaleLim i; xl; yl]) post post').
      assert (Ld : List.length (done ++ [o]) = S (List.length done)) by (rewrite app_length; cbn; lia). rewrite Ld in IH.
      rewrite <- !app_assoc in *. cbn [app] in *. unfold r, r'. rewrite IH.
      + unfold lv, ll. cbn [app combine map fst snd]. rewrite !less_none. reflexivity.
      + reflexivity.
      + cbn in Hl. lia.
      + rewrite app_length. cbn [List.length]. lia.
      + rewrite app_length. cbn [List.length]. lia.
  Qed.

  Definition by_role (ref : Z * Z) (r : role) : option Z := match r with CentreX => Some (fst ref) | CentreY => Some (snd ref) | Other => None end.

  Lemma phase2 (j : joint) ref : forall names (vs : list T) ps ldone pre pre' post post',
    j_labels j = ldone ++ names -> List.length ldone + List.length names <= j_nParamsTot j ->
    List.length vs = List.length names -> List.length ps = List.length names ->
    List.length pre = List.length ldone -> List.length pre' = List.length ldone ->
    for_from (List.length ldone) (List.length names) (fun i st =>
      do name <- JointParameterName j i;
      if str_eqb name (lit "X0") then shift_par N i (fst ref) st
      else if str_eqb name (lit "Y0") then shift_par N i (snd ref) st
      else Ok st) (pre ++ vs ++ post, pre' ++ ps ++ post') =
    Ok (pre ++ lv (map (by_role ref) (map role_of names)) vs ++ post, pre' ++ ll (map (by_role ref) (map role_of names)) ps ++ post').
  Proof.
    induction names as [|nm names IH]; intros vs ps ldone pre pre' post post' Hj Hn Lv Ll Lp Lp'.
    - destruct vs; [|discriminate]. destruct ps; [|discriminate]. reflexivity.
    - destruct vs as [|v vs]; [discriminate|]. destruct ps as [|p ps]; [discriminate|]. cbn [List.length for_from].
      assert (G : JointParameterName j (List.length ldone) = Ok nm).
      { unfold JointParameterName. destruct (Nat.ltb_spec (List.length ldone) (j_nParamsTot j)); [|cbn in Hn; lia].
        rewrite Hj. apply get_app. }
      rewrite G. cbn [bind]. cbn [app].
      set (d := by_role ref (role_of nm)).
      assert (E : (if str_eqb nm (lit "X0") then shift_par N (List.length ldone) (fst ref) (pre ++ v :: vs ++ post, pre' ++ p :: ps ++ post')
             else if str_eqb nm (lit "Y0") then shift_par N (List.length ldone) (snd ref) (pre ++ v :: vs ++ post, pre' ++ p :: ps ++ post')
             else Ok (pre ++ v :: vs ++ post, pre' ++ p :: ps ++ post')) = Ok (pre ++ less N d v :: vs ++ post, pre' ++ less_limits N d p :: ps ++ post')).
      { unfold d, role_of. change X0_string with (lit "X0"). change Y0_string with (lit "Y0").
        destruct (str_eqb nm (lit "X0")); [cbn [by_role]; now apply shift_ok|].
        destruct (str_eqb nm (lit "Y0")); [cbn [by_role]; now apply shift_ok|]. cbn [by_role]. rewrite less_none. reflexivity. }
      rewrite E. cbn [bind].
      specialize (IH vs ps (ldone ++ [nm]) (pre ++ [less N d v]) (pre' ++ [less_limits N d p]) post post').
      assert (Ld : List.length (ldone ++ [nm]) = S (List.length ldone)) by (rewrite app_length; cbn; lia). rewrite Ld in IH.
      rewrite <- !app_assoc in IH. cbn [app] in IH. rewrite IH.
      + reflexivity.
      + exact Hj.
      + cbn in Hn. lia.
      + cbn in Lv. lia.
      + cbn in Ll. lia.
      + rewrite app_length. cbn. lia.
      + rewrite app_length. cbn. lia.
  Qed.

  Lemma copy_list {A} (l : list A) : forall base k acc all, skipn k all = l ->
    for_from (base + k) (List.length l) (fun i a => do p <- get all (i - base); Ok (a ++ [p])) acc = Ok (acc ++ l).
  Proof.
    induction l as [|x l IH]; intros base k acc all Ha; cbn [List.length for_from]; [now rewrite app_nil_r|].
    assert (L := f_equal (@List.length A) Ha). rewrite skipn_length in L. cbn in L.
    assert (G : get all (base + k - base) = Ok x).
    { replace (base + k - base) with k by lia. apply get_Ok_iff. rewrite <- (firstn_skipn k all), Ha.
      rewrite nth_error_app2; rewrite firstn_length_le by lia; [now rewrite Nat.sub_diag|lia]. }
    rewrite G. cbn [bind]. specialize (IH base (S k) (acc ++ [x]) all). rewrite Nat.add_succ_r in IH. rewrite IH.
    - rewrite <- app_assoc. reflexivity.
    - assert (E : skipn (S k) all = skipn 1 (skipn k all)) by (rewrite Fit_Multi.skipn_add; f_equal; lia). rewrite E, Ha. reflexivity.
  Qed.
  Lemma copy_list0 {A} (l acc : list A) base :
    for_from base (List.length l) (fun i a => do p <- get l (i - base); Ok (a ++ [p])) acc = Ok (acc ++ l).
  Proof. pose proof (@copy_list A l base 0 acc l eq_refl) as H. rewrite Nat.add_0_r in H. exact H. Qed.
  Lemma copy_list00 {A} (l acc : list A) : for_ (List.length l) (fun i a => do p <- get l i; Ok (a ++ [p])) acc = Ok (acc ++ l).
  Proof. rewrite <- (copy_list0 l acc 0). apply for_from_ext. intros i a Hi. now rewrite Nat.sub_0_r. Qed.

  Lemma info_ok (dls pls : list (mp_par T)) (infos : list (ImageInfo T)) :
    Forall (fun i => List.length (local_limits i) = List.length (local_values i)) infos ->
    parameter_info (List.length dls) (List.length pls) dls pls infos = Ok (dls ++ pls ++ flat_map local_limits infos).
  Proof.
    intros HF. unfold parameter_info. rewrite copy_list00. cbn [bind]. rewrite copy_list0. cbn [bind app].
    match goal with |- for_ ?n ?f ?s0 = _ => destruct (@for_inv (list (mp_par T)) (fun i st => st = (dls ++ pls) ++ flat_map local_limits (firstn i infos)) f n s0) as (w & E & P) end.
    - cbn. now rewrite app_nil_r.
    - intros i st Hi ->. destruct (nth_error infos i) as [im|] eqn:Ei; [|apply nth_error_None in Ei; lia].
      rewrite (proj2 (get_Ok_iff _ _ _) Ei). cbn [bind]. rewrite Forall_forall in HF. rewrite <- (HF im (nth_error_In _ _ Ei)), copy_list00.
      eexists. split; [reflexivity|]. rewrite (firstn_snoc Ei), flat_map_app. cbn [flat_map]. rewrite app_nil_r, !app_assoc. reflexivity.
    - rewrite E, P, firstn_all, <- app_assoc. reflexivity.
  Qed.

  Lemma free_count (l : list (mp_par T)) : count_free (List.length l) l = Ok (Z.of_nat (List.length (filter (fun p => negb (p_fixed p)) l))).
  Proof.
    unfold count_free.
    match goal with |- for_ ?n ?f ?s0 = _ => destruct (@for_inv _ (fun k c => c = (Z.of_nat n - Z.of_nat (List.length (filter (fun p => p_fixed p) (firstn k l))))%Z) f n s0) as (c & E & P) end.
    - cbn. lia.
    - intros k c Hk ->. destruct (nth_error l k) as [p|] eqn:Ep; [|apply nth_error_None in Ep; lia].
      rewrite (proj2 (get_Ok_iff _ _ _) Ep). cbn [bind]. eexists. split; [reflexivity|].
      rewrite (firstn_snoc Ep), filter_app, app_length. cbn [filter]. destruct (p_fixed p); cbn [List.length]; lia.
    - rewrite E, P, firstn_all. f_equal. clear. induction l as [|p l IH]; [reflexivity|].
      cbn [filter List.length]. destruct (p_fixed p); cbn [negb List.length]; lia.
  Qed.

  Lemma setup_ok (objs objs' : list (mobj T)) : Forall2 (fun o o' => FinalSetupForFitting N o = Ok (0%Z, o')) objs objs' ->
    setup_images N objs = Ok (0%Z, objs').
  Proof.
    intros HF. unfold setup_images.
    match goal with |- for_ ?n ?f ?s0 = _ => destruct (@for_inv (Z * list (mobj T)) (fun i st => st = (0%Z, firstn i objs')) f n s0) as (w & E & P) end.
    - reflexivity.
    - intros i st Hi ->. cbn [Z.ltb Z.compare]. destruct (nth_error objs i) as [o|] eqn:Eo; [|apply nth_error_None in Eo; lia].
      rewrite (proj2 (get_Ok_iff _ _ _) Eo). cbn [bind].
      assert (H : exists o', nth_error objs' i = Some o' /\ FinalSetupForFitting N o = Ok (0%Z, o')).
      { clear Hi. revert i Eo. induction HF as [|a b la lb H HF IH]; intros [|i] H1; try discriminate; [injection H1 as ->; exists b; auto|]. apply IH. exact H1. }
      destruct H as (o' & E1 & E2). rewrite E2. cbn [bind fst snd]. eexists. split; [reflexivity|]. rewrite (firstn_snoc E1). reflexivity.
    - rewrite E, P, firstn_all2; [reflexivity|]. rewrite (Forall2_len HF). lia.
  Qed.
  Lemma for_stay {St} (f : nat -> St -> res St) n : forall k s, (forall i, f i s = Ok s) -> for_from k n f s = Ok s.
  Proof. induction n as [|n IH]; intros k s H; [reflexivity|]. cbn [for_from]. rewrite H. cbn [bind]. apply IH. exact H. Qed.
  Lemma setup_bad (good : list (mobj T)) o rest good' st o' : Forall2 (fun o o' => FinalSetupForFitting N o = Ok (0%Z, o')) good good' ->
    FinalSetupForFitting N o = Ok (st, o') -> (st < 0)%Z -> exists l, setup_images N (good ++ o :: rest) = Ok (st, l).
  Proof.
    intros HF Ho Hs. unfold setup_images. rewrite app_length. cbn [List.length]. unfold for_. rewrite for_from_app.
    pose proof (setup_ok HF) as E. unfold setup_images in E.
    rewrite (@for_from_ext _ _ (fun i '(status, done) => if (status <? 0)%Z then Ok (status, done)
       else do o <- get good i; do r <- FinalSetupForFitting N o; Ok (fst r, done ++ [snd r]))).
    2:{ intros i (a, b) Hi. destruct (a <? 0)%Z; [reflexivity|]. assert (G : get (good ++ o :: rest) i = get good i) by (unfold get; rewrite nth_error_app1 by lia; reflexivity). now rewrite G. }
    unfold for_ in E. rewrite E. cbn [bind Nat.add for_from]. cbn [Z.ltb Z.compare]. rewrite get_app. cbn [bind]. rewrite Ho. cbn [bind fst snd].
    eexists. apply for_stay. intros i. destruct (Z.ltb_spec st 0); [reflexivity|lia].
  Qed.

  (** the vector built before the offsets *)
  Lemma params_ok (desc params : list T) :
    multimfit_params N (List.length desc + List.length params + 0) (List.length desc) (List.length params) desc params [] = Ok (desc ++ params).
  Proof.
    unfold multimfit_params. set (z := nofZ N 0%Z).
    replace (repeat z (List.length desc + List.length params + 0)) with (repeat z (List.length desc) ++ repeat z (List.length params)) by (rewrite <- repeat_app; f_equal; lia).
    rewrite fill00 by apply repeat_length. cbn [bind].
    replace (List.length desc + List.length params + 0 - List.length desc) with (List.length params) by lia.
    pose proof (@fill0 T params desc (repeat z (List.length params)) [] (List.length desc)) as E. rewrite !app_nil_r in E. rewrite E by (auto using repeat_length). reflexivity.
  Qed.
  Lemma read_beyond (params : list T) base m : forall k n (v : list T), List.length params = k + n -> List.length v = base + k + n + S m ->
    for_from (base + k) (n + S m) (fun i v => do x <- get params (i - base); set v i x) v = Undef.
  Proof.
    intros k n. revert k. induction n as [|n IH]; intros k v Lp Lv; cbn [Nat.add for_from].
    - assert (G : get params (base + k - base) = Undef).
      { unfold get. replace (nth_error params (base + k - base)) with (@None T); [reflexivity|]. symmetry. apply nth_error_None. lia. }
      rewrite G. reflexivity.
    - destruct (@get_lt _ params (base + k - base)) as (x & ->); [lia|]. cbn [bind].
      rewrite set_lt by lia. cbn [bind].
      specialize (IH (S k) (upd v (base + k) x)). replace (S (base + k)) with (base + S k) by lia. apply IH; [lia|]. rewrite upd_length. lia.
  Qed.
  Lemma params_beyond (desc params locals : list T) : locals <> [] ->
    multimfit_params N (List.length desc + List.length params + List.length locals) (List.length desc) (List.length params) desc params locals = Undef.
  Proof.
    intros Hl. unfold multimfit_params. set (z := nofZ N 0%Z).
    destruct locals as [|x l]; [congruence|]. cbn [List.length].
    replace (repeat z (List.length desc + List.length params + S (List.length l))) with
      (repeat z (List.length desc) ++ repeat z (List.length params + S (List.length l))) by (rewrite <- repeat_app; f_equal; lia).
    rewrite fill00 by apply repeat_length. cbn [bind].
    replace (List.length desc + List.length params + S (List.length l) - List.length desc) with (List.length params + S (List.length l)) by lia.
    pose proof (@read_beyond params (List.length desc) (List.length l) 0 (List.length params)) as E. rewrite Nat.add_0_r in E. rewrite E; [reflexivity|lia|].
    rewrite app_length, repeat_length. lia.
  Qed.
End S.

Section Main.
  Variables (T : Type) (N : Num T).
  Variables (bs : list (sblock T)) (imgs : list (imgpar T)) (locs : list (list (sblock T))) (infos : list (ImageInfo T)) (psfs : list (option (Z * Z))).
  Hypothesis HI : Images bs imgs locs infos.
  Hypothesis HL : List.length psfs = List.length infos.
  Hypothesis HD : Forall (Drawable bs) (combine psfs locs).

  Lemma joint_ok' : exists ms fs, image_models (shared_of bs) infos psfs = Ok (inr ms) /\ List.length ms = List.length infos /\ joint_model (shared_of bs) ms = Ok (inr (mkJoint ms fs (flag_list (map as_blk bs)) (List.length bs)
        (concat (repeat image_labels (List.length infos - 1)) ++ param_names bs)
        (5 * (List.length infos - 1) + List.length (sflat bs) + List.length (flat_map sflat locs)) (map (fun l => List.length (sflat l)) locs))).
  Proof.
    destruct (im_model HI) as (Hne & HP). pose proof (Forall2_len (im_locals HI)) as Ll.
    destruct (@image_models_ok T bs locs infos psfs Hne HP (im_plain HI) (im_single HI) (im_locals HI) HL) as ([z|ms] & E & H); [destruct H; contradiction|].
    destruct H as (H1 & H2).
    assert (Hnl : locs <> []) by (pose proof (im_count HI) as C; rewrite <- Ll in C; destruct locs; discriminate).
    destruct (@joint_model_ok T bs locs psfs ms Hne HP (im_plain HI)) as (fs & Ej & HF); auto; [congruence|].
    exists ms, fs. rewrite <- Ll. split; [exact E|]. split; [|exact Ej]. rewrite (Forall2_len H1), combine_length. lia.
  Qed.

  Variables (po : pout T) (offs : list (Z * Z)).
  Notation desc := (flat_map (@dv T) (tl infos)).
  Notation descl := (flat_map (@dl T) (tl infos)).
  Lemma desc_len : List.length desc = 5 * (List.length infos - 1).
  Proof. pose proof (im_count HI) as C. destruct infos as [|i l]; [discriminate|]. cbn [tl List.length]. replace (S (List.length l) - 1) with (List.length l) by lia. clear. induction l as [|a l IH]; [reflexivity|]. cbn [flat_map]. rewrite app_length, IH. cbn [dv List.length]. lia. Qed.
  Lemma descl_len : List.length descl = 5 * (List.length infos - 1).
  Proof. pose proof (im_count HI) as C. destruct infos as [|i l]; [discriminate|]. cbn [tl List.length]. replace (S (List.length l) - 1) with (List.length l) by lia. clear. induction l as [|a l IH]; [reflexivity|]. cbn [flat_map]. rewrite app_length, IH. cbn [dl List.length]. lia. Qed.
  Lemma labels_len n : List.length (concat (repeat image_labels n)) = 5 * n.
  Proof. induction n as [|n IH]; [reflexivity|]. cbn [repeat concat]. rewrite app_length, IH. cbn. lia. Qed.
  Lemma local_lengths : Forall (fun i : ImageInfo T => List.length (local_limits i) = List.length (local_values i)) infos.
  Proof.
    pose proof (im_locals HI) as H. clear -H. induction H as [|l i ls is H _ IH]; constructor; [|exact IH]. unfold local_limits, local_values. unfold HasLocal in H.
    destruct (i_perImage i); [tauto|reflexivity].
  Qed.

  Section J.
  Variables (ms : list built) (fs : list fobj).
  Notation j := (mkJoint ms fs (flag_list (map as_blk bs)) (List.length bs)
        (concat (repeat image_labels (List.length infos - 1)) ++ param_names bs)
        (5 * (List.length infos - 1) + List.length (sflat bs) + List.length (flat_map sflat locs)) (map (fun l => List.length (sflat l)) locs)).
  Hypothesis Lm : List.length ms = List.length infos.

  Lemma count_bad objs : List.length (o_params po) <> List.length (sflat bs) ->
    begin_multimfit N j infos desc descl po offs objs = Ok (inl (-1)%Z).
  Proof.
    intros H. unfold begin_multimfit. cbn [j_nParamsTot]. rewrite (locals_flat HI), desc_len.
    match goal with |- context [(?a =? ?b)%nat] => destruct (Nat.eqb_spec a b); [lia|] end. reflexivity.
  Qed.

  Hypothesis Lo : List.length (o_params po) = List.length (sflat bs).
  Hypothesis Ll : List.length (o_limits po) = List.length (o_params po).
  Lemma count_good : (5 * (List.length infos - 1) + List.length (sflat bs) + List.length (flat_map sflat locs) =? List.length desc + List.length (o_params po) + List.length (flat_map local_values infos))%nat = true.
  Proof. apply Nat.eqb_eq. rewrite (locals_flat HI), desc_len. lia. Qed.

  Lemma info_joint : parameter_info (List.length desc) (List.length (o_params po)) descl (o_limits po) infos =
    Ok (descl ++ o_limits po ++ flat_map local_limits infos).
  Proof. rewrite <- (info_ok descl (o_limits po) local_lengths), Ll, desc_len, descl_len. reflexivity. Qed.

  Lemma setup_fails objs st l : setup_images N objs = Ok (st, l) -> (st < 0)%Z ->
    begin_multimfit N j infos desc descl po offs objs = Ok (inl (-1)%Z).
  Proof.
    intros E Hs. unfold begin_multimfit. cbn [j_nParamsTot]. rewrite count_good. cbn [negb]. rewrite E. cbn [bind].
    destruct (Z.ltb_spec st 0); [reflexivity|lia].
  Qed.

  Lemma offsets_joint : List.length offs = List.length infos -> flat_map sflat locs = [] ->
    CorrectForImageOffsets N j offs (desc ++ o_params po) (descl ++ o_limits po) =
    Ok (lv N (shifts bs offs) (desc ++ o_params po), ll N (shifts bs offs) (descl ++ o_limits po)).
  Proof.
    intros Lf Hno. unfold CorrectForImageOffsets. cbn [j_images j_nParamsTot]. rewrite Lm.
    destruct offs as [|o0 os] eqn:Eo; [pose proof (im_count HI); cbn in Lf; lia|]. cbn [List.length] in Lf.
    assert (Li : List.length (tl infos) = List.length os) by (destruct infos; cbn in *; lia).
    assert (Ls : List.length infos - 1 = List.length os) by lia.
    pose proof (@phase1 T N (o0 :: os) o0 (tl infos) os [] [] [] (o_params po) (o_limits po) eq_refl Li eq_refl eq_refl) as E1.
    cbn [List.length app] in E1. rewrite Ls. rewrite E1. cbn [bind].
    assert (G : get (o0 :: os) 0 = Ok o0) by reflexivity. rewrite G. cbn [bind].
    assert (Hsh : List.length (flat_map sh os) = 5 * List.length os).
    { clear. induction os as [|a l IH]; [reflexivity|]. cbn [flat_map]. rewrite app_length, IH. cbn [sh List.length]. lia. }
    assert (Dl := desc_len). assert (Dll := descl_len). rewrite Ls in Dl, Dll.
    assert (Hn : List.length (param_names bs) = List.length (sflat bs)) by (apply names_length; exact (proj2 (im_model HI))).
    pose proof (@phase2 T N j o0 (param_names bs) (o_params po) (o_limits po) (concat (repeat image_labels (List.length infos - 1)))
       (lv N (flat_map sh os) desc) (ll N (flat_map sh os) descl) [] []) as E2.
    rewrite labels_len, Ls in E2. rewrite !app_nil_r in E2. cbn [j_labels j_nParamsTot] in E2. rewrite Hno in *. cbn [List.length] in *.
    rewrite Nat.add_0_r in *.
    assert (Ns : N_IMAGE_PARAMS * List.length os = 5 * List.length os) by reflexivity. rewrite Ns.
    replace (5 * List.length os + List.length (sflat bs) - 5 * List.length os) with (List.length (param_names bs)) by lia.
    rewrite E2; try lia; try reflexivity.
    - rewrite names_roles by (apply plain_sized; exact (proj2 (im_model HI))).
      unfold shifts. cbn [tl hd fst snd]. fold (sh). rewrite lv_app by (rewrite Hsh; symmetry; exact Dl). rewrite ll_app by (rewrite Hsh; symmetry; exact Dll). reflexivity.
    - rewrite lv_length by lia. exact Dl.
    - rewrite ll_length by lia. exact Dll.
  Qed.

  Lemma begin_ok objs objs' : List.length offs = List.length infos -> flat_map sflat locs = [] ->
    setup_images N objs = Ok (0%Z, objs') ->
    exists h, begin_multimfit N j infos desc descl po offs objs =
        Ok (inr (h, (fold_left Z.add (map (@nValid T) objs') 0 - h_free h)%Z, objs')) /\ JointHanded N bs infos po offs h.
  Proof.
    intros Lf Hno Hs. unfold begin_multimfit. cbn [j_nParamsTot]. rewrite count_good. cbn [negb]. rewrite Hs. cbn [bind Z.ltb Z.compare].
    assert (Hll : flat_map local_limits infos = []).
    { pose proof local_lengths as HF. pose proof (locals_flat HI) as Hv. rewrite Hno in Hv. clear -HF Hv. induction HF as [|i l H _ IH]; [reflexivity|].
      cbn [flat_map] in *. apply app_eq_nil in Hv. destruct Hv as (V1 & V2). rewrite IH by exact V2. rewrite V1 in H. destruct (local_limits i); [reflexivity|discriminate]. }
    rewrite info_joint. cbn [bind]. rewrite Hll, app_nil_r.
    pose proof (free_count (descl ++ o_limits po)) as EF.
    rewrite app_length, descl_len, Ll, Lo in EF.
    pose proof (params_ok N desc (o_params po)) as EP.
    rewrite desc_len, Lo in EP. rewrite (locals_flat HI), Hno, desc_len, Lo. cbn [List.length].
    rewrite Nat.add_0_r in *. rewrite EF. cbn [bind]. rewrite EP. cbn [bind].
    pose proof (offsets_joint Lf Hno) as E. rewrite Hno in E. cbn [List.length] in E. rewrite Nat.add_0_r in E. rewrite E. cbn [bind fst snd].
    exists (mkHand (lv N (shifts bs offs) (desc ++ o_params po)) (ll N (shifts bs offs) (descl ++ o_limits po))
      (Z.of_nat (List.length (filter (fun p => negb (p_fixed p)) (descl ++ o_limits po))))).
    split; [reflexivity|]. constructor; reflexivity.
  Qed.

  Lemma begin_locals objs objs' : flat_map sflat locs <> [] -> setup_images N objs = Ok (0%Z, objs') ->
    begin_multimfit N j infos desc descl po offs objs = Undef.
  Proof.
    intros Hno Hs. unfold begin_multimfit. cbn [j_nParamsTot]. rewrite count_good. cbn [negb]. rewrite Hs. cbn [bind Z.ltb Z.compare].
    rewrite info_joint. cbn [bind].
    assert (Lll : List.length (flat_map local_limits infos) = List.length (flat_map sflat locs)).
    { rewrite <- (locals_flat HI). pose proof local_lengths as HF. clear -HF. induction HF as [|i l H _ IH]; [reflexivity|]. cbn [flat_map]. rewrite !app_length, IH, H. reflexivity. }
    pose proof (free_count (descl ++ o_limits po ++ flat_map local_limits infos)) as EF.
    rewrite !app_length, descl_len, Ll, Lo, Lll, Nat.add_assoc in EF. rewrite EF. cbn [bind].
    pose proof (@params_beyond T N desc (o_params po) (flat_map sflat locs) Hno) as EP.
    rewrite desc_len, Lo in EP. rewrite (locals_flat HI), desc_len, Lo, EP. reflexivity.
  Qed.
  End J.
End Main.
