(** Proofs about multimfit: fitting image sections only moves the centres. *)
From Coq Require Import ZArith List Bool Ascii String Reals Lra Lia.
From Verif Require Import Base Num StrUtil_Model StrUtil_Proof Fit_Model Fit_Spec Fit_Proof Config_Model ImgPar_Model Params_Model Params_Spec Params_Proof
  Build_Model Save_Spec Build_Spec Build_Proof Finish_Model Finish_Spec Finish_Hand Multi_Model Multi_Spec Multi_Proof Multi_Draw Multi_Start.
Import ListNotations.
Local Open Scope string_scope.
Local Open Scope list_scope.
Set Implicit Arguments.
Unset Strict Implicit.

Lemma no_locals {T} (locs : list (list (sblock T))) : Forall (fun l => l = []) locs -> flat_map sflat locs = [].
Proof. induction 1 as [|l ls -> _ IH]; [reflexivity|]. exact IH. Qed.
Lemma no_local {T} (locs : list (list (sblock T))) k : Forall (fun l => l = []) locs -> nth k locs [] = [].
Proof. intros H. revert k. induction H as [|l ls -> _ IH]; intros [|k]; cbn [nth]; auto. Qed.

Local Open Scope R_scope.
Lemma lv_none (vs : list R) : lv NumR (repeat None (List.length vs)) vs = vs.
Proof. induction vs as [|v vs IH]; [reflexivity|]. unfold lv in *. cbn [List.length repeat combine map fst snd less]. now rewrite IH. Qed.

Lemma lv_imgs : forall (os : list (Z * Z)) (imgs : list (imgpar R)), List.length os = List.length imgs ->
  lv NumR (flat_map sh os) (img_flat imgs) = img_flat (in_sections ((0, 0)%Z :: os) imgs).
Proof.
  induction os as [|o os IH]; intros [|im imgs] H; try discriminate; [reflexivity|].
  cbn [List.length] in H. injection H as H. specialize (IH imgs H).
  change (flat_map sh (o :: os)) with (None :: None :: None :: Some (fst o) :: Some (snd o) :: flat_map sh os).
  change (img_flat (im :: imgs)) with (i_pix im :: i_rot im :: i_flux im :: i_x im :: i_y im :: img_flat imgs).
  unfold lv in *. cbn [combine map fst snd less]. rewrite IH. reflexivity.
Qed.
Lemma roles_len (bs : list (sblock R)) : List.length (roles bs) = List.length (sflat bs).
Proof. apply roles_length. Qed.
Lemma lv_model ref (bs : list (sblock R)) :
  lv NumR (map (by_role ref) (roles bs)) (sflat bs) = sflat (moved_by (IZR (fst ref)) (IZR (snd ref)) bs).
Proof.
  induction bs as [|b bs IH]; [reflexivity|].
  assert (E1 : roles (b :: bs) = (CentreX :: CentreY :: repeat Other (List.length (concat (map s_vals (s_funcs b))))) ++ roles bs)
    by (unfold roles; cbn [flat_map]; rewrite flat_map_concat_map; reflexivity).
  assert (E2 : sflat (b :: bs) = (s_x b :: s_y b :: concat (map s_vals (s_funcs b))) ++ sflat bs) by reflexivity.
  assert (E3 : sflat (moved_by (IZR (fst ref)) (IZR (snd ref)) (b :: bs)) =
     (s_x b - IZR (fst ref) :: s_y b - IZR (snd ref) :: concat (map s_vals (s_funcs b))) ++ sflat (moved_by (IZR (fst ref)) (IZR (snd ref)) bs)) by reflexivity.
  rewrite E1, E2, E3, map_app, lv_app by (cbn [List.length map]; rewrite map_length, repeat_length; reflexivity).
  rewrite IH. f_equal. set (c := concat _). cbn [map by_role]. 
  assert (Er : map (by_role ref) (repeat Other (List.length c)) = repeat None (List.length c)) by (clear; generalize (List.length c) as m; induction m as [|m IHm]; [reflexivity|]; cbn [repeat map by_role]; now rewrite IHm).
  rewrite Er. pose proof (lv_none c) as L. unfold lv in *. cbn [combine map fst snd less]. rewrite L. reflexivity.
Qed.

Lemma moved_shape dx dy (bs : list (sblock R)) : same_shape bs (moved_by dx dy bs).
Proof. unfold same_shape, moved_by. induction bs as [|b bs IH]; cbn [map]; constructor; auto. cbn [s_funcs]. induction (s_funcs b); constructor; auto. repeat split. Qed.

Lemma start_vector (bs : list (sblock R)) (imgs : list (imgpar R)) o0 os locs : List.length os = List.length imgs -> flat_map sflat locs = [] ->
  lv NumR (shifts bs (o0 :: os)) (img_flat imgs ++ sflat bs) =
  joint_vector (in_sections (o0 :: os) imgs) (moved_by (IZR (fst o0)) (IZR (snd o0)) bs) locs.
Proof.
  intros H Hl. unfold shifts, joint_vector. cbn [tl hd]. rewrite Hl, app_nil_r.
  change (fun o : Z * Z => [None; None; None; Some (fst o); Some (snd o)]) with sh.
  change (fun r => match r with CentreX => Some (fst o0) | CentreY => Some (snd o0) | Other => None end) with (by_role o0).
  assert (L : List.length (flat_map sh os) = List.length (img_flat imgs)).
  { clear -H. revert imgs H. induction os as [|o os IH]; intros [|im imgs] H; try discriminate; [reflexivity|].
    cbn [flat_map img_flat app List.length sh]. cbn in H. injection H as H. unfold img_flat in IH. rewrite (IH imgs H). reflexivity. }
  rewrite lv_app by exact L. rewrite lv_imgs by exact H. rewrite lv_model. reflexivity.
Qed.

Lemma view_sections (bs : list (sblock R)) (imgs : list (imgpar R)) o0 os locs k : List.length os = List.length imgs ->
  Forall (fun l => l = []) locs -> (k <= List.length imgs)%nat ->
  view (in_sections (o0 :: os) imgs) (moved_by (IZR (fst o0)) (IZR (snd o0)) bs) locs k =
  (fst (view imgs bs locs k), moved_by (IZR (fst (nth k (o0 :: os) (0, 0)%Z))) (IZR (snd (nth k (o0 :: os) (0, 0)%Z))) (snd (view imgs bs locs k))).
Proof.
  intros H Hl Hk. unfold view. destruct k as [|k].
  - rewrite (no_local 0 Hl), !app_nil_r. reflexivity.
  - cbn [nth]. destruct (nth_error imgs k) as [im|] eqn:E; [|apply nth_error_None in E; lia].
    rewrite (no_local (S k) Hl).
    destruct (nth_error os k) as [o|] eqn:Eo; [|apply nth_error_None in Eo; lia].
    assert (Ec : nth_error (in_sections (o0 :: os) imgs) k =
       Some (Params_Spec.mkImg (i_pix im) (i_rot im) (i_flux im) (i_x im - IZR (fst o)) (i_y im - IZR (snd o)))).
    { unfold in_sections. cbn [tl]. rewrite nth_error_map.
      assert (Ec : nth_error (combine os imgs) k = Some (o, im)).
      { clear -E Eo. revert imgs k E Eo. induction os as [|a l IH]; intros [|b m] [|k] H1 H2; cbn in *; try discriminate; [congruence|]. now apply IH. }
      rewrite Ec. reflexivity. }
    rewrite Ec, (nth_error_nth _ _ _ Eo). cbn [fst snd Params_Spec.i_pix Params_Spec.i_rot Params_Spec.i_flux]. f_equal.
    rewrite !app_nil_r, seen_shifted, seen_moved. reflexivity.
Qed.
Lemma sections_pix o0 (os : list (Z * Z)) (imgs : list (imgpar R)) : Forall (fun im => 0 < i_pix im) imgs -> Forall (fun im => 0 < i_pix im) (in_sections (o0 :: os) imgs).
Proof.
  unfold in_sections. cbn [tl]. intros H. revert os. induction H as [|im imgs H _ IH]; intros [|o os]; cbn [combine map]; constructor; auto.
Qed.
Lemma sections_len o0 (os : list (Z * Z)) (imgs : list (imgpar R)) : List.length os = List.length imgs -> List.length (in_sections (o0 :: os) imgs) = List.length imgs.
Proof. intros H. unfold in_sections. cbn [tl]. rewrite map_length, combine_length. lia. Qed.
