(** The major axes of the 3D bars are not where the manual puts them. *)
From Coq Require Import Reals Lra Lia List ZArith.
From Coquelicot Require Import Coquelicot.
From Verif Require Import Los_Spec Func_Proof Func_Profile Los_Proof Los_Value Los_Column.
Import ListNotations.
Set Implicit Arguments. Unset Strict Implicit.
Local Open Scope R_scope.

Lemma exact_accurate : accurate 0 (fun f a b => RInt f a b).
Proof. intros f a b _ _ _. rewrite Rminus_eq_0, Rabs_R0. lra. Qed.

Lemma exact_value k d ps off xc yc x y : (off + nParams3 k <= length ps)%nat -> sensible3 k d ps off -> is_bar k = true ->
  value3D NumR (fun f a b => RInt f a b) k d ps off xc yc x y = Ok (column k d ps off (actual_axis k ps off) (x - xc) (y - yc)).
Proof.
  intros L S B. destruct (@pixel_accuracy k d ps off xc yc x y 0 _ L S exact_accurate (Rle_refl 0)) as (v & Ev & Hv).
  rewrite Ev. f_equal. assert (A : accuracy3 0 k d ps off = 0).
  { unfold accuracy3. replace (guard_error k d ps off) with 0 by (destruct k; try discriminate; reflexivity). rewrite exp_0. ring. }
  rewrite A, Rmult_0_l in Hv. apply Rabs_le_between in Hv. lra.
Qed.

Definition ferrers_witness : list R := [-90; 0; -90; 1; 1; 1 / 2; 1 / 2; 1].
Definition peanut_witness : list R := [-90; 0; -90; 1; 1; 1 / 2; 1; 1; 0; 1; 1; 1].
Lemma zero_angle : (-90 - 0 + 90) * deg = 0. Proof. unfold deg. lra. Qed.

(** the components of a vector in a face-on frame *)
Lemma face_on_dots x s t :
  dot (mkvec x 0 s) (in_plane 0 0 t) = x * cos t /\ dot (mkvec x 0 s) (pole 0 0) = - s.
Proof.
  unfold dot, in_plane, pole, combine, nodes, across. cbn [vx vy vz]. rewrite cos_0, sin_0. split; ring.
Qed.

Lemma ferrers_axis :
  column FerrersBar3D (default_desc NumR) ferrers_witness 0 (actual_axis FerrersBar3D ferrers_witness 0) (9 / 10) 0
  < column FerrersBar3D (default_desc NumR) ferrers_witness 0 (documented_axis ferrers_witness 0) (9 / 10) 0.
Proof.
  set (D := default_desc NumR). set (ps := ferrers_witness).
  assert (S : sensible3 FerrersBar3D D ps 0).
  { unfold sensible3, ps, ferrers_witness, D, default_desc. cbn [nth Nat.add pixelScaling intensityScale nofZ NumR]. lra. }
  assert (E : forall t s, luminosity FerrersBar3D D ps 0 t (mkvec (9 / 10) 0 s) =
     ferrers 1 1 (1 / 2) (1 / 2) 1 (9 / 10 * cos t) (9 / 10 * cos (t + PI / 2)) (- s)).
  { intros t s. unfold luminosity. cbv zeta. unfold ps, ferrers_witness, D, default_desc.
    cbn [nth Nat.add pixelScaling imageRotation intensityScale nofZ NumR]. unfold direction. rewrite zero_angle, !Rmult_1_r, Rmult_0_l.
    destruct (face_on_dots (9 / 10) s t) as (-> & ->). destruct (face_on_dots (9 / 10) s (t + PI / 2)) as (-> & _). reflexivity. }
  assert (Z : documented_axis ps 0 = 0).
  { unfold documented_axis, ps, ferrers_witness. cbn [nth Nat.add]. lra. }
  assert (Z' : actual_axis FerrersBar3D ps 0 = PI / 2) by (unfold actual_axis; rewrite Z; lra).
  rewrite Z, Z'. apply Rle_lt_trans with 0.
  - right. unfold column. rewrite (RInt_ext _ (fun _ => 0)).
    + rewrite RInt_const. unfold scal. simpl. unfold mult. simpl. ring.
    + intros s _. rewrite E. unfold ferrers. cbv zeta. rewrite cos_PI2. replace (PI / 2 + PI / 2) with PI by lra. rewrite cos_PI.
      match goal with |- (if Rlt_dec ?m 1 then _ else _) = 0 => destruct (Rlt_dec m 1) as [L|]; auto; exfalso end.
      pose proof (pow2_ge_0 (- s / (1 / 2 * 1))). lra.
  - unfold column. set (f := fun s => luminosity FerrersBar3D D ps 0 0 (mkvec (9 / 10) 0 s)).
    assert (F : integrable f) by now apply lum_integrable. assert (P : forall s, 0 <= f s) by (intros s; now apply lum_nonneg).
    set (a := reach FerrersBar3D D ps 0). assert (Ha : 1 / 10 <= a).
    { unfold a, reach, ps, ferrers_witness, D, default_desc. cbn [nth Nat.add pixelScaling nofZ NumR].
      match goal with |- _ <= _ * Rmax ?b ?c => pose proof (Rmax_r b c) end. lra. }
    rewrite <- (RInt_Chasles f (- a) (- (1 / 10)) a) by apply F. rewrite <- (RInt_Chasles f (- (1 / 10)) (1 / 10) a) by apply F.
    assert (A1 : 0 <= RInt f (- a) (- (1 / 10))) by (apply RInt_ge_0; [lra|apply F|auto]).
    assert (A2 : 0 <= RInt f (1 / 10) a) by (apply RInt_ge_0; [lra|apply F|auto]).
    assert (A3 : 0.15 * 0.2 <= RInt f (- (1 / 10)) (1 / 10)).
    { replace (0.15 * 0.2) with (RInt (fun _ : R => 0.15) (- (1 / 10)) (1 / 10)).
      - apply RInt_le; [lra|apply ex_RInt_const|apply F|]. intros s Hs. unfold f. rewrite E. unfold ferrers. cbv zeta.
        rewrite cos_0, Rplus_0_l, cos_PI2.
        assert (s ^ 2 <= 0.01) by nra.
        match goal with |- _ <= (if Rlt_dec ?m 1 then _ else _) => assert (Hm : m <= 0.85) by lra; destruct (Rlt_dec m 1); [|lra] end.
        rewrite Rpower_1 by lra. lra.
      - rewrite RInt_const. unfold scal. simpl. unfold mult. simpl. lra. }
    unfold plus. simpl. lra.
Qed.

Lemma Rpow_x1 x : 0 <= x -> Rpow x 1 = x.
Proof. intros H. destruct (Req_dec x 0) as [->|N]; [apply Rpow_0; lra|]. rewrite Rpow_eq by lra. apply Rpower_1. lra. Qed.
Lemma cosh_lt a b : 0 <= a < b -> cosh a < cosh b.
Proof.
  intros H. unfold cosh. assert (E : forall x, exp (- x) = / exp x) by (intros; apply exp_Ropp). rewrite !E.
  assert (A : 1 <= exp a) by (rewrite <- exp_0; apply exp_le; lra). assert (B : exp a < exp b) by (apply exp_increasing; lra).
  set (u := exp a) in *. set (v := exp b) in *.
  assert (C : v + / v - (u + / u) = (v - u) * (1 - / (u * v))) by (field; lra).
  assert (Huv : 1 < u * v) by nra. assert (I : / (u * v) < 1) by (rewrite <- Rinv_1; apply Rinv_lt_contravar; lra).
  assert (0 < (v - u) * (1 - / (u * v))) by (apply Rmult_lt_0_compat; lra). lra.
Qed.
Lemma cosh_pos x : 0 < cosh x. Proof. unfold cosh. pose proof (exp_pos x). pose proof (exp_pos (- x)). lra. Qed.

Lemma peanut_axis :
  column DattathriPeanut3D (default_desc NumR) peanut_witness 0 (actual_axis DattathriPeanut3D peanut_witness 0) 1 0
  < column DattathriPeanut3D (default_desc NumR) peanut_witness 0 (documented_axis peanut_witness 0) 1 0.
Proof.
  set (D := default_desc NumR). set (ps := peanut_witness).
  assert (E : forall t s, luminosity DattathriPeanut3D D ps 0 t (mkvec 1 0 s) =
     / cosh (Rabs (cos t) + 2 * Rabs (cos (t + PI / 2)) + Rabs s) ^ 2).
  { intros t s. unfold luminosity. cbv zeta. unfold ps, peanut_witness, D, default_desc.
    cbn [nth Nat.add pixelScaling imageRotation intensityScale nofZ NumR]. unfold direction. rewrite zero_angle, !Rmult_1_r, !Rmult_0_l.
    destruct (face_on_dots 1 s t) as (-> & ->). destruct (face_on_dots 1 s (t + PI / 2)) as (-> & _).
    unfold peanut, peanut_height. cbv zeta. rewrite !Rmult_1_l, !Rmult_0_l, !Rplus_0_l, !Rmult_1_r, Rabs_Ropp.
    pose proof (Rabs_pos (cos t)) as B1. pose proof (Rabs_pos (cos (t + PI / 2))) as B2. pose proof (Rabs_pos s) as B3.
    replace (Rabs (cos t) / 1) with (Rabs (cos t)) by field. replace (Rabs s / 1) with (Rabs s) by field. replace (1 / 1) with 1 by field.
    replace (Rabs (cos (t + PI / 2)) / (1 / 2)) with (2 * Rabs (cos (t + PI / 2))) by field.
    rewrite (Rpow_x1 B1), (Rpow_x1 B3), (@Rpow_x1 (2 * _)) by lra. rewrite (@Rpow_x1 (Rabs (cos t) + 2 * Rabs (cos (t + PI / 2)))) by lra. rewrite Rpow_x1 by lra.
    unfold Rdiv. ring. }
  assert (Z : documented_axis ps 0 = 0).
  { unfold documented_axis, ps, peanut_witness. cbn [nth Nat.add]. lra. }
  assert (Z' : actual_axis DattathriPeanut3D ps 0 = - (90 * deg)) by (unfold actual_axis, ps, peanut_witness; cbn [nth Nat.add]; lra).
  rewrite Z, Z'. unfold column.
  set (a := reach DattathriPeanut3D D ps 0). assert (Ha : a = 10).
  { unfold a, reach, ps, peanut_witness, D, default_desc. cbn [nth Nat.add pixelScaling nofZ NumR]. lra. }
  set (m := Rabs (cos (- (90 * deg))) + 2 * Rabs (cos (- (90 * deg) + PI / 2))).
  rewrite (RInt_ext _ (fun s => / cosh (m + Rabs s) ^ 2)) by (intros s _; apply E).
  rewrite (RInt_ext (fun s => luminosity DattathriPeanut3D D ps 0 0 (mkvec 1 0 s)) (fun s => / cosh (1 + Rabs s) ^ 2)).
  2:{ intros s _. rewrite E. rewrite cos_0, Rplus_0_l, cos_PI2, Rabs_R0, Rabs_R1. replace (1 + 2 * 0) with 1 by ring. reflexivity. }
  assert (Hm : 1 < m).
  { unfold m. rewrite cos_plus, cos_PI2, sin_PI2, cos_neg, sin_neg.
    replace (cos (90 * deg) * 0 - - sin (90 * deg) * 1) with (sin (90 * deg)) by ring.
    assert (Hs : 0 < sin (90 * deg)).
    { apply sin_gt_0; [unfold deg; lra|]. pose proof PI2_3_2. unfold deg. lra. }
    pose proof (sin2_cos2 (90 * deg)) as Q. unfold Rsqr in Q. rewrite (Rabs_pos_eq (sin _)) by lra.
    set (s := sin (90 * deg)) in *. set (c := cos (90 * deg)) in *. pose proof (Rabs_pos c) as Pc.
    assert (Rabs c * Rabs c = c * c) by (rewrite <- Rabs_mult; apply Rabs_pos_eq; nra).
    assert (1 <= Rabs c + s) by nra. lra. }
  assert (C : forall q, cont (fun s => / cosh (q + Rabs s) ^ 2)).
  { intros q. assert (C1 : cont (fun s => cosh (q + Rabs s) ^ 2)).
    { apply (@cont_pow (fun s => cosh (q + Rabs s)) 2), (@cont_cosh (fun s => q + Rabs s)).
      apply cont_plus; [apply cont_const|apply cont_abs, cont_id]. }
    refine (@cont_inv (fun s => cosh (q + Rabs s) ^ 2) C1 _). intros s.
    apply (@pow_nonzero (cosh (q + Rabs s)) 2). pose proof (cosh_pos (q + Rabs s)). lra. }
  apply RInt_lt.
  - lra.
  - intros s _. apply C.
  - intros s _. apply C.
  - intros s _. pose proof (Rabs_pos s).
    assert (L : cosh (1 + Rabs s) < cosh (m + Rabs s)) by (apply cosh_lt; lra). pose proof (cosh_pos (1 + Rabs s)).
    apply Rinv_lt_contravar; [apply Rmult_lt_0_compat; apply pow_lt; lra|]. nra.
Qed.

Lemma bar_axis k : is_bar k = true ->
  exists ps x y v, length ps = nParams3 k /\ sensible3 k (default_desc NumR) ps 0 /\
    value3D NumR (fun f a b => RInt f a b) k (default_desc NumR) ps 0 0 0 x y = Ok v /\
    v < column k (default_desc NumR) ps 0 (documented_axis ps 0) x y.
Proof.
  intros B. destruct k; try discriminate.
  - exists ferrers_witness, (9 / 10), 0. eexists. split; [reflexivity|].
    assert (S : sensible3 FerrersBar3D (default_desc NumR) ferrers_witness 0).
    { unfold sensible3, ferrers_witness, default_desc. cbn [nth Nat.add pixelScaling intensityScale nofZ NumR]. lra. }
    split; auto. split; [apply exact_value; auto; cbn; lia|]. rewrite !Rminus_0_r. exact ferrers_axis.
  - exists peanut_witness, 1, 0. eexists. split; [reflexivity|].
    assert (S : sensible3 DattathriPeanut3D (default_desc NumR) peanut_witness 0).
    { unfold sensible3, peanut_witness, default_desc. cbn [nth Nat.add pixelScaling intensityScale nofZ NumR]. lra. }
    split; auto. split; [apply exact_value; auto; cbn; lia|]. rewrite !Rminus_0_r. exact peanut_axis.
Qed.
