(** Statements about pixel values that combine the accuracy of a pixel value with
    properties of the line-of-sight integral. *)
From Coq Require Import Reals Lra Lia List ZArith.
From Coquelicot Require Import Coquelicot.
From Verif Require Import Los_Spec Func_Proof Func_Profile Los_Proof Los_Value Los_Column Los_Image Los_Bar Los_Axis.
Import ListNotations.
Set Implicit Arguments. Unset Strict Implicit.
Local Open Scope R_scope.

Lemma frame_orthonormal phi i t :
  dot (in_plane phi i t) (in_plane phi i t) = 1 /\ dot (pole phi i) (pole phi i) = 1 /\
  dot (in_plane phi i t) (in_plane phi i (t + PI / 2)) = 0 /\ dot (in_plane phi i t) (pole phi i) = 0.
Proof.
  unfold dot, in_plane, pole, combine, nodes, across. cbn [vx vy vz]. rewrite cos_plus, sin_plus, cos_PI2, sin_PI2.
  pose proof (sin2_cos2 phi) as E1. pose proof (sin2_cos2 i) as E2. pose proof (sin2_cos2 t) as E3. unfold Rsqr in *.
  set (cp := cos phi) in *. set (sp := sin phi) in *. set (ci := cos i) in *. set (si := sin i) in *. set (ct := cos t) in *. set (st := sin t) in *.
  repeat split.
  - transitivity (ct * ct * (sp * sp + cp * cp) + st * st * (ci * ci * (sp * sp + cp * cp) + si * si)); [ring|].
    rewrite E1. transitivity (ct * ct + st * st * (si * si + ci * ci)); [ring|]. rewrite E2. lra.
  - transitivity (si * si * (sp * sp + cp * cp) + ci * ci); [ring|]. rewrite E1. lra.
  - transitivity (- ct * st * (sp * sp + cp * cp) + ct * st * (ci * ci * (sp * sp + cp * cp) + si * si)); [ring|].
    rewrite E1. transitivity (- ct * st + ct * st * (si * si + ci * ci)); [ring|]. rewrite E2. ring.
  - transitivity (st * ci * si * (sp * sp + cp * cp) - st * si * ci); [ring|]. rewrite E1. ring.
Qed.

Section Pixel.
Variables (k : Kind3) (d : ImageDesc R) (ps : list R) (off : nat) (tol : R) (Q : (R -> R) -> R -> R -> R) (xc yc : R).
Hypothesis L : (off + nParams3 k <= length ps)%nat.
Hypothesis S : sensible3 k d ps off.
Hypothesis A : accurate tol Q.
Hypothesis Ht : 0 <= tol.
Notation value := (value3D NumR Q k d ps off xc yc).
Notation light := (column k d ps off (actual_axis k ps off)).
Notation acc := (accuracy3 tol k d ps off).

Lemma pixel_two x y x' y' : light (x' - xc) (y' - yc) = light (x - xc) (y - yc) ->
  exists v v', value x y = Ok v /\ value x' y' = Ok v' /\ Rabs (v - v') <= 2 * acc * light (x - xc) (y - yc).
Proof.
  intros E. destruct (@pixel_accuracy k d ps off xc yc x y tol Q L S A Ht) as (v & Ev & Hv).
  destruct (@pixel_accuracy k d ps off xc yc x' y' tol Q L S A Ht) as (v' & Ev' & Hv').
  exists v, v'. split; auto. split; auto. rewrite E in Hv'.
  apply Rabs_le_between in Hv. apply Rabs_le_between in Hv'. apply Rabs_le. lra.
Qed.

Lemma pixel_half_turn x y :
  exists v v', value x y = Ok v /\ value (2 * xc - x) (2 * yc - y) = Ok v' /\ Rabs (v - v') <= 2 * acc * light (x - xc) (y - yc).
Proof.
  apply pixel_two. replace (2 * xc - x - xc) with (- (x - xc)) by ring. replace (2 * yc - y - yc) with (- (y - yc)) by ring.
  now apply column_half_turn.
Qed.

Notation phi := (direction (nth (0 + off) ps 0) (imageRotation d)).
Lemma pixel_mirror a b : is_disc k = true ->
  (exists v v', value (xc + along_x phi a b) (yc + along_y phi a b) = Ok v /\
    value (xc + along_x phi (- a) b) (yc + along_y phi (- a) b) = Ok v' /\
    Rabs (v - v') <= 2 * acc * light (along_x phi a b) (along_y phi a b)) /\
  (exists v v', value (xc + along_x phi a b) (yc + along_y phi a b) = Ok v /\
    value (xc + along_x phi a (- b)) (yc + along_y phi a (- b)) = Ok v' /\
    Rabs (v - v') <= 2 * acc * light (along_x phi a b) (along_y phi a b)).
Proof.
  intros D. assert (E : forall c z, c + z - c = z) by (intros; ring).
  split.
  - destruct (@pixel_two (xc + along_x phi a b) (yc + along_y phi a b) (xc + along_x phi (- a) b) (yc + along_y phi (- a) b))
      as (v & v' & H1 & H2 & H3).
    + rewrite !E. now apply disc_mirror.
    + exists v, v'. rewrite !E in H3. auto.
  - destruct (@pixel_two (xc + along_x phi a b) (yc + along_y phi a b) (xc + along_x phi a (- b)) (yc + along_y phi a (- b)))
      as (v & v' & H1 & H2 & H3).
    + rewrite !E. now apply disc_mirror'.
    + exists v, v'. rewrite !E in H3. auto.
Qed.

Lemma pixel_round x y x' y' : is_disc k = true -> nth (1 + off) ps 0 = 0 ->
  (x - xc) ^ 2 + (y - yc) ^ 2 = (x' - xc) ^ 2 + (y' - yc) ^ 2 ->
  exists v v', value x y = Ok v /\ value x' y' = Ok v' /\ Rabs (v - v') <= 2 * acc * light (x - xc) (y - yc).
Proof.
  intros D I E. apply pixel_two. rewrite (@face_on k d ps off (actual_axis k ps off) (x' - xc) (y' - yc) D I).
  rewrite (@face_on k d ps off (actual_axis k ps off) (x - xc) (y - yc) D I). now rewrite E.
Qed.

Lemma acc_nonneg : 0 <= acc.
Proof.
  unfold accuracy3. pose proof (guard_error_nonneg S) as G. pose proof (@exp_le 0 _ G) as H. rewrite exp_0 in H. nra.
Qed.

Lemma pixel_dark x y : light (x - xc) (y - yc) = 0 -> value x y = Ok 0.
Proof.
  intros Z. destruct (@pixel_accuracy k d ps off xc yc x y tol Q L S A Ht) as (v & Ev & Hv).
  rewrite Z, Rmult_0_r in Hv. rewrite Ev. f_equal. apply Rabs_le_between in Hv. lra.
Qed.
End Pixel.

Lemma face_on_exponential d ps off tol Q xc yc x y :
  (off + 6 <= length ps)%nat -> sensible3 ExponentialDisk3D d ps off -> accurate tol Q -> 0 <= tol ->
  nth (1 + off) ps 0 = 0 ->
  let h := nth (3 + off) ps 0 * pixelScaling d in
  let r := sqrt ((x - xc) ^ 2 + (y - yc) ^ 2) in
  exists v v0, value3D NumR Q ExponentialDisk3D d ps off xc yc x y = Ok v /\
    value3D NumR Q ExponentialDisk3D d ps off xc yc xc yc = Ok v0 /\
    Rabs (v - exp (- r / h) * v0) <= 2 * accuracy3 tol ExponentialDisk3D d ps off * exp (- r / h) *
      column ExponentialDisk3D d ps off 0 0 0.
Proof.
  intros L S A Ht I h r.
  destruct (@pixel_accuracy ExponentialDisk3D d ps off xc yc x y tol Q L S A Ht) as (v & Ev & Hv).
  destruct (@pixel_accuracy ExponentialDisk3D d ps off xc yc xc yc tol Q L S A Ht) as (v0 & Ev0 & Hv0).
  exists v, v0. split; auto. split; auto.
  rewrite (@face_on ExponentialDisk3D d ps off (actual_axis ExponentialDisk3D ps off) (x - xc) (y - yc) eq_refl I) in Hv.
  rewrite !Rminus_eq_0 in Hv0.
  change (column ExponentialDisk3D d ps off (actual_axis ExponentialDisk3D ps off) 0 0) with (column ExponentialDisk3D d ps off 0 0 0) in *.
  fold h r in Hv. set (e := exp (- r / h)) in *. assert (Pe : 0 < e) by apply exp_pos.
  set (C := column ExponentialDisk3D d ps off 0 0 0) in *. set (a := accuracy3 tol ExponentialDisk3D d ps off) in *.
  apply Rabs_le_between in Hv. apply Rabs_le_between in Hv0. apply Rabs_le.
  assert (e * (v0 - C) <= e * (a * C)) by (apply Rmult_le_compat_l; lra).
  assert (e * - (a * C) <= e * (v0 - C)) by (apply Rmult_le_compat_l; lra). lra.
Qed.

(** ---- light that the integral misses ---- *)

Lemma ring_zero d ps off tol Q xc yc x y :
  (off + 8 <= length ps)%nat -> sensible3 GaussianRing3D d ps off -> accurate tol Q -> 0 <= tol ->
  nth (5 + off) ps 0 = 0 -> 0 < nth (4 + off) ps 0 * intensityScale d ->
  (forall t v, 0 < luminosity GaussianRing3D d ps off t v) /\
  value3D NumR Q GaussianRing3D d ps off xc yc x y = Ok 0.
Proof.
  intros L S A Ht Z HJ. split.
  - intros t v. unfold luminosity, gaussian_ring. cbv zeta. apply Rmult_lt_0_compat; [apply Rmult_lt_0_compat; [exact HJ|apply exp_pos]|apply exp_pos].
  - eapply pixel_dark; eauto. now apply ring_point.
Qed.

(** ---- image descriptions ---- *)

Lemma pixel_seen k d ps off tol Q xc yc u v :
  (off + nParams3 k <= length ps)%nat -> sensible3 k (default_desc NumR) ps off -> accurate tol Q -> 0 <= tol ->
  0 < pixelScaling d -> 0 <= intensityScale d ->
  exists p, value3D NumR Q k d ps off xc yc (xc + seen_x d u v) (yc + seen_y d u v) = Ok p /\
    let light := pixelScaling d * intensityScale d * column k (default_desc NumR) ps off (actual_axis k ps off) u v in
    Rabs (p - light) <= accuracy3 tol k (default_desc NumR) ps off * light.
Proof.
  intros L S A Ht Hc Hg. pose proof (sensible_seen Hc Hg S) as S'.
  destruct (@pixel_accuracy k d ps off xc yc (xc + seen_x d u v) (yc + seen_y d u v) tol Q L S' A Ht) as (p & Ep & Hp).
  exists p. split; auto. cbv zeta. unfold accuracy3 in *. rewrite (guard_seen Hc S) in Hp.
  replace (xc + seen_x d u v - xc) with (seen_x d u v) in Hp by ring. replace (yc + seen_y d u v - yc) with (seen_y d u v) in Hp by ring.
  rewrite (column_seen Hc Hg S) in Hp. exact Hp.
Qed.

Lemma ferrers_centre : 0 < column FerrersBar3D (default_desc NumR) ferrers_witness 0 (actual_axis FerrersBar3D ferrers_witness 0) 0 0.
Proof.
  set (D := default_desc NumR). set (ps := ferrers_witness). set (t := actual_axis _ _ _).
  assert (S : sensible3 FerrersBar3D D ps 0).
  { unfold sensible3, ps, ferrers_witness, D, default_desc. cbn [nth Nat.add pixelScaling intensityScale nofZ NumR]. lra. }
  unfold column. set (f := fun s => luminosity FerrersBar3D D ps 0 t (mkvec 0 0 s)).
  assert (F : integrable f) by now apply lum_integrable. assert (P : forall s, 0 <= f s) by (intros s; now apply lum_nonneg).
  set (a := reach FerrersBar3D D ps 0). assert (Ha : 1 / 10 <= a).
  { unfold a, reach, ps, ferrers_witness, D, default_desc. cbn [nth Nat.add pixelScaling nofZ NumR].
    match goal with |- _ <= _ * Rmax ?b ?c => pose proof (Rmax_r b c) end. lra. }
  rewrite <- (RInt_Chasles f (- a) (- (1 / 10)) a) by apply F. rewrite <- (RInt_Chasles f (- (1 / 10)) (1 / 10) a) by apply F.
  assert (A1 : 0 <= RInt f (- a) (- (1 / 10))) by (apply RInt_ge_0; [lra|apply F|auto]).
  assert (A2 : 0 <= RInt f (1 / 10) a) by (apply RInt_ge_0; [lra|apply F|auto]).
  assert (A3 : 0.9 * 0.2 <= RInt f (- (1 / 10)) (1 / 10)).
  { replace (0.9 * 0.2) with (RInt (fun _ : R => 0.9) (- (1 / 10)) (1 / 10)).
    - apply RInt_le; [lra|apply ex_RInt_const|apply F|]. intros s Hs. unfold f, luminosity. cbv zeta. unfold ps, ferrers_witness, D, default_desc.
      cbn [nth Nat.add pixelScaling imageRotation intensityScale nofZ NumR]. unfold direction. rewrite zero_angle, !Rmult_1_r, Rmult_0_l.
      destruct (face_on_dots 0 s t) as (-> & ->). destruct (face_on_dots 0 s (t + PI / 2)) as (-> & _). unfold ferrers. cbv zeta.
      rewrite !Rmult_0_l. assert (s ^ 2 <= 0.01) by nra.
      match goal with |- _ <= (if Rlt_dec ?m 1 then _ else _) => assert (Hm : m <= 0.04) by lra; destruct (Rlt_dec m 1); [|lra] end.
      rewrite Rpower_1 by lra. lra.
    - rewrite RInt_const. unfold scal. simpl. unfold mult. simpl. lra. }
  unfold plus. simpl. lra.
Qed.

Lemma scale_refuted : exists d ps v,
  length ps = nParams3 FerrersBar3D /\ sensible3 FerrersBar3D (default_desc NumR) ps 0 /\
  0 < pixelScaling d /\ intensityScale d = 1 /\
  value3D NumR (fun f a b => RInt f a b) FerrersBar3D d ps 0 0 0 0 0 = Ok v /\
  exists w, value3D NumR (fun f a b => RInt f a b) FerrersBar3D (default_desc NumR) ps 0 0 0 0 0 = Ok w /\ w < v.
Proof.
  assert (S : sensible3 FerrersBar3D (default_desc NumR) ferrers_witness 0).
  { unfold sensible3, ferrers_witness, default_desc. cbn [nth Nat.add pixelScaling intensityScale nofZ NumR]. lra. }
  exists (mkDesc 2 0 1), ferrers_witness. eexists. split; [reflexivity|]. split; auto. cbn [pixelScaling intensityScale].
  split; [lra|]. split; auto. assert (S' : sensible3 FerrersBar3D (mkDesc 2 0 1) ferrers_witness 0).
  { apply sensible_seen; auto; cbn [pixelScaling intensityScale]; lra. }
  split; [apply exact_value; auto; cbn; lia|]. eexists. split; [apply exact_value; auto; cbn; lia|].
  rewrite Rminus_0_r.
  assert (H2 : 0 < pixelScaling (mkDesc 2 0 1)) by (cbn; lra). assert (H1 : 0 <= intensityScale (mkDesc 2 0 1)) by (cbn; lra).
  pose proof (column_seen H2 H1 S (actual_axis FerrersBar3D ferrers_witness 0) 0 0) as E.
  assert (X : seen_x (mkDesc 2 0 1) 0 0 = 0) by (unfold seen_x; ring). assert (Y : seen_y (mkDesc 2 0 1) 0 0 = 0) by (unfold seen_y; ring).
  rewrite X, Y in E. rewrite E. cbn [pixelScaling intensityScale]. pose proof ferrers_centre. lra.
Qed.
