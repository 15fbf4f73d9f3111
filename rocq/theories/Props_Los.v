(** C80-C84: the image functions with line-of-sight integration (ExponentialDisk3D,
    BrokenExponentialDisk3D, GaussianRing3D, FerrersBar3D, DattathriPeanut3D), and FlatBar. *)
From Coq Require Import Reals Lra Lia List ZArith.
From Coquelicot Require Import Coquelicot.
From Verif Require Import Los_Spec Func_Profile Los_Column Los_Image Los_Bar Los_Axis Los_Final.
Import ListNotations.
Local Open Scope R_scope.

(** ---- C80: a pixel value is the integral of the luminosity density along the line of sight ---- *)

Theorem C80_projection : forall k d ps off xc yc x y tol Q,
  is_bar k = false -> (off + nParams3 k <= length ps)%nat -> sensible3 k d ps off -> accurate tol Q -> 0 <= tol ->
  exists v, value3D NumR Q k d ps off xc yc x y = Ok v /\
    let light := column k d ps off (documented_axis ps off) (x - xc) (y - yc) in
    Rabs (v - light) <= accuracy3 tol k d ps off * light.
Proof.
  intros k d ps off xc yc x y tol Q B L S A Ht.
  destruct (@pixel_accuracy k d ps off xc yc x y tol Q L S A Ht) as (v & E & H). exists v. split; auto.
  destruct k; try discriminate; exact H.
Qed.
(** For the bars: with the major axis at another angle than the manual's *)
Theorem C80_bar_partial : forall k d ps off xc yc x y tol Q,
  (off + nParams3 k <= length ps)%nat -> sensible3 k d ps off -> accurate tol Q -> 0 <= tol ->
  exists v, value3D NumR Q k d ps off xc yc x y = Ok v /\
    let light := column k d ps off (actual_axis k ps off) (x - xc) (y - yc) in
    Rabs (v - light) <= accuracy3 tol k d ps off * light.
Proof. intros k d ps off xc yc x y tol Q. exact (@pixel_accuracy k d ps off xc yc x y tol Q). Qed.
(** the axes used in the definition of the luminosity density are perpendicular unit vectors *)
Theorem C80_frame : forall phi i t,
  dot (in_plane phi i t) (in_plane phi i t) = 1 /\ dot (pole phi i) (pole phi i) = 1 /\
  dot (in_plane phi i t) (in_plane phi i (t + PI / 2)) = 0 /\ dot (in_plane phi i t) (pole phi i) = 0.
Proof. exact frame_orthonormal. Qed.
(** Both bars: with an exact integrator, some pixel is darker than the manual says *)
Theorem C80_bar_axis_refuted : forall k, is_bar k = true ->
  exists ps x y v, length ps = nParams3 k /\ sensible3 k (default_desc NumR) ps 0 /\
    value3D NumR (fun f a b => RInt f a b) k (default_desc NumR) ps 0 0 0 x y = Ok v /\
    v < column k (default_desc NumR) ps 0 (documented_axis ps 0) x y.
Proof. exact bar_axis. Qed.

(** ---- C81: symmetry of the images ---- *)

Theorem C81_half_turn : forall k d ps off tol Q xc yc,
  (off + nParams3 k <= length ps)%nat -> sensible3 k d ps off -> accurate tol Q -> 0 <= tol ->
  forall x y, exists v v', value3D NumR Q k d ps off xc yc x y = Ok v /\
    value3D NumR Q k d ps off xc yc (2 * xc - x) (2 * yc - y) = Ok v' /\
    Rabs (v - v') <= 2 * accuracy3 tol k d ps off * column k d ps off (actual_axis k ps off) (x - xc) (y - yc).
Proof. intros k d ps off tol Q xc yc L S A Ht. exact (pixel_half_turn xc yc L S A Ht). Qed.
(** discs: the images are symmetric about the line of nodes and about its perpendicular *)
Theorem C81_mirror : forall k d ps off tol Q xc yc,
  (off + nParams3 k <= length ps)%nat -> sensible3 k d ps off -> accurate tol Q -> 0 <= tol -> is_disc k = true ->
  let phi := direction (nth (0 + off) ps 0) (imageRotation d) in
  let value a b := value3D NumR Q k d ps off xc yc (xc + along_x phi a b) (yc + along_y phi a b) in
  forall a b, exists v v1 v2, value a b = Ok v /\ value (- a) b = Ok v1 /\ value a (- b) = Ok v2 /\
    let light := column k d ps off 0 (along_x phi a b) (along_y phi a b) in
    Rabs (v - v1) <= 2 * accuracy3 tol k d ps off * light /\ Rabs (v - v2) <= 2 * accuracy3 tol k d ps off * light.
Proof.
  intros k d ps off tol Q xc yc L S A Ht D phi value a b.
  destruct (pixel_mirror xc yc L S A Ht a b D) as ((v & v1 & E & E1 & H1) & (v' & v2 & E' & E2 & H2)).
  rewrite E in E'. injection E' as <-. exists v, v1, v2. unfold value, phi. destruct k; try discriminate; auto.
Qed.
(** face-on discs have circular isophotes ... *)
Theorem C81_round : forall k d ps off tol Q xc yc,
  (off + nParams3 k <= length ps)%nat -> sensible3 k d ps off -> accurate tol Q -> 0 <= tol -> is_disc k = true ->
  nth (1 + off) ps 0 = 0 -> forall x y x' y',
  (x - xc) ^ 2 + (y - yc) ^ 2 = (x' - xc) ^ 2 + (y' - yc) ^ 2 ->
  exists v v', value3D NumR Q k d ps off xc yc x y = Ok v /\ value3D NumR Q k d ps off xc yc x' y' = Ok v' /\
    Rabs (v - v') <= 2 * accuracy3 tol k d ps off * column k d ps off 0 (x - xc) (y - yc).
Proof.
  intros k d ps off tol Q xc yc L S A Ht D I x y x' y' E.
  destruct (pixel_round L S A Ht D I E) as (v & v' & H). exists v, v'. destruct k; try discriminate; auto.
Qed.
(** ... and an exponential one an exponential profile with the scale length of the disc *)
Theorem C81_face_on : forall d ps off tol Q xc yc x y,
  (off + 6 <= length ps)%nat -> sensible3 ExponentialDisk3D d ps off -> accurate tol Q -> 0 <= tol ->
  nth (1 + off) ps 0 = 0 ->
  let h := nth (3 + off) ps 0 * pixelScaling d in
  let r := sqrt ((x - xc) ^ 2 + (y - yc) ^ 2) in
  exists v v0, value3D NumR Q ExponentialDisk3D d ps off xc yc x y = Ok v /\
    value3D NumR Q ExponentialDisk3D d ps off xc yc xc yc = Ok v0 /\
    Rabs (v - exp (- r / h) * v0) <= 2 * accuracy3 tol ExponentialDisk3D d ps off * exp (- r / h) *
      column ExponentialDisk3D d ps off 0 0 0.
Proof. exact face_on_exponential. Qed.

(** ---- C82: no light is missed because the integral ends ---- *)

(** A Ferrers bar has no light beyond the limits of the integral ... *)
Theorem C82_ferrers : forall d ps off t x y a, sensible3 FerrersBar3D d ps off ->
  nth (5 + off) ps 0 <= 1 -> nth (6 + off) ps 0 <= 1 -> reach FerrersBar3D d ps off <= a ->
  RInt (fun s => luminosity FerrersBar3D d ps off t (mkvec x y s)) (- a) a = column FerrersBar3D d ps off t x y.
Proof. exact ferrers_whole. Qed.
(** ... and pixels outside its radius are exactly dark *)
Theorem C82_ferrers_outside : forall d ps off tol Q xc yc x y,
  (off + 8 <= length ps)%nat -> sensible3 FerrersBar3D d ps off -> accurate tol Q -> 0 <= tol ->
  nth (5 + off) ps 0 <= 1 -> nth (6 + off) ps 0 <= 1 ->
  (nth (4 + off) ps 0 * pixelScaling d) ^ 2 <= (x - xc) ^ 2 + (y - yc) ^ 2 ->
  value3D NumR Q FerrersBar3D d ps off xc yc x y = Ok 0.
Proof.
  intros d ps off tol Q xc yc x y L S A Ht H5 H6 H. refine (@pixel_dark FerrersBar3D d ps off tol Q xc yc L S A Ht x y _). now apply ferrers_outside.
Qed.
(** An exponential disc thinner than long loses at most this much *)
Theorem C82_disc : forall d ps off t x y a, sensible3 ExponentialDisk3D d ps off ->
  let p i := nth (i + off) ps 0 in
  p 5%nat * pixelScaling d <= p 3%nat * pixelScaling d -> reach ExponentialDisk3D d ps off <= a ->
  0 <= RInt (fun s => luminosity ExponentialDisk3D d ps off t (mkvec x y s)) (- a) a - column ExponentialDisk3D d ps off t x y
    <= 2 * Rpower 2 (2 / p 4%nat) * exp (-20) * (p 2%nat * intensityScale d) * (p 3%nat * pixelScaling d).
Proof. exact disc_whole. Qed.
(** A ring of radius zero shines everywhere, but all of it is missed *)
Theorem C82_ring_refuted : forall d ps off tol Q xc yc x y,
  (off + 8 <= length ps)%nat -> sensible3 GaussianRing3D d ps off -> accurate tol Q -> 0 <= tol ->
  nth (5 + off) ps 0 = 0 -> 0 < nth (4 + off) ps 0 * intensityScale d ->
  (forall t v, 0 < luminosity GaussianRing3D d ps off t v) /\
  value3D NumR Q GaussianRing3D d ps off xc yc x y = Ok 0.
Proof. exact ring_zero. Qed.

(** ---- C83: image descriptions ---- *)

(** Moving to another image rotates and rescales the picture; the brightness changes by
    intensityScale, and by the factor pixelScaling as well *)
Theorem C83_description_partial : forall k d ps off tol Q xc yc u v,
  (off + nParams3 k <= length ps)%nat -> sensible3 k (default_desc NumR) ps off -> accurate tol Q -> 0 <= tol ->
  0 < pixelScaling d -> 0 <= intensityScale d ->
  exists p, value3D NumR Q k d ps off xc yc (xc + seen_x d u v) (yc + seen_y d u v) = Ok p /\
    let light := pixelScaling d * intensityScale d * column k (default_desc NumR) ps off (actual_axis k ps off) u v in
    Rabs (p - light) <= accuracy3 tol k (default_desc NumR) ps off * light.
Proof. exact pixel_seen. Qed.
(** with the same intensity scale, the centre of a bar is brighter on the image with finer pixels *)
Theorem C83_scale_refuted : exists d ps v,
  length ps = nParams3 FerrersBar3D /\ sensible3 FerrersBar3D (default_desc NumR) ps 0 /\
  0 < pixelScaling d /\ intensityScale d = 1 /\
  value3D NumR (fun f a b => RInt f a b) FerrersBar3D d ps 0 0 0 0 0 = Ok v /\
  exists w, value3D NumR (fun f a b => RInt f a b) FerrersBar3D (default_desc NumR) ps 0 0 0 0 0 = Ok w /\ w < v.
Proof. exact scale_refuted. Qed.
(** The parameters reported for an image describe, without description, the same image; nothing
    else is touched *)
Theorem C83_adjusted : forall Q k d ps off xc yc, (off + nParams3 k <= length ps)%nat ->
  exists ps', AdjustParametersForImage3D NumR k d ps ps off = Ok ps' /\ length ps' = length ps /\
  (forall j, (j < off \/ off + nParams3 k <= j)%nat -> nth j ps' 0 = nth j ps 0) /\
  forall x y, value3D NumR Q k (default_desc NumR) ps' off xc yc x y = value3D NumR Q k d ps off xc yc x y.
Proof. exact adjust3_proof. Qed.

(** ---- C84: FlatBar ---- *)

(** [u] along the bar, [w] perpendicular to it. Partial: the central brightness is
    multiplied by pixelScaling instead of intensityScale *)
Theorem C84_profile_partial : forall d ps off xc yc u w,
  let p i := nth (i + off) ps 0 in
  let len i := p i * pixelScaling d in
  let phi := direction (p 0%nat) (imageRotation d) in
  (off + 8 <= length ps)%nat -> p 1%nat <> 1 -> 0 < len 4%nat -> 0 < len 5%nat ->
  p 7%nat / pixelScaling d <> 0 -> 0 < p 2%nat * deg ->
  exists v, value_FlatBar NumR d ps off xc yc false (xc + along_x phi u w) (yc + along_y phi u w) = Ok v /\
    relatively_close (Rabs (1 / (p 7%nat / pixelScaling d) * (1 / len 4%nat - 1 / len 5%nat)) * exp (-100)) v
      (flat_bar (len 3%nat) (1 - p 1%nat) (len 4%nat) (len 5%nat) (len 6%nat) (p 7%nat / pixelScaling d) (p 2%nat * deg) u w).
Proof. intros d ps off xc yc u w p len phi. exact (@flatbar_profile d ps off xc yc u w). Qed.
(** sub-sampling averages the image without sub-sampling over the pixel *)
Theorem C84_subsampling : forall d ps off xc yc,
  (off + 8 <= length ps)%nat -> nth (1 + off) ps 0 <> 1 -> 2 / 10 ^ 8 <= nth (4 + off) ps 0 * pixelScaling d ->
  exists f, plain_image (value_FlatBar NumR d ps off xc yc) f /\
    forall x y, exists n, (1 <= n <= 100)%nat /\
      value_FlatBar NumR d ps off xc yc true x y = Ok (mean_over_pixel n f x y).
Proof.
  intros d ps off xc yc L Hq Hh. exists (Func_Proof.plain (bar_obj d ps off xc yc)). split.
  - now apply bar_plain_image.
  - now apply bar_sub.
Qed.
Theorem C84_half_turn : forall d ps off xc yc s x y, (off + 8 <= length ps)%nat -> nth (1 + off) ps 0 <> 1 ->
  value_FlatBar NumR d ps off xc yc s (2 * xc - x) (2 * yc - y) = value_FlatBar NumR d ps off xc yc s x y.
Proof. exact flatbar_half_turn. Qed.
Theorem C84_mirror : forall d ps off xc yc u w, (off + 8 <= length ps)%nat -> nth (1 + off) ps 0 <> 1 ->
  let phi := direction (nth (0 + off) ps 0) (imageRotation d) in
  let value a b := value_FlatBar NumR d ps off xc yc false (xc + along_x phi a b) (yc + along_y phi a b) in
  value (- u) w = value u w /\ value u (- w) = value u w.
Proof. intros d ps off xc yc u w L Hq phi value. exact (flatbar_mirror d xc yc u w L Hq). Qed.
(** The intensity scale of an image has no effect ... *)
Theorem C84_intensity_refuted : forall s rot i1 i2 ps off xc yc b x y,
  value_FlatBar NumR (mkDesc s rot i1) ps off xc yc b x y = value_FlatBar NumR (mkDesc s rot i2) ps off xc yc b x y.
Proof. exact flatbar_ignores_intensity. Qed.
(** ... and the reported parameters describe another image *)
Theorem C84_adjusted_refuted : forall d ps off xc yc,
  (off + 8 <= length ps)%nat -> nth (1 + off) ps 0 <> 1 -> pixelScaling d <> 0 ->
  exists ps' v v', AdjustParameters_FlatBar NumR d ps ps off = Ok ps' /\
    value_FlatBar NumR d ps off xc yc false xc yc = Ok v /\
    value_FlatBar NumR (default_desc NumR) ps' off xc yc false xc yc = Ok v' /\
    v * intensityScale d = v' * pixelScaling d /\
    (nth (3 + off) ps 0 <> 0 -> pixelScaling d <> intensityScale d -> v <> v').
Proof. exact flatbar_scale. Qed.

(** ---- the hypotheses can be met ---- *)

(** an exact integrator is accurate, and so is one that is always a thousandth too high *)
Example accurate_exact : accurate 0 (fun f a b => RInt f a b).
Proof. exact exact_accurate. Qed.
Example accurate_rough : accurate (1 / 1000) (fun f a b => 1001 / 1000 * RInt f a b).
Proof.
  intros f a b H I P. assert (G : 0 <= RInt f a b) by (apply RInt_ge_0; auto; intros; apply P; lra).
  rewrite Rabs_pos_eq; lra.
Qed.
(** parameters of the examples: a disc, inclined by 60 degrees ... *)
Definition disc_pars : list R := [30; 60; 100; 20; 1; 3].
Definition broken_pars : list R := [30; 60; 100; 20; 8; 40; 1 / 2; 1; 3].
Definition ring_pars : list R := [30; 60; 45; 1 / 4; 100; 30; 5; 2].
Definition ferrers_pars : list R := [30; 60; 45; 1; 50; 1 / 2; 1 / 3; 2].
Definition peanut_pars : list R := [30; 60; 45; 1; 20; 1 / 2; 1 / 4; 10; 2; 3; 2; 3].
Definition example_pars (k : Kind3) : list R :=
  match k with
  | ExponentialDisk3D => disc_pars | BrokenExponentialDisk3D => broken_pars | GaussianRing3D => ring_pars
  | FerrersBar3D => ferrers_pars | DattathriPeanut3D => peanut_pars
  end.
Example sensible_pars : forall k, length (example_pars k) = nParams3 k /\
  sensible3 k (default_desc NumR) (example_pars k) 0 /\ sensible3 k (mkDesc 2 30 (1 / 4)) (example_pars k) 0.
Proof.
  intros k. split; [destruct k; reflexivity|]. split.
  - destruct k; unfold sensible3, example_pars, disc_pars, broken_pars, ring_pars, ferrers_pars, peanut_pars, default_desc;
      cbn [nth Nat.add pixelScaling intensityScale nofZ NumR]; lra.
  - destruct k; unfold sensible3, example_pars, disc_pars, broken_pars, ring_pars, ferrers_pars, peanut_pars;
      cbn [nth Nat.add pixelScaling intensityScale]; lra.
Qed.
Example projected : exists v,
  value3D NumR (fun f a b => 1001 / 1000 * RInt f a b) GaussianRing3D (mkDesc 2 30 (1 / 4)) ring_pars 0 50 50 70 60 = Ok v /\
  let light := column GaussianRing3D (mkDesc 2 30 (1 / 4)) ring_pars 0 ((90 + 45) * deg) (70 - 50) (60 - 50) in
  Rabs (v - light) <= ((1 + 1 / 1000) * exp 0 - 1) * light.
Proof.
  destruct (C80_projection GaussianRing3D (mkDesc 2 30 (1 / 4)) ring_pars 0 50 50 70 60 (1 / 1000) _ eq_refl
    (le_n 8) (proj2 (proj2 (sensible_pars GaussianRing3D))) accurate_rough ltac:(lra)) as (v & E & H).
  exists v. split; [exact E|exact H].
Qed.
Example face_on_pars : sensible3 ExponentialDisk3D (default_desc NumR) [30; 0; 100; 20; 1; 3] 0 /\ nth (1 + 0) [30; 0; 100; 20; 1; 3] 0 = 0.
Proof. split; [|reflexivity]. unfold sensible3, default_desc. cbn [nth Nat.add pixelScaling intensityScale nofZ NumR]. lra. Qed.
Example ring_zero_pars : sensible3 GaussianRing3D (default_desc NumR) [30; 60; 45; 1 / 4; 100; 0; 5; 2] 0 /\
  0 < nth (4 + 0) [30; 60; 45; 1 / 4; 100; 0; 5; 2] 0 * intensityScale (default_desc NumR).
Proof. unfold sensible3, default_desc. cbn [nth Nat.add pixelScaling intensityScale nofZ NumR]. lra. Qed.
Definition flat_pars : list R := [30; 1 / 2; 20; 100; 40; 5; 20; 1].
Example flat_hyps :
  nth (1 + 0) flat_pars 0 <> 1 /\ 0 < nth 4 flat_pars 0 * 2 /\ 0 < nth 5 flat_pars 0 * 2 /\ nth 7 flat_pars 0 / 2 <> 0 /\
  0 < nth 2 flat_pars 0 * deg /\ 2 / 10 ^ 8 <= nth 4 flat_pars 0 * 2 /\ pixelScaling (mkDesc 2 30 (1 / 4)) <> intensityScale (mkDesc 2 30 (1 / 4)).
Proof. unfold flat_pars, deg. cbn [nth Nat.add pixelScaling intensityScale]. lra. Qed.
