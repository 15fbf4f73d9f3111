(** C19-C24, C53, C57: the image functions. Exact arithmetic; [K1] stands for the
    Bessel function used by EdgeOnDisk. [value_at K1 k d ps off xc yc s x y] is
    what a component of class [k] with parameters [ps] (from index [off]) and
    centre (xc, yc) answers for the pixel (x, y), with sub-sampling on or off
    ([s]), on an image with description [d]. *)
From Coq Require Import Reals Lra Lia List ZArith.
From Verif Require Import Func_Spec Func_Proof Func_Sym Func_Profile Func_Flux Func_Image.
Import ListNotations.
Local Open Scope R_scope.

(** C19. With sub-sampling the value of a pixel is the mean, over the n x n sub-pixel
    centres for some n >= 1, of what the component shows without sub-sampling. *)
Theorem C19_mean K1 k d ps off xc yc : (off + nParams k <= length ps)%nat ->
  exists f, plain_image (value_at NumR K1 k d ps off xc yc) f /\
  forall x y v, value_at NumR K1 k d ps off xc yc true x y = Ok v ->
  exists n, (0 < n)%nat /\ v = mean_over_pixel n f x y.
Proof. exact (@C19_mean_proof K1 k d ps off xc yc). Qed.
Print Assumptions C19_mean.

(** C19. The sub-pixel centres lie strictly inside the pixel and symmetrically about its
    centre; the mean lies between the sampled extremes and is exact for linear profiles. *)
Theorem C19_sub_pixels :
  (forall n c i, (i < n)%nat -> Rabs (slice_centre n c i - c) < 1 / 2) /\
  (forall n c i, (i < n)%nat -> slice_centre n c (n - 1 - i) - c = - (slice_centre n c i - c)) /\
  (forall n f x y lo hi, (0 < n)%nat ->
     (forall i j, (i < n)%nat -> (j < n)%nat -> lo <= f (slice_centre n x i) (slice_centre n y j) <= hi) ->
     lo <= mean_over_pixel n f x y <= hi) /\
  (forall n a b c x y, (0 < n)%nat -> mean_over_pixel n (fun x y => a + b * x + c * y) x y = a + b * x + c * y).
Proof.
  repeat split; try (apply slice_inside; assumption); try (eapply mean_bounds; eassumption).
  - intros n c i H. rewrite slice_mirror by assumption. ring.
  - intros. now apply mean_linear.
Qed.
Print Assumptions C19_sub_pixels.

(** C20. For scale lengths of at least 2e-8 pixels the value is defined and the number of
    sub-pixels per side lies between 1 and 100. *)
Theorem C20_defined K1 k d ps off xc yc x y : (off + nParams k <= length ps)%nat ->
  2 / 10 ^ 8 <= scale_length k d ps off -> 2 / 10 ^ 8 <= vertical_scale k d ps off ->
  exists f n v, plain_image (value_at NumR K1 k d ps off xc yc) f /\ (1 <= n <= 100)%nat /\
    value_at NumR K1 k d ps off xc yc true x y = Ok v /\ v = mean_over_pixel n f x y.
Proof. exact (@C20_defined_proof K1 k d ps off xc yc x y). Qed.
Print Assumptions C20_defined.

(** C20. From an elliptical radius of 10 pixels on, no sub-sampling is done. *)
Theorem C20_far K1 k d ps off xc yc a t :
  (off + nParams k <= length ps)%nat -> has_ellipses k = true -> component_axis_ratio ps off <> 0 -> 10 <= Rabs a ->
  let X := ellipse_x xc (component_direction k d ps off) (component_axis_ratio ps off) a t in
  let Y := ellipse_y yc (component_direction k d ps off) (component_axis_ratio ps off) a t in
  value_at NumR K1 k d ps off xc yc true X Y = value_at NumR K1 k d ps off xc yc false X Y.
Proof. exact (@C20_far_proof K1 k d ps off xc yc a t). Qed.
Print Assumptions C20_far.

(** C20. For positive scale lengths below 9e-9 the number of sub-pixels does not fit in an int:
    the conversion, at the centre, is undefined. *)
Theorem C20_tiny_refuted K1 d ps off xc yc : (off + 4 <= length ps)%nat ->
  0 < nth (3 + off) ps 0 * pixelScaling d <= 9 / 10 ^ 9 ->
  value_at NumR K1 Exponential d ps off xc yc true xc yc = Undef.
Proof. exact (@C20_undefined_proof K1 d ps off xc yc). Qed.
Print Assumptions C20_tiny_refuted.

(** C21. Points of the same ellipse get the same value. *)
Theorem C21_isophotes K1 k d ps off xc yc a t u :
  (off + nParams k <= length ps)%nat -> has_ellipses k = true -> component_axis_ratio ps off <> 0 ->
  on_ellipse K1 k d ps off xc yc a t = on_ellipse K1 k d ps off xc yc a u.
Proof. intros. unfold on_ellipse. now apply C21_isophotes_proof. Qed.
Print Assumptions C21_isophotes.

(** ... and every point of the image is on one of these ellipses. *)
Theorem C21_ellipses_cover x0 y0 phi q x y : q <> 0 ->
  exists a t, 0 <= a /\ x = ellipse_x x0 phi q a t /\ y = ellipse_y y0 phi q a t.
Proof. exact (@ellipses_cover x0 y0 phi q x y). Qed.
Print Assumptions C21_ellipses_cover.

(** C21. Half a turn about the centre changes nothing, sub-sampled or not (all classes but
    the tilted plane; the two-sided edge-on ring if its ring radius is >= 0). *)
Theorem C21_half_turn K1 k d ps off xc yc s x y :
  (off + nParams k <= length ps)%nat -> half_turn_kind k d ps off ->
  value_at NumR K1 k d ps off xc yc s (2 * xc - x) (2 * yc - y) = value_at NumR K1 k d ps off xc yc s x y.
Proof. exact (@C21_half_turn_proof K1 k d ps off xc yc s x y). Qed.
Print Assumptions C21_half_turn.

(** C21. Adding half a turn to the position angle changes nothing. *)
Theorem C21_position_angle K1 k d ps ps' off xc yc delta s x y :
  (off + nParams k <= length ps)%nat -> length ps' = length ps -> has_PA k = true ->
  (k = EdgeOnRing2Side -> 0 <= nth (2 + off) ps 0 * pixelScaling d) ->
  delta * deg = PI -> nth off ps' 0 = nth off ps 0 + delta -> (forall i, i <> off -> nth i ps' 0 = nth i ps 0) ->
  value_at NumR K1 k d ps' off xc yc s x y = value_at NumR K1 k d ps off xc yc s x y.
Proof. exact (@C21_turn_proof K1 k d ps ps' off xc yc delta s x y). Qed.
Print Assumptions C21_position_angle.

(** C21. Half a turn is 180 degrees, except that the program's degree is rounded. *)
Theorem C21_degree : 0 < PI - 180 * deg < 2 / 10 ^ 16.
Proof. exact half_turn_degrees. Qed.
Print Assumptions C21_degree.

(** C22. For ordinary parameters the brightness falls (never rises) with radius and is never
    negative. *)
Theorem C22_monotone K1 k d ps off xc yc a b t u :
  (off + nParams k <= length ps)%nat -> component_axis_ratio ps off <> 0 -> ordinary_params k d ps off -> 0 <= a <= b ->
  exists va vb, on_ellipse K1 k d ps off xc yc a t = Ok va /\ on_ellipse K1 k d ps off xc yc b u = Ok vb /\ 0 <= vb <= va.
Proof. exact (@C22_monotone_proof K1 k d ps off xc yc a b t u). Qed.
Print Assumptions C22_monotone.

(** C22. So every pixel, sub-sampled or not, lies between 0 and the brightness at the centre. *)
Theorem C22_brightest K1 k d ps off xc yc s x y v :
  (off + nParams k <= length ps)%nat -> component_axis_ratio ps off <> 0 -> ordinary_params k d ps off ->
  value_at NumR K1 k d ps off xc yc s x y = Ok v ->
  exists c, value_at NumR K1 k d ps off xc yc false xc yc = Ok c /\ 0 <= v <= c.
Proof. exact (@C22_brightest_proof K1 k d ps off xc yc s x y v). Qed.
Print Assumptions C22_brightest.

(** C22. The advertised brightness at the advertised radii. *)
Theorem C22_advertised K1 k d ps off xc yc a v t :
  (off + nParams k <= length ps)%nat -> has_ellipses k = true -> component_axis_ratio ps off <> 0 ->
  scales_make_sense k d ps off -> In (a, v) (advertised k d ps off) ->
  on_ellipse K1 k d ps off xc yc a t = Ok v.
Proof. exact (@C22_advertised_proof K1 k d ps off xc yc a v t). Qed.
Print Assumptions C22_advertised.

(** C22. An exponential falls by 1/e with every scale length. *)
Theorem C22_e_folding K1 d ps off xc yc a t u :
  (off + 4 <= length ps)%nat -> component_axis_ratio ps off <> 0 -> 0 <= a -> 0 < nth (3 + off) ps 0 * pixelScaling d ->
  exists v, on_ellipse K1 Exponential d ps off xc yc a t = Ok v /\
    on_ellipse K1 Exponential d ps off xc yc (a + nth (3 + off) ps 0 * pixelScaling d) u = Ok (v * exp (-1)).
Proof. exact (@C22_efold_proof K1 d ps off xc yc a t u). Qed.
Print Assumptions C22_e_folding.

(** C22. A modified King profile vanishes from the tidal radius on. *)
Theorem C22_king_edge K1 d ps off xc yc a t :
  (off + 6 <= length ps)%nat -> component_axis_ratio ps off <> 0 -> 0 <= nth (4 + off) ps 0 * pixelScaling d <= a ->
  on_ellipse K1 ModifiedKing d ps off xc yc a t = Ok 0.
Proof. exact (@C22_king_edge_proof K1 d ps off xc yc a t). Qed.
Print Assumptions C22_king_edge.

(** C22. A Sersic index below about 0.0508 makes the approximated b_n negative: the profile
    then rises from the centre. *)
Theorem C22_small_index_refuted K1 xc yc t u : exists vc ve,
  on_ellipse K1 Sersic (default_desc NumR) [0; 0; 46 / 1000; 1; 10] 0 xc yc 0 t = Ok vc /\
  on_ellipse K1 Sersic (default_desc NumR) [0; 0; 46 / 1000; 1; 10] 0 xc yc 10 u = Ok ve /\ vc < ve.
Proof. exact (@C22_sersic_rises K1 xc yc t u). Qed.
Print Assumptions C22_small_index_refuted.

(** C23. The reported total flux of an Exponential is the integral of its brightness over the
    plane, to the accuracy of the program's value of pi. *)
Theorem C23_exponential K1 d ps off xc yc :
  (off + 4 <= length ps)%nat -> nth (1 + off) ps 0 < 1 -> 0 < nth (3 + off) ps 0 * pixelScaling d ->
  exists f flux total,
    plain_image (value_at NumR K1 Exponential d ps off xc yc) f /\ plane_integral f xc yc total /\
    TotalFlux_Exponential NumR d ps off = Ok flux /\ Rabs (flux - total) <= 2 / 10 ^ 15 * Rabs total.
Proof. exact (@C23_exponential_proof K1 d ps off xc yc). Qed.
Print Assumptions C23_exponential.

(** C23. ... and of a Gaussian. *)
Theorem C23_gaussian K1 d ps off xc yc :
  (off + 4 <= length ps)%nat -> nth (1 + off) ps 0 < 1 -> 0 < nth (3 + off) ps 0 * pixelScaling d ->
  exists f flux total,
    plain_image (value_at NumR K1 Gaussian d ps off xc yc) f /\ plane_integral f xc yc total /\
    TotalFlux_Gaussian NumR d ps off = Ok flux /\ Rabs (flux - total) <= 2 / 10 ^ 15 * Rabs total.
Proof. exact (@C23_gaussian_proof K1 d ps off xc yc). Qed.
Print Assumptions C23_gaussian.

(** C24. With the overflow guard a broken exponential stays within a relative
    exp(|exponent| e^-100) - 1 of the documented formula. *)
Theorem C24_broken_exponential K1 d ps off xc yc a t : (off + 7 <= length ps)%nat -> component_axis_ratio ps off <> 0 ->
  let p i := nth (i + off) ps 0 in
  let len i := p i * pixelScaling d in
  let alpha := p 6%nat / pixelScaling d in
  alpha <> 0 -> 0 <= a ->
  exists v, on_ellipse K1 BrokenExponential d ps off xc yc a t = Ok v /\
    relatively_close (Rabs (1 / alpha * (1 / len 3%nat - 1 / len 4%nat)) * exp (-100)) v
      (broken_exp (p 2%nat * intensityScale d) (len 3%nat) (len 4%nat) (len 5%nat) alpha a).
Proof. exact (@C24_broken_proof K1 d ps off xc yc a t). Qed.
Print Assumptions C24_broken_exponential.

(** C24. Beyond the switch it falls with the outer scale length. *)
Theorem C24_outer_slope K1 d ps off xc yc a b t u : (off + 7 <= length ps)%nat -> component_axis_ratio ps off <> 0 ->
  let p i := nth (i + off) ps 0 in
  let len i := p i * pixelScaling d in
  let alpha := p 6%nat / pixelScaling d in
  0 <= a -> 0 <= b -> 100 < alpha * (a - len 5%nat) -> 100 < alpha * (b - len 5%nat) ->
  exists v, on_ellipse K1 BrokenExponential d ps off xc yc a t = Ok v /\
    on_ellipse K1 BrokenExponential d ps off xc yc b u = Ok (v * exp (- (b - a) / len 4%nat)).
Proof. exact (@C24_slope_proof K1 d ps off xc yc a b t u). Qed.
Print Assumptions C24_outer_slope.

(** C24. The same for two breaks. *)
Theorem C24_double_broken K1 d ps off xc yc a t : (off + 10 <= length ps)%nat -> component_axis_ratio ps off <> 0 ->
  let p i := nth (i + off) ps 0 in
  p 8%nat <> 0 -> p 9%nat <> 0 -> 0 <= a ->
  exists v, on_ellipse K1 DoubleBrokenExponential d ps off xc yc a t = Ok v /\
    relatively_close ((Rabs (1 / p 8%nat * (1 / p 3%nat - 1 / p 4%nat)) + Rabs (1 / p 9%nat * (1 / p 4%nat - 1 / p 5%nat))) * exp (-100)) v
      (double_broken_exp (p 2%nat) (p 3%nat) (p 4%nat) (p 5%nat) (p 6%nat) (p 7%nat) (p 8%nat) (p 9%nat) a).
Proof. exact (@C24_double_broken_proof K1 d ps off xc yc a t). Qed.
Print Assumptions C24_double_broken.

(** C24. The guard in the edge-on disk's vertical profile. *)
Theorem C24_edge_on_disk K1 d ps off xc yc r z : (off + 5 <= length ps)%nat ->
  let p i := nth (i + off) ps 0 in
  let phi := direction (p 0%nat) (imageRotation d) in
  p 3%nat <> 0 -> p 4%nat * pixelScaling d <> 0 ->
  exists v,
    value_at NumR K1 EdgeOnDisk d ps off xc yc false
      (xc + (r * cos phi - z * sin phi)) (yc + (r * sin phi + z * cos phi)) = Ok v /\
    relatively_close (Rabs (2 / p 3%nat) * exp (-200)) v
      (edge_on_disk K1 (p 1%nat * intensityScale d) (p 2%nat * pixelScaling d) (p 3%nat) (p 4%nat * pixelScaling d)
         (Rabs r) (Rabs z)).
Proof. exact (@C24_edge_on_proof K1 d ps off xc yc r z). Qed.
Print Assumptions C24_edge_on_disk.

(** C24. The flat-topped exponential follows its formula up to the switch; beyond it, it is
    fainter by the factor exp(r_b/h), which the large-radius branch leaves out. *)
Theorem C24_flat_exponential K1 d ps off xc yc a t : (off + 6 <= length ps)%nat -> component_axis_ratio ps off <> 0 ->
  let p i := nth (i + off) ps 0 in
  p 5%nat <> 0 -> p 3%nat <> 0 -> 0 <= a ->
  exists v, on_ellipse K1 FlatExponential d ps off xc yc a t = Ok v /\
    (p 5%nat * (a - p 4%nat) <= 100 -> v = flat_exp (p 2%nat) (p 3%nat) (p 4%nat) (p 5%nat) a) /\
    (100 < p 5%nat * (a - p 4%nat) ->
      relatively_close (Rabs (1 / (p 5%nat * p 3%nat)) * exp (-100)) v
        (flat_exp (p 2%nat) (p 3%nat) (p 4%nat) (p 5%nat) a * exp (- p 4%nat / p 3%nat))).
Proof. exact (@C24_flat_proof K1 d ps off xc yc a t). Qed.
Print Assumptions C24_flat_exponential.

(** C24. So the guarded value is not close to the formula: h = r_b = alpha = 1, radius 102. *)
Theorem C24_flat_refuted K1 xc yc t : exists v,
  on_ellipse K1 FlatExponential (default_desc NumR) [0; 0; 1; 1; 1; 1] 0 xc yc 102 t = Ok v /\
  0 < flat_exp 1 1 1 1 102 /\ v < flat_exp 1 1 1 1 102 / 2.
Proof. exact (@C24_flat_wrong K1 xc yc t). Qed.
Print Assumptions C24_flat_refuted.

(** C53. The generalised-ellipse classes depend on the position only through the
    superellipse radius of the point in the component's frame. *)
Theorem C53_value K1 k d ps off xc yc : (off + nParams k <= length ps)%nat ->
  k = GenExponential \/ k = GenSersic \/ k = FerrersBar2D ->
  let p i := nth (i + off) ps 0 in
  let phi := direction (p 0%nat) (imageRotation d) in
  exists profile : R -> R, forall x y,
  value_at NumR K1 k d ps off xc yc false x y =
  Ok (profile (superellipse_radius (p 2%nat) (1 - p 1%nat)
               ((x - xc) * cos phi + (y - yc) * sin phi) (- (x - xc) * sin phi + (y - yc) * cos phi))).
Proof. exact (@gen_profile K1 k d ps off xc yc). Qed.
Print Assumptions C53_value.

(** C53. In particular the generalised exponential, whose profile is a plain exponential. *)
Theorem C53_exponential K1 d ps off xc yc x y : (off + 5 <= length ps)%nat ->
  let p i := nth (i + off) ps 0 in
  let phi := direction (p 0%nat) (imageRotation d) in
  value_at NumR K1 GenExponential d ps off xc yc false x y =
  Ok (p 3%nat * intensityScale d *
      exp (- superellipse_radius (p 2%nat) (1 - p 1%nat)
               ((x - xc) * cos phi + (y - yc) * sin phi) (- (x - xc) * sin phi + (y - yc) * cos phi)
           / (p 4%nat * pixelScaling d))).
Proof. exact (@GenExp_value K1 d ps off xc yc x y). Qed.
Print Assumptions C53_exponential.

(** C53. The superellipse radius: non-negative, zero only at the centre, homogeneous, symmetric
    under reflections, the ordinary elliptical radius for c0 = 0. *)
Theorem C53_radius c0 q u v : -2 < c0 -> q <> 0 ->
  0 <= superellipse_radius c0 q u v /\
  (superellipse_radius c0 q u v = 0 <-> u = 0 /\ v = 0) /\
  (forall s, superellipse_radius c0 q (s * u) (s * v) = Rabs s * superellipse_radius c0 q u v) /\
  superellipse_radius c0 q (- u) v = superellipse_radius c0 q u v /\
  superellipse_radius c0 q u (- v) = superellipse_radius c0 q u v /\
  superellipse_radius 0 q u v = sqrt (u * u + (v / q) * (v / q)) /\
  superellipse_radius c0 q u 0 = Rabs u /\ superellipse_radius c0 q 0 v = Rabs (v / q).
Proof.
  intros Hc Hq. split; [apply super_nonneg|]. split; [now apply super_zero|].
  split; [intros; now apply super_scale|]. split; [apply super_reflect|]. split; [apply super_reflect|].
  split; [apply super_ellipse|]. now apply super_axes.
Qed.
Print Assumptions C53_radius.

(** C53. Its level curves are the generalised ellipses |u|^(c0+2) + |v/q|^(c0+2) = a^(c0+2). *)
Theorem C53_level c0 q u v a : -2 < c0 -> 0 <= a ->
  (superellipse_radius c0 q u v = a <-> Rpow (Rabs u) (c0 + 2) + Rpow (Rabs (v / q)) (c0 + 2) = Rpow a (c0 + 2)).
Proof. exact (@super_level c0 q u v a). Qed.
Print Assumptions C53_level.

(** C57. On an image with another scale, orientation and brightness a component appears rotated,
    enlarged and brightened as a whole. The azimuthal ring needs a point off its centre; the
    generalised ellipses need c0 <> -2. *)
Theorem C57_description K1 k d ps off xc yc xc' yc' u v :
  (off + nParams k <= length ps)%nat -> 0 < pixelScaling d -> follows_description k = true ->
  (k = GaussianRingAz -> u <> 0 \/ v <> 0) ->
  (k = GenExponential \/ k = GenSersic \/ k = FerrersBar2D -> nth (2 + off) ps 0 <> -2) ->
  exists b,
    value_at NumR K1 k (default_desc NumR) ps off xc yc false (xc + u) (yc + v) = Ok b /\
    value_at NumR K1 k d ps off xc' yc' false (xc' + seen_x d u v) (yc' + seen_y d u v) = Ok (intensityScale d * b).
Proof. exact (@C57_seen_proof K1 k d ps off xc yc xc' yc' u v). Qed.
Print Assumptions C57_description.

(** C57. The parameters adjusted for an image, used without the description, give the same
    image as the original parameters used with it. Parameters of other components are kept. *)
Theorem C57_adjusted_parameters K1 k d ps off xc yc : (off + nParams k <= length ps)%nat ->
  exists ps', AdjustParametersForImage NumR k d ps ps off = Ok ps' /\ length ps' = length ps /\
  (forall j, (j < off \/ off + nParams k <= j)%nat -> nth j ps' 0 = nth j ps 0) /\
  forall s x y, value_at NumR K1 k (default_desc NumR) ps' off xc yc s x y = value_at NumR K1 k d ps off xc yc s x y.
Proof. exact (@C57_adjust_proof K1 k d ps off xc yc). Qed.
Print Assumptions C57_adjusted_parameters.

(** C57. Three classes ignore the description. *)
Theorem C57_ignored_refuted K1 k d d' ps off xc yc s x y : uses_description k = false ->
  value_at NumR K1 k d ps off xc yc s x y = value_at NumR K1 k d' ps off xc yc s x y.
Proof. exact (@C57_ignored_proof K1 k d d' ps off xc yc s x y). Qed.
Print Assumptions C57_ignored_refuted.

(** C57. An edge-on disk is made brighter by the change of scale too. *)
Theorem C57_edge_on_disk_refuted K1 d ps off xc yc xc' yc' u v :
  (off + 5 <= length ps)%nat -> 0 < pixelScaling d ->
  exists b,
    value_at NumR K1 EdgeOnDisk (default_desc NumR) ps off xc yc false (xc + u) (yc + v) = Ok b /\
    value_at NumR K1 EdgeOnDisk d ps off xc' yc' false (xc' + seen_x d u v) (yc' + seen_y d u v) =
      Ok (pixelScaling d * intensityScale d * b).
Proof. exact (@C57_disk_proof K1 d ps off xc yc xc' yc' u v). Qed.
Print Assumptions C57_edge_on_disk_refuted.

(** ---- the hypotheses are met ---- *)

Definition spiral_desc : ImageDesc R := mkDesc 2 30 (1 / 2).

(** C19, C20, C21: a Sersic component, second in the parameter vector *)
Example C20_inhabited :
  let ps := [7; 40; 2 / 10; 4; 100; 12] in
  (1 + nParams Sersic <= length ps)%nat /\ 2 / 10 ^ 8 <= scale_length Sersic spiral_desc ps 1 /\
  2 / 10 ^ 8 <= vertical_scale Sersic spiral_desc ps 1 /\ has_ellipses Sersic = true /\ component_axis_ratio ps 1 <> 0 /\
  half_turn_kind Sersic spiral_desc ps 1 /\ has_PA Sersic = true.
Proof. cbn. repeat split; try lia; try lra; unfold component_axis_ratio; cbn; lra. Qed.

Example C20_tiny_inhabited : 0 < nth (3 + 0) [0; 0; 1; 1 / 10 ^ 9] 0 * pixelScaling (default_desc NumR) <= 9 / 10 ^ 9.
Proof. cbn. lra. Qed.

(** C22: every class has ordinary parameters *)
Example C22_inhabited :
  let d := spiral_desc in
  ordinary_params Exponential d [10; 1 / 2; 3; 4] 0 /\ ordinary_params Gaussian d [10; 1 / 2; 3; 4] 0 /\
  ordinary_params Sersic d [10; 1 / 2; 4; 3; 5] 0 /\ ordinary_params Moffat d [10; 1 / 2; 3; 4; 5] 0 /\
  ordinary_params ModifiedKing d [10; 1 / 2; 3; 4; 5; 6] 0 /\ ordinary_params ModifiedKing2 d [10; 1 / 2; 3; 4; 5; 6] 0 /\
  ordinary_params CoreSersic d [10; 1 / 2; 3; 4; 5; 6; 7; 8] 0 /\ ordinary_params NukerLaw d [10; 1 / 2; 3; 4; 1; 2; 1] 0.
Proof. cbn. repeat split; lra. Qed.
Example C22_advertised_inhabited :
  In (24, 50) (advertised Sersic spiral_desc [40; 2 / 10; 4; 100; 12] 0) /\
  scales_make_sense Sersic spiral_desc [40; 2 / 10; 4; 100; 12] 0 /\
  scales_make_sense Moffat spiral_desc [10; 1 / 2; 3; 4; 5] 0 /\
  scales_make_sense CoreSersic spiral_desc [10; 1 / 2; 3; 4; 5; 6; 7; 8] 0 /\
  scales_make_sense BrokenExponential spiral_desc [10; 1 / 2; 3; 4; 5; 6; 7] 0.
Proof. cbn. repeat split; try lra. left. f_equal; lra. Qed.

(** C23: a component of which the total flux is a genuine number *)
Example C23_inhabited : (0 + 4 <= length [10; 1 / 2; 3; 4])%nat /\ nth (1 + 0) [10; 1 / 2; 3; 4] 0 < 1 /\
  0 < nth (3 + 0) [10; 1 / 2; 3; 4] 0 * pixelScaling spiral_desc.
Proof. cbn. repeat split; try lia; lra. Qed.

(** C24: both sides of the switch *)
Example C24_inhabited : let ps := [10; 1 / 2; 3; 4; 5; 6; 7] in
  nth (6 + 0) ps 0 / pixelScaling spiral_desc <> 0 /\
  100 < nth (6 + 0) ps 0 / pixelScaling spiral_desc * (50 - nth (5 + 0) ps 0 * pixelScaling spiral_desc) /\
  nth (6 + 0) ps 0 / pixelScaling spiral_desc * (20 - nth (5 + 0) ps 0 * pixelScaling spiral_desc) <= 100.
Proof. cbn. repeat split; lra. Qed.

(** C57: the vector (1, 0) on a description with scale 2 and no rotation *)
Example C57_inhabited : 0 < pixelScaling spiral_desc /\ follows_description GaussianRingAz = true /\
  seen_x (mkDesc 2 0 1) 1 0 = 2.
Proof. cbn. repeat split; try lra. unfold seen_x. cbn. rewrite Rmult_0_l, cos_0. lra. Qed.
