(** C18: block down-sampling. C52: coordinates of oversampled regions. *)
From Coq Require Import Reals Lra List Arith ZArith Lia Bool.
From Verif Require Import Base Num Sums Downsample_Model Downsample_Spec Downsample_Proof.

(** [over] has [2*pc + s*nc] columns and [2*pr + s*nr] rows (PSF padding [pc], [pr] on
    each side, scale [s]); the target region of [nc] x [nr] pixels starts at 1-based
    data coordinates [(sx+1, sy+1)] of the main image, which is padded by
    [mpc], [mpr] and has [mc] x [mr] pixels. Missing for the full property: regions
    whose oversampled image is not square (see C18_nonsquare_*_refuted). *)
Theorem C18_downsample_partial :
  forall (over main : list R) (pc pr nc nr s mc mr mpc mpr sx sy : nat),
  1 <= s ->
  length over = (2 * pc + s * nc) * (2 * pr + s * nr) ->
  length main = mc * mr ->
  2 * pc + s * nc = 2 * pr + s * nr ->
  sx + mpc + nc <= mc -> sy + mpr + nr <= mr ->
  exists img,
    DownsampleAndReplace NumR over (Z.of_nat (2 * pc + s * nc)) (Z.of_nat (2 * pr + s * nr)) (Z.of_nat pc) (Z.of_nat pr)
      main (Z.of_nat mc) (Z.of_nat mr) (Z.of_nat mpc) (Z.of_nat mpr) (Z.of_nat sx + 1) (Z.of_nat sy + 1) (Z.of_nat s)
    = Ok img /\
    replaced main img mc mr (sx + mpc) (sy + mpr) nc nr
      (fun c r => block_mean over (2 * pc + s * nc) s (pc + c * s) (pr + r * s)).
Proof. intros. apply downsample_ok; auto. Qed.
Print Assumptions C18_downsample_partial.

(** core/downsample.cpp:79 derives the number of rows from the number of columns. A
    region taller than wide is only partly replaced; a wider one reads past the end. *)
Theorem C18_nonsquare_tall_refuted : forall a b m0 m1 : R,
  exists v, DownsampleAndReplace NumR [a; b] 1 2 0 0 [m0; m1] 1 2 0 0 1 1 1 = Ok [v; m1].
Proof. intros. eexists. reflexivity. Qed.
Print Assumptions C18_nonsquare_tall_refuted.

Theorem C18_nonsquare_wide_refuted : forall a b m0 m1 : R,
  DownsampleAndReplace NumR [a; b] 2 1 0 0 [m0; m1] 2 1 0 0 1 1 1 = Undef.
Proof. intros. reflexivity. Qed.
Print Assumptions C18_nonsquare_wide_refuted.

(** a 2x2 region (scale 2, oversampled padding 1) of a 5x5 main image padded by 1 *)
Example C18_hyp_example : exists img,
  DownsampleAndReplace NumR (map INR (seq 0 36)) 6 6 1 1 (repeat 0%R 25) 5 5 1 1 2 2 2 = Ok img /\
  pix img 5 2 2 = (21 / 2)%R /\ pix img 5 1 1 = 0%R.
Proof.
  destruct (@C18_downsample_partial (map INR (seq 0 36)) (repeat 0%R 25) 1 1 2 2 2 5 5 1 1 1 1)
    as (img & E & HL & HP); try reflexivity; try lia.
  exists img. split; [exact E|]. rewrite !HP by lia. simpl. split; [|reflexivity].
  unfold block_mean, pix. simpl. lra.
Qed.

(** C52. Sub-pixel (b, a) of region pixel (c, q): its coordinates are those of the
    parent pixel (x1 + c, y1 + q) plus an offset; the [s] sub-pixels of width [1/s]
    tile the parent pixel, and their mean is the parent coordinate. *)
Theorem C52_subpixel_coords : forall psf x1 y1 nc nr mc mr mpc mpr s r,
  SetupModelImage NumR (option_map (fun '(a, b) => (Z.of_nat a, Z.of_nat b)) psf) x1 y1
    (Z.of_nat nc) (Z.of_nat nr) (Z.of_nat mc) (Z.of_nat mr) (Z.of_nat mpc) (Z.of_nat mpr) (Z.of_nat s) = Ok r ->
  let pc := match psf with Some (a, _) => a | None => 0 end in
  let pr := match psf with Some (_, b) => b | None => 0 end in
  (forall c b,
    (reg_x NumR r (Z.of_nat (pc + c * s + b)) - 1 / 2 / INR s = (IZR x1 + INR c - 1 / 2) + INR b / INR s)%R /\
    (reg_y NumR r (Z.of_nat (pr + c * s + b)) - 1 / 2 / INR s = (IZR y1 + INR c - 1 / 2) + INR b / INR s)%R) /\
  (forall c,
    (rsum s (fun b => reg_x NumR r (Z.of_nat (pc + c * s + b))) / INR s = IZR x1 + INR c)%R /\
    (rsum s (fun b => reg_y NumR r (Z.of_nat (pr + c * s + b))) / INR s = IZR y1 + INR c)%R) /\
  (forall c b, b < s ->
    (IZR x1 + INR c - 1 / 2 < reg_x NumR r (Z.of_nat (pc + c * s + b)) < IZR x1 + INR c + 1 / 2)%R /\
    (IZR y1 + INR c - 1 / 2 < reg_y NumR r (Z.of_nat (pr + c * s + b)) < IZR y1 + INR c + 1 / 2)%R).
Proof. intros. eapply subpixels_ok. eassumption. Qed.
Print Assumptions C52_subpixel_coords.

(** Without convolution, a square region receives in each of its pixels the mean over
    the s x s sub-pixel centres of the sum of all functions. *)
Theorem C52_region_image : forall x1 y1 nb mc mr mpc mpr s r (conv : list R -> list R) fs pts main,
  SetupModelImage NumR None x1 y1 (Z.of_nat nb) (Z.of_nat nb) (Z.of_nat mc) (Z.of_nat mr)
      (Z.of_nat mpc) (Z.of_nat mpr) (Z.of_nat s) = Ok r ->
  length main = mc * mr ->
  (1 <= x1)%Z -> (1 <= y1)%Z ->
  (x1 - 1 + Z.of_nat (mpc + nb) <= Z.of_nat mc)%Z -> (y1 - 1 + Z.of_nat (mpr + nb) <= Z.of_nat mr)%Z ->
  exists img, ComputeRegionAndDownsample NumR r conv fs pts main = Ok img /\
    replaced main img mc mr (Z.to_nat (x1 - 1) + mpc) (Z.to_nat (y1 - 1) + mpr) nb nb
     (fun c q => (rsum s (fun a => rsum s (fun b =>
        total_at fs pts (IZR x1 + INR c - 1 / 2 + (INR b + 1 / 2) / INR s) (IZR y1 + INR q - 1 / 2 + (INR a + 1 / 2) / INR s)))
        / (INR s * INR s))%R).
Proof. intros. apply region_noconv_ok; auto. Qed.
Print Assumptions C52_region_image.

Example C52_hyp_example : exists r,
  SetupModelImage NumR None 2 3 (Z.of_nat 2) (Z.of_nat 2) (Z.of_nat 9) (Z.of_nat 9) (Z.of_nat 1) (Z.of_nat 1) (Z.of_nat 3) = Ok r.
Proof. eexists. reflexivity. Qed.
