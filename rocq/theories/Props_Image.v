(** C12, C13: model images. C14: history. C52: images with oversampled regions.
    All but C14_history_partial use exact arithmetic and the exact discrete Fourier
    transform. *)
From Coq Require Import Reals Lra List Arith ZArith Lia Bool.
From Verif Require Import Base Num Sums Params_Model Params_Spec Params_Proof Conv_Model Conv_Spec Conv_Proof
  Downsample_Model Image_Model Image_Spec Image_Proof Image_History Image_Region Image_Final.
Import ListNotations.
Set Implicit Arguments.
Unset Strict Implicit.
Local Open Scope nat_scope.

(** C12. A model of functions [fs] in blocks [bs] (their centres and parameters), with or
    without a PSF: the set-up succeeds, and the returned image has w x h pixels given by
    [image_pixel]. The padding added for the PSF shifts no coordinate. [garbage] is the
    uninitialised interpolator of each function object. *)
Theorem C12_image fs bs flags psf interp w h :
  blocks_ok bs -> map fn_nParams fs = sizes bs -> DefineFunctionSets (length fs) (starts 0 bs) = Ok flags ->
  valid_psf psf -> 1 <= w -> 1 <= h ->
  exists m, SetupModelImage NumR dft_r2c fs flags psf interp w h = Ok (0%Z, Some m) /\
    forall garbage, length garbage = length fs ->
    exists out, image_for NumR dft_r2c dft_c2r m (initial NumR m garbage) (flat bs) = Ok out /\ length out = w * h /\
      forall c r, c < w -> r < h -> nth (r * w + c) out 0%R = image_pixel (psf_spec psf) interp fs (seen bs) c r.
Proof. intros. now apply image_final. Qed.
Print Assumptions C12_image.

(** C12: with a PSF that does not blur, every pixel is the sum of all functions at its
    FITS coordinates (c+1, r+1). *)
Theorem C12_no_blur fs bs flags pix pw ph interp w h :
  blocks_ok bs -> map fn_nParams fs = sizes bs -> DefineFunctionSets (length fs) (starts 0 bs) = Ok flags ->
  1 <= pw -> 1 <= ph -> length pix = pw * ph -> 1 <= w -> 1 <= h ->
  (forall k l, k < ph -> l < pw -> nth (k * pw + l) pix 0%R = if ((k =? ph / 2) && (l =? pw / 2))%bool then 1%R else 0%R) ->
  exists m, SetupModelImage NumR dft_r2c fs flags (Some (mkPSF pix pw ph false)) interp w h = Ok (0%Z, Some m) /\
    forall garbage, length garbage = length fs ->
    exists out, image_for NumR dft_r2c dft_c2r m (initial NumR m garbage) (flat bs) = Ok out /\ length out = w * h /\
      forall c r, c < w -> r < h ->
        nth (r * w + c) out 0%R = rsuml (map (fun '(f, e) => func_value interp f e (INR c + 1) (INR r + 1)) (combine fs (seen bs))).
Proof.
  intros Hb Hf Hfl Hpw Hph Lp Hw Hh Hd.
  destruct (@image_final fs bs flags (Some (mkPSF pix pw ph false)) interp w h Hb Hf Hfl) as (m & E & H); auto.
  { cbn. split; [auto|]. split; [auto|]. split; [auto|discriminate]. }
  exists m. split; [exact E|]. intros garbage Lg. destruct (H garbage Lg) as (out & Eo & Lo & V).
  exists out. split; [exact Eo|]. split; [exact Lo|]. intros c r Hc Hr. rewrite V by auto.
  cbn [psf_spec option_map used_psf ps_pixels ps_normalize ps_cols ps_rows].
  rewrite image_pixel_delta; auto.
  transitivity (length (sizes bs)); [rewrite <- seen_sizes, map_length; reflexivity|rewrite <- Hf, map_length; reflexivity].
Qed.
Print Assumptions C12_no_blur.

(** C13. The image is, pixel by pixel, the sum of the images of the single functions. *)
Theorem C13_sum fs bs flags psf interp w h :
  blocks_ok bs -> map fn_nParams fs = sizes bs -> DefineFunctionSets (length fs) (starts 0 bs) = Ok flags ->
  valid_psf psf -> 1 <= w -> 1 <= h ->
  exists m, SetupModelImage NumR dft_r2c fs flags psf interp w h = Ok (0%Z, Some m) /\
    forall garbage, length garbage = length fs ->
    exists img outs, image_for NumR dft_r2c dft_c2r m (initial NumR m garbage) (flat bs) = Ok img /\ length outs = length fs /\
      (forall i, i < length fs -> single_for NumR dft_r2c dft_c2r m (initial NumR m garbage) (flat bs) i = Ok (nth i outs [])) /\
      forall c r, c < w -> r < h -> nth (r * w + c) img 0%R = rsum (length fs) (fun i => nth (r * w + c) (nth i outs []) 0%R).
Proof. intros. now apply singles_final. Qed.
Print Assumptions C13_sum.

(** a PointSource and an extended function in one block, another function in a second *)
Definition demo_funcs : list (func R) :=
  [mkFunc 1 (Point 1%R); mkFunc 2 (Plain (fun p x0 y0 x y => nth 0 p 0 + nth 1 p 0 * (x - x0)))%R; mkFunc 1 (Plain (fun p _ _ _ _ => nth 0 p 0))%R].
Definition demo_blocks : list (blk R) := [mkBlk 3 4 [[10]; [1; 2]]; mkBlk 5 5 [[7]]]%R.
Example C12_hyp_example : blocks_ok demo_blocks /\ map fn_nParams demo_funcs = sizes demo_blocks /\
  DefineFunctionSets 3 (starts 0 demo_blocks) = Ok [true; false; true] /\ valid_psf (Some (mkPSF (repeat 1%R 16) 4 4 true)) /\
  image_pixel None (fun u v => u)%R demo_funcs (seen demo_blocks) 1 0 = (-4)%R.
Proof.
  split; [split; [discriminate|repeat constructor; discriminate]|]. split; [reflexivity|]. split; [reflexivity|]. split.
  - cbn. split; [lia|]. split; [lia|]. split; [reflexivity|]. intros _. unfold total. cbn. lra.
  - unfold image_pixel, sum_over, demo_funcs, demo_blocks, seen, func_value. cbn -[IZR Rmult Rplus Rminus]. lra.
Qed.

(** C14, in any arithmetic and with any Fourier transform: after any history of
    evaluations that returned, images (of all functions or of one) are those of a fresh
    model, whatever the uninitialised pointers were. Missing for the full property:
    models with both point sources and oversampled regions, for which it is false
    (C14_point_source_refuted). *)
Theorem C14_history_partial {T} (N : Num T) r2c c2r (m : model T) garbage garbage' cs st p :
  mo_regions m = [] \/ existsb is_point (mo_funcs m) = false -> 1 <= mo_dataCols m ->
  length garbage = length (mo_funcs m) -> length garbage' = length (mo_funcs m) ->
  history N r2c c2r m (initial N m garbage) cs = Ok st ->
  image_for N r2c c2r m st p = image_for N r2c c2r m (initial N m garbage') p /\
  forall idx, single_for N r2c c2r m st p idx = single_for N r2c c2r m (initial N m garbage') p idx.
Proof.
  intros Hm Hc Lg Lg' E. assert (G := history_good Hm (initial_good N Lg) E). assert (G' := initial_good N Lg').
  assert (Hn := nModelColumns_pos Hc). split; [now apply image_for_same|]. intros idx. now apply single_same.
Qed.
Print Assumptions C14_history_partial.

(** C14, C52: images with oversampled regions. The first evaluation puts in every
    region's pixels the block means of its oversampled image, convolved with its PSF, with
    the point sources drawn from the region's PSF; pixels outside are those of C12. Every
    later evaluation draws the point sources outside the regions from the main PSF
    contracted by the scale of the last region. *)
Theorem C52_model_image fs bs flags psf interp w h bicubic qs :
  blocks_ok bs -> map fn_nParams fs = sizes bs -> DefineFunctionSets (length fs) (starts 0 bs) = Ok flags ->
  valid_psf psf -> 1 <= w -> 1 <= h -> Forall (valid_request w h) qs ->
  let regs := map (requested bicubic w h) qs in
  exists m0 m, SetupModelImage NumR dft_r2c fs flags psf interp w h = Ok (0%Z, Some m0) /\
    add_regions dft_r2c dft_c2r bicubic m0 qs = Ok m /\
    forall garbage, length garbage = length fs ->
    exists out, image_for NumR dft_r2c dft_c2r m (initial NumR m garbage) (flat bs) = Ok out /\ length out = w * h /\
      forall c r, c < w -> r < h ->
        nth (r * w + c) out 0%R = with_regions regs (image_pixel (psf_spec psf) interp fs (seen bs) c r) fs (seen bs) c r.
Proof.
  intros Hb Hf Hfl Hp Hw Hh Vq regs.
  destruct (@regions_final fs bs flags psf interp w h Hb Hf Hfl Hp Hw Hh bicubic qs Vq) as (m0 & m & E0 & E & Ef & H).
  exists m0, m. split; [exact E0|]. split; [exact E|]. intros garbage Lg. cbv zeta in H. rewrite <- Ef in Lg.
  destruct (H _ 1%Z (good_good_z (initial_good NumR Lg))) as (st & out & E1 & _ & E2 & Lo & V).
  exists out. unfold image_for. rewrite E1. cbn [bind]. split; [exact E2|]. split; [exact Lo|].
  intros c r Hc Hr. rewrite V by auto. f_equal. apply image_pixel_interp. intros u v. unfold rescaled. now rewrite !Rmult_1_l.
Qed.
Print Assumptions C52_model_image.

Theorem C14_later_evaluations fs bs flags psf interp w h bicubic qs q :
  blocks_ok bs -> map fn_nParams fs = sizes bs -> DefineFunctionSets (length fs) (starts 0 bs) = Ok flags ->
  valid_psf psf -> 1 <= w -> 1 <= h -> Forall (valid_request w h) (qs ++ [q]) ->
  let regs := map (requested bicubic w h) (qs ++ [q]) in
  let s := INR (q_scale q) in
  exists m0 m, SetupModelImage NumR dft_r2c fs flags psf interp w h = Ok (0%Z, Some m0) /\
    add_regions dft_r2c dft_c2r bicubic m0 (qs ++ [q]) = Ok m /\
    forall garbage n, length garbage = length fs ->
    exists st out, history NumR dft_r2c dft_c2r m (initial NumR m garbage) (repeat (EvalImage (flat bs)) (S n)) = Ok st /\
      image_for NumR dft_r2c dft_c2r m st (flat bs) = Ok out /\ length out = w * h /\
      forall c r, c < w -> r < h ->
        nth (r * w + c) out 0%R = with_regions regs (image_pixel (psf_spec psf) (fun u v => interp (s * u) (s * v))%R fs (seen bs) c r) fs (seen bs) c r.
Proof.
  intros Hb Hf Hfl Hp Hw Hh Vq regs s.
  destruct (@regions_final fs bs flags psf interp w h Hb Hf Hfl Hp Hw Hh bicubic (qs ++ [q]) Vq) as (m0 & m & E0 & E & Ef & H).
  exists m0, m. split; [exact E0|]. split; [exact E|]. intros garbage n Lg. cbv zeta in H. rewrite <- Ef in Lg.
  assert (LS : forall z, last_scale z regs = Z.of_nat (q_scale q)).
  { intros z. unfold regs, last_scale. rewrite map_app, fold_left_app. cbn [map fold_left].
    unfold requested. destruct (clipped _ _ _), (clipped _ _ _). reflexivity. }
  assert (Hist : exists st, history NumR dft_r2c dft_c2r m (initial NumR m garbage) (repeat (EvalImage (flat bs)) (S n)) = Ok st /\ good_z m (Z.of_nat (q_scale q)) st).
  { assert (G0 := good_good_z (initial_good NumR Lg)). revert G0. generalize (initial NumR m garbage) as st0, 1%Z as z.
    induction n as [|n IH]; intros st0 z G0; cbn [repeat history perform].
    - destruct (H st0 z G0) as (st & _ & E1 & G & _). rewrite E1. cbn [bind]. exists st. fold regs in G. rewrite LS in G. auto.
    - destruct (H st0 z G0) as (st & _ & E1 & G & _). rewrite E1. cbn [bind]. eapply IH. exact G. }
  destruct Hist as (st & Eh & G). destruct (H st _ G) as (st' & out & E1 & _ & E2 & Lo & V).
  exists st, out. split; [exact Eh|]. split; [unfold image_for; rewrite E1; exact E2|]. split; [exact Lo|].
  intros c r Hc Hr. rewrite V by auto. f_equal. apply image_pixel_interp. intros u v. unfold rescaled. now rewrite <- INR_IZR_INZ.
Qed.
Print Assumptions C14_later_evaluations.

(** the bicubic interpolator of a 4 x 4 PSF of equal pixels: 1 within its bounds, 0 outside *)
Definition flat_psf (u v : R) : R := if Rle_dec (Rabs u) (3 / 2) then if Rle_dec (Rabs v) (3 / 2) then 1%R else 0%R else 0%R.
(** A PointSource at (3, 3) in a 3 x 3 image whose pixels x = 1..2, y = 1..2 are oversampled by
    2: evaluating the same parameters twice gives two different images. *)
Theorem C14_point_source_refuted :
  let p := [3; 3; 1]%R in let psf := mkPSF (repeat 1%R 16) 4 4 true in
  exists m0 m st a b,
    SetupModelImage NumR dft_r2c [mkFunc 1 (Point 1%R)] [true] (Some psf) flat_psf 3 3 = Ok (0%Z, Some m0) /\
    add_regions dft_r2c dft_c2r (fun _ _ _ => flat_psf) m0 [mkRequest psf 1 2 1 2 2] = Ok m /\
    image_for NumR dft_r2c dft_c2r m (initial NumR m [flat_psf]) p = Ok a /\
    history NumR dft_r2c dft_c2r m (initial NumR m [flat_psf]) [EvalImage p] = Ok st /\
    image_for NumR dft_r2c dft_c2r m st p = Ok b /\ nth 7 a 0%R = 1%R /\ nth 7 b 0%R = 0%R.
Proof.
  intros p psf.
  set (bs := [mkBlk 3 3 [[1]]]%R). set (fs := [mkFunc 1 (Point 1%R)]).
  assert (Hb : blocks_ok bs) by (split; [discriminate|repeat constructor; discriminate]).
  assert (Hf : map fn_nParams fs = sizes bs) by reflexivity.
  assert (Hfl : DefineFunctionSets (length fs) (starts 0 bs) = Ok [true]) by reflexivity.
  assert (Hp : valid_psf (Some psf)).
  { cbn. split; [lia|]. split; [lia|]. split; [reflexivity|]. intros _. unfold total. cbn. lra. }
  set (q := mkRequest psf 1 2 1 2 2).
  assert (Vq : Forall (valid_request 3 3) ([] ++ [q])).
  { repeat constructor; cbn; try lia. }
  destruct (@C52_model_image fs bs [true] (Some psf) flat_psf 3 3 (fun _ _ _ => flat_psf) [q] Hb Hf Hfl Hp ltac:(lia) ltac:(lia) Vq) as (m0 & m & E0 & E & H1).
  destruct (@C14_later_evaluations fs bs [true] (Some psf) flat_psf 3 3 (fun _ _ _ => flat_psf) [] q Hb Hf Hfl Hp ltac:(lia) ltac:(lia) Vq) as (m0' & m' & E0' & E' & H2).
  cbn [app] in E', H2. rewrite E0 in E0'. apply Ok_inj in E0'. injection E0' as <-. rewrite E in E'. apply Ok_inj in E'. subst m'.
  destruct (H1 [flat_psf] eq_refl) as (a & Ea & _ & Va). destruct (H2 [flat_psf] 0 eq_refl) as (st & b & Eh & Eb & _ & Vb).
  exists m0, m, st, a, b. split; [exact E0|]. split; [exact E|]. split; [exact Ea|]. split; [exact Eh|]. split; [exact Eb|].
  assert (R0 : forall base, with_regions (map (requested (fun _ _ _ => flat_psf) 3 3) [q]) base fs (seen bs) 1 2 = base) by (intros; reflexivity).
  assert (Ext : forall i x y, sum_over extended i fs (seen bs) x y = 0%R) by (intros; unfold sum_over; cbn; ring).
  assert (Pix : forall i, image_pixel (psf_spec (Some psf)) i fs (seen bs) 1 2 = i (-1)%R 0%R).
  { intros i. unfold image_pixel, psf_spec. cbn [option_map psf ps_cols ps_rows ps_pixels ps_normalize].
    rewrite (@rsum_zero 4).
    - rewrite Rplus_0_l. unfold sum_over, fs, bs. cbn -[IZR Rmult Rplus Rminus].
      replace (1 + 1 - 3)%R with (-1)%R by lra. replace (1 + 1 + 1 - 3)%R with 0%R by lra. lra.
    - intros k _. apply rsum_zero. intros l _. rewrite Ext. ring. }
  split.
  - specialize (Va 1 2 ltac:(lia) ltac:(lia)). change (2 * 3 + 1) with 7 in Va. rewrite Va. rewrite R0, Pix. unfold flat_psf. rewrite Rabs_left, Rabs_R0 by lra.
    destruct (Rle_dec (- -1) (3 / 2)); [|lra]. destruct (Rle_dec 0 (3 / 2)); lra.
  - specialize (Vb 1 2 ltac:(lia) ltac:(lia)). change (2 * 3 + 1) with 7 in Vb. rewrite Vb. rewrite R0, Pix. cbn [q q_scale INR]. unfold flat_psf. rewrite Rabs_left by lra.
    destruct (Rle_dec (- ((1 + 1) * -1)) (3 / 2)); lra.
Qed.
Print Assumptions C14_point_source_refuted.
