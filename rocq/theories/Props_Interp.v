(** Property C25: PSF interpolation for point sources. Exact arithmetic; the
    decimal constants for pi are those of the program, hence the tolerances. *)
From Coq Require Import Reals ZArith List Lra Lia String.
From Verif Require Import Interp_Spec Interp_Proof.
Import ListNotations.
Open Scope R_scope.

(** Outside the PSF image every interpolator returns 0. *)
Theorem C25_outside : forall spline k W H pix x y,
  beyond W x \/ beyond H y -> psf_at spline k W H pix x y = Ok 0.
Proof. exact outside_proof. Qed.
Print Assumptions C25_outside.
Example C25_outside_case : beyond 5 2.1 /\ ~ beyond 5 2.
Proof. unfold beyond. cbn [INR]. rewrite !Rabs_pos_eq by lra. lra. Qed.

(** The bicubic interpolator returns each pixel's value at the pixel's
    position, for every size, provided GSL's spline passes through its data. *)
Theorem C25_bicubic : forall spline W H pix c r,
  psf_image W H pix -> passes_through_data spline -> (c < W)%nat -> (r < H)%nat ->
  psf_at spline Bicubic W H pix (position W c) (position H r) = Ok (pixel W pix c r).
Proof. exact bicubic_proof. Qed.
Print Assumptions C25_bicubic.

(** ... so a point source of total intensity [I] shows I times the PSF image
    around its position, at scale [s] in an oversampled region. *)
Theorem C25_point_source : forall spline W H pix I x0 y0 s c r,
  psf_image W H pix -> passes_through_data spline -> (1 <= s)%Z -> (c < W)%nat -> (r < H)%nat ->
  PointSource_value NumR I x0 y0 s (psf_at spline Bicubic W H pix)
    (x0 + position W c / IZR s) (y0 + position H r / IZR s) = Ok (I * pixel W pix c r).
Proof. exact point_source_proof. Qed.
Print Assumptions C25_point_source.
Example C25_image_case : psf_image 5 4 (map INR (seq 0 20)) /\ pixel 5 (map INR (seq 0 20)) 1 2 = INR 11.
Proof. split; [split; [reflexivity|lia]|reflexivity]. Qed.

Example C25_spline_case : passes_through_data lookup_spline.
Proof. exact lookup_spline_ok. Qed.

(** The Lanczos interpolators on images that are at least as tall as wide:
    the value is the sum over all pixels of the windowed sinc in x times the
    windowed sinc in y times the pixel at [c*W + r], where the pixel in column
    c and row r is at [r*W + c]. No access is out of bounds. *)
Theorem C25_lanczos_formula : forall spline k n W H pix x y,
  lobes k = Some n -> (2 <= W <= H)%nat -> psf_image W H pix -> ~ beyond W x -> ~ beyond H y ->
  psf_at spline k W H pix x y = Ok (rsum W (fun c => rsum H (fun r =>
    windowed_sinc n (x - position W c) * windowed_sinc n (y - position H r) * nth (c * W + r) pix 0))).
Proof. exact lanczos_formula_proof. Qed.
Print Assumptions C25_lanczos_formula.
Example C25_lanczos_case : lobes Lanczos2 = Some 2%nat /\ lobes Lanczos3 = Some 3%nat
  /\ psf_image 5 5 (repeat 1 25) /\ ~ beyond 5 (1/4) /\ ~ beyond 5 (-2).
Proof.
  repeat split; try lia; unfold beyond; cbn [INR].
  - rewrite Rabs_pos_eq; lra.
  - rewrite Rabs_left; lra.
Qed.

(** Part of C25 for the Lanczos interpolators: on a square PSF that is
    symmetric in its diagonal, the value at a pixel is that pixel's value up
    to 10^-13 of the largest one. Missing: PSFs without that symmetry (see the
    next theorems). *)
Theorem C25_lanczos_partial : forall spline k n W pix B c r,
  lobes k = Some n -> (2 <= W)%nat -> psf_image W W pix -> diagonal_symmetric W pix ->
  (forall i j, (i < W)%nat -> (j < W)%nat -> Rabs (pixel W pix i j) <= B) -> (c < W)%nat -> (r < W)%nat ->
  exists v, psf_at spline k W W pix (position W c) (position W r) = Ok v
    /\ Rabs (v - pixel W pix c r) <= B / IZR (10 ^ 13).
Proof. exact symmetric_proof. Qed.
Print Assumptions C25_lanczos_partial.
Example C25_symmetric_case : diagonal_symmetric 3 [1; 2; 3; 2; 9; 4; 3; 4; 7].
Proof.
  intros c r Hc Hr. do 3 (destruct c as [|c]; [do 3 (destruct r as [|r]; [reflexivity|]); lia|]). lia.
Qed.

(** On every square PSF the value at column c, row r is that of the pixel at
    column r, row c. *)
Theorem C25_lanczos_square : forall spline k n W pix B c r,
  lobes k = Some n -> (2 <= W)%nat -> psf_image W W pix ->
  (forall i j, (i < W)%nat -> (j < W)%nat -> Rabs (pixel W pix i j) <= B) -> (c < W)%nat -> (r < W)%nat ->
  exists v, psf_at spline k W W pix (position W c) (position W r) = Ok v
    /\ Rabs (v - pixel W pix r c) <= B / IZR (10 ^ 13).
Proof. exact square_proof. Qed.
Print Assumptions C25_lanczos_square.

(** On a PSF taller than wide it is that of the pixel stored at [c*W + r],
    which in general is neither. *)
Theorem C25_lanczos_tall : forall spline k n W H pix B c r,
  lobes k = Some n -> (2 <= W <= H)%nat -> psf_image W H pix ->
  (forall i j, (i < W)%nat -> (j < H)%nat -> Rabs (pixel W pix i j) <= B) -> (c < W)%nat -> (r < H)%nat ->
  exists v, psf_at spline k W H pix (position W c) (position H r) = Ok v
    /\ Rabs (v - nth (c * W + r) pix 0) <= B / IZR (10 ^ 13).
Proof. exact tall_proof. Qed.
Print Assumptions C25_lanczos_tall.
Example C25_tall_case : psf_image 4 6 (repeat 1 24)
  /\ forall i j, (i < 4)%nat -> (j < 6)%nat -> Rabs (pixel 4 (repeat 1 24) i j) <= 1.
Proof.
  split; [split; [reflexivity|lia]|]. intros i j Hi Hj. unfold pixel.
  destruct (Nat.lt_ge_cases (j * 4 + i) 24) as [L|L]; [|lia].
  rewrite (nth_indep _ 0 1) by (rewrite repeat_length; lia). rewrite nth_repeat, Rabs_R1. lra.
Qed.

(** C25 is false of the Lanczos interpolators: a 4 x 4 PSF whose pixel in
    column 1, row 0 is 1 but whose interpolated value there is below 1/2. *)
Theorem C25_transposed_refuted : forall spline k n, lobes k = Some n ->
  exists W pix c r v, psf_image W W pix /\ (4 <= W)%nat /\ (c < W)%nat /\ (r < W)%nat
    /\ psf_at spline k W W pix (position W c) (position W r) = Ok v
    /\ pixel W pix c r = 1 /\ v < 1 / 2.
Proof. exact transposed_proof. Qed.
Print Assumptions C25_transposed_refuted.

(** ... and on every PSF wider than tall they read outside the pixel array
    at each pixel of the last column. *)
Theorem C25_wide_refuted : forall spline k n W H pix r,
  lobes k = Some n -> (2 <= H < W)%nat -> psf_image W H pix -> (r < H)%nat ->
  psf_at spline k W H pix (position W (W - 1)) (position H r) = Undef.
Proof. exact wide_proof. Qed.
Print Assumptions C25_wide_refuted.
Example C25_wide_case : psf_image 6 4 (repeat 1 24).
Proof. split; [reflexivity|lia]. Qed.

(** All point sources of a model share the interpolator of the first one: the
    method asked for by the later ones is ignored. *)
Theorem C25_shared_method : forall pix W H k ks, (4 <= W)%Z -> (4 <= H)%Z ->
  AddPointSources NumR (Some (pix, W, H)) None (k :: ks)
  = (0%Z, repeat (Some (k, make_psf NumR pix W H)) (S (List.length ks))).
Proof. exact shared_proof. Qed.
Print Assumptions C25_shared_method.

(** Without a PSF, or with one smaller than 4 x 4, adding a point source fails. *)
Theorem C25_no_psf : forall psf k ks,
  (match psf with None => True | Some (_, W, H) => (W < 4 \/ H < 4)%Z end) ->
  AddPointSources NumR psf None (k :: ks) = ((-1)%Z, nil).
Proof. exact too_small_proof. Qed.
Print Assumptions C25_no_psf.

(** Oversampled regions: point sources see the caller's PSF pixels, whether or
    not normalisation was asked for. *)
Theorem C25_region_pixels : forall normalise spline W H pix flag c r,
  psf_image W H pix -> passes_through_data spline ->
  (4 <= W)%nat -> (4 <= H)%nat -> (c < W)%nat -> (r < H)%nat ->
  exists k p, snd (region_AddPSFVector NumR normalise pix (Z.of_nat W) (Z.of_nat H) flag) = Some (k, p)
    /\ interp_value NumR spline k p (position W c) (position H r) = Ok (pixel W pix c r).
Proof. exact region_proof. Qed.
Print Assumptions C25_region_pixels.

(** The method option accepts the three names in two spellings and rejects
    every other one. *)
Theorem C25_method_names : forall v rest current,
  SetExtraParams (("method"%string, v) :: rest) current =
    if in_dec string_dec v ["bicubic"; "Bicubic"]%string then (1%Z, Bicubic)
    else if in_dec string_dec v ["lanczos2"; "Lanczos2"]%string then (1%Z, Lanczos2)
    else if in_dec string_dec v ["lanczos3"; "Lanczos3"]%string then (1%Z, Lanczos3)
    else ((-3)%Z, current).
Proof. exact method_proof. Qed.
Print Assumptions C25_method_names.
