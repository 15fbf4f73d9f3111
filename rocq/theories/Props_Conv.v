(** Properties C15-C17: PSF convolution. The theorems use exact arithmetic and the
    exact discrete Fourier transform. *)
From Coq Require Import Reals Lra List Arith ZArith Lia Bool.
From Verif Require Import Base Num Sums Conv_Model Conv_Spec Conv_Proof.
Import ListNotations.
Set Implicit Arguments.
Unset Strict Implicit.

(** C15: every pixel of the convolved image is the sum over all PSF pixels of the PSF
    value times the displaced image value, 0 outside the image: nothing wraps
    around. For every image size, PSF size (odd or even) and pixel values; the image
    keeps its size and no access is out of bounds. *)
Theorem C15_convolution psf pw ph normalize img w h :
  (1 <= pw)%nat -> (1 <= ph)%nat -> (1 <= w)%nat -> (1 <= h)%nat ->
  length psf = (pw * ph)%nat -> length img = (w * h)%nat ->
  (normalize = true -> total psf <> 0%R) ->
  exists out, convolve_with NumR dft_r2c dft_c2r (mkPSF psf pw ph normalize) w h img = Ok out /\
    length out = (w * h)%nat /\
    forall c r, (c < w)%nat -> (r < h)%nat ->
      nth (r * w + c) out 0%R = convolved (used_psf psf normalize) pw ph img w h c r.
Proof. intros. now apply convolve_with_ok. Qed.
Print Assumptions C15_convolution.

(** without padding, pixel 0 would also receive 4 * 7 from the other edge *)
Example C15_case :
  length [1; 2; 4]%R = (3 * 1)%nat /\ length [5; 7]%R = (2 * 1)%nat /\
  convolved [1; 2; 4]%R 3 1 [5; 7]%R 2 1 0 0 = 17%R /\ convolved [1; 2; 4]%R 3 1 [5; 7]%R 2 1 1 0 = 34%R.
Proof. repeat split; unfold convolved, zpix; cbn -[IZR Rmult Rplus]; try (change (Pos.to_nat 1) with 1%nat; cbv iota; lra). Qed.

(** C16: convolution is linear in the image. *)
Theorem C16_linear psf pw ph f g w h (a b : R) :
  (1 <= pw)%nat -> (1 <= ph)%nat -> (1 <= w)%nat -> (1 <= h)%nat ->
  length psf = (pw * ph)%nat -> length f = (w * h)%nat -> length g = (w * h)%nat ->
  exists of og oc,
    convolve_with NumR dft_r2c dft_c2r (mkPSF psf pw ph false) w h f = Ok of /\
    convolve_with NumR dft_r2c dft_c2r (mkPSF psf pw ph false) w h g = Ok og /\
    convolve_with NumR dft_r2c dft_c2r (mkPSF psf pw ph false) w h
      (map (fun x => a * fst x + b * snd x)%R (combine f g)) = Ok oc /\
    forall c r, (c < w)%nat -> (r < h)%nat ->
      (nth (r * w + c) oc 0 = a * nth (r * w + c) of 0 + b * nth (r * w + c) og 0)%R.
Proof.
  intros Hpw Hph Hw Hh Lp Lf Lg.
  destruct (@convolve_with_ok psf pw ph false f w h) as (of & Ef & Lof & Vf); auto.
  destruct (@convolve_with_ok psf pw ph false g w h) as (og & Eg & Log & Vg); auto.
  destruct (@convolve_with_ok psf pw ph false (map (fun x => a * fst x + b * snd x)%R (combine f g)) w h) as (oc & Ec & Loc & Vc); auto.
  { rewrite map_length, combine_length. lia. }
  exists of, og, oc. split; [exact Ef|]. split; [exact Eg|]. split; [exact Ec|].
  intros c r Hc Hr. rewrite Vc, Vf, Vg by auto. apply convolved_linear. intros k.
  exact (@nth_map_combine f g a b k (eq_trans Lf (eq_sym Lg))).
Qed.
Print Assumptions C16_linear.

(** C16: a PSF that is 1 at its centre (ph/2, pw/2) and 0 elsewhere changes nothing. *)
Theorem C16_delta psf pw ph img w h :
  (1 <= pw)%nat -> (1 <= ph)%nat -> (1 <= w)%nat -> (1 <= h)%nat ->
  length psf = (pw * ph)%nat -> length img = (w * h)%nat ->
  (forall k l, (k < ph)%nat -> (l < pw)%nat ->
     nth (k * pw + l) psf 0%R = if ((k =? ph / 2)%nat && (l =? pw / 2)%nat)%bool then 1%R else 0%R) ->
  convolve_with NumR dft_r2c dft_c2r (mkPSF psf pw ph false) w h img = Ok img.
Proof.
  intros Hpw Hph Hw Hh Lp Li Hd.
  destruct (@convolve_with_ok psf pw ph false img w h) as (out & E & L & V); auto.
  rewrite E. f_equal. apply (@image_ext w h); auto.
  intros c r Hc Hr. rewrite V by auto. now apply convolved_delta.
Qed.
Print Assumptions C16_delta.

(** C16: total flux is multiplied by the sum of the PSF, hence conserved when that sum
    is 1, if the image is 0 closer to an edge than the PSF reaches. *)
Theorem C16_flux psf pw ph (normalize : bool) img w h :
  (1 <= pw)%nat -> (1 <= ph)%nat -> (1 <= w)%nat -> (1 <= h)%nat ->
  length psf = (pw * ph)%nat -> length img = (w * h)%nat ->
  (if normalize then total psf <> 0 else total psf = 1)%R ->
  (forall c r, (c < w)%nat -> (r < h)%nat -> nth (r * w + c) img 0%R <> 0%R ->
     (pw / 2 <= c /\ c + pw <= w + pw / 2 /\ ph / 2 <= r /\ r + ph <= h + ph / 2)%nat) ->
  exists out, convolve_with NumR dft_r2c dft_c2r (mkPSF psf pw ph normalize) w h img = Ok out /\
    total out = total img.
Proof.
  intros Hpw Hph Hw Hh Lp Li Ht Hs.
  destruct (@convolve_with_ok psf pw ph normalize img w h) as (out & E & L & V); auto.
  exists out. split; [exact E|]. exact (@flux_total psf pw ph normalize img w h out Hpw Hph Lp Li L Ht Hs V).
Qed.
Print Assumptions C16_flux.

(** C17: normalisation, when the convolver is set up: the PSF pixels afterwards sum to
    1 and keep their ratios. *)
Theorem C17_normalised psf pw ph w h :
  (1 <= pw)%nat -> (1 <= ph)%nat -> (1 <= w)%nat -> (1 <= h)%nat ->
  length psf = (pw * ph)%nat -> total psf <> 0%R ->
  exists pix pl, DoFullSetup NumR dft_r2c (Some (mkPSF psf pw ph true)) (Some (w, h)) = Ok (0%Z, pix, Some pl) /\
    length pix = length psf /\ total pix = 1%R /\
    forall i j, (nth i pix 0 * nth j psf 0 = nth j pix 0 * nth i psf 0)%R.
Proof.
  intros Hpw Hph Hw Hh Lp Ht.
  destruct (@full_convolution psf pw ph true (repeat 0%R (w * h)) w h) as (pl & out & E & _); auto.
  { apply repeat_length. }
  exists (used_psf psf true), pl. split; [exact E|]. split; [apply map_length|]. split; [now apply normalized_total|].
  exact (normalized_ratios psf).
Qed.
Print Assumptions C17_normalised.
(** C17: adding a PSF to a model: the answer is -1 and nothing is stored exactly when
    normalisation is requested and the sum is not positive; otherwise the copy kept
    is the normalised PSF (or the PSF itself). The second -1, for a PSF added after
    the image was set up, does not stop the PSF from being stored. *)
Theorem C17_add pix cols rows normalize done :
  (1 <= cols)%nat -> (1 <= rows)%nat -> length pix = (cols * rows)%nat ->
  ((normalize = true /\ total pix <= 0)%R ->
     AddPSFVector NumR (length pix) cols rows pix normalize done = Ok ((-1)%Z, None, None)) /\
  (~ (normalize = true /\ total pix <= 0)%R ->
     AddPSFVector NumR (length pix) cols rows pix normalize done =
     Ok (if done then (-1)%Z else 0%Z, Some (used_psf pix normalize), Some (mkPSF pix cols rows normalize))).
Proof.
  intros Hc Hr Hl. rewrite AddPSFVector_exact by auto.
  destruct normalize; cbn [andb].
  - destruct (Rleb (total pix) 0) eqn:E.
    + apply Rleb_true in E. split; [reflexivity|]. intros H. exfalso. apply H. auto.
    + apply Rleb_false in E. split; [intros [_ H]; exfalso; lra|reflexivity].
  - split; [intros [H _]; discriminate|reflexivity].
Qed.
Print Assumptions C17_add.
(** C17, for binary64: a PSF with a pixel that is not finite is always refused. *)
Theorem C17_nonfinite libm n cols rows pix normalize done k x :
  (1 <= n)%nat -> (1 <= cols)%nat -> (1 <= rows)%nat -> (n <= length pix)%nat -> (k < n)%nat ->
  nth_error pix k = Some x -> nfin (NumF libm) x = false ->
  AddPSFVector (NumF libm) n cols rows pix normalize done = Ok ((-1)%Z, None, None).
Proof. exact (@AddPSFVector_nonfinite _ (NumF libm) n cols rows pix normalize done k x). Qed.
Print Assumptions C17_nonfinite.

Example C16_delta_case : forall k l, (k < 1)%nat -> (l < 3)%nat ->
  nth (k * 3 + l) [0; 1; 0]%R 0%R = if ((k =? 1 / 2)%nat && (l =? 3 / 2)%nat)%bool then 1%R else 0%R.
Proof. intros k l Hk Hl. assert (k = 0)%nat by lia. subst k. destruct l as [|[|[|l]]]; try reflexivity. lia. Qed.
Example C16_flux_case : total [1; 2; 1]%R <> 0%R /\
  forall c r, (c < 3)%nat -> (r < 1)%nat -> nth (r * 3 + c) [0; 7; 0]%R 0%R <> 0%R ->
     (3 / 2 <= c /\ c + 3 <= 3 + 3 / 2 /\ 1 / 2 <= r /\ r + 1 <= 1 + 1 / 2)%nat.
Proof.
  split; [unfold total; cbn [length rsum nth]; lra|].
  intros c r Hc Hr. assert (r = 0)%nat by lia. subst r. destruct c as [|[|[|c]]]; cbn; intros H; try lia; exfalso; apply H; reflexivity.
Qed.
Example C17_case : (total [1; 2; 1] = 4 /\ total [1; -1] <= 0)%R.
Proof. unfold total. cbn [length rsum nth]. lra. Qed.
