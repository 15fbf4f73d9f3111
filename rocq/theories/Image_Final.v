(** From the set-up calls to the images (exact arithmetic). *)
From Coq Require Import Reals Lra List Arith ZArith Lia Bool.
From Verif Require Import Base Num Sums Params_Model Params_Spec Params_Proof Conv_Model Conv_Spec Conv_Proof
  Downsample_Model Downsample_Spec Downsample_Proof Image_Model Image_Spec Image_Proof Image_History Image_Region.
Import ListNotations.
Set Implicit Arguments.
Unset Strict Implicit.
Local Open Scope nat_scope.

Lemma collect {A} (d : A) (P : nat -> A -> Prop) n : (forall i, i < n -> exists x, P i x) ->
  exists l, length l = n /\ forall i, i < n -> P i (nth i l d).
Proof.
  induction n as [|n IH]; intros H; [exists []; split; auto; lia|].
  destruct IH as (l & L & Hl); [intros i Hi; apply H; lia|]. destruct (H n) as (x & Hx); [lia|].
  exists (l ++ [x]). split; [rewrite app_length; cbn; lia|]. intros i Hi. destruct (Nat.eq_dec i n) as [->|Hn].
  - rewrite app_nth2 by lia. rewrite L, Nat.sub_diag. exact Hx.
  - rewrite app_nth1 by lia. apply Hl. lia.
Qed.

Lemma model_set_up fs flags psf interp w h : 1 <= w -> 1 <= h -> valid_psf psf ->
  exists mp, let m := mkModel fs flags w h mp interp [] in
    SetupModelImage NumR dft_r2c fs flags psf interp w h = Ok (0%Z, Some m) /\ psf_ok m (psf_spec psf).
Proof.
  intros Hw Hh V. destruct psf as [[pix pw ph nrm]|]; cbn [valid_psf psf_spec option_map ps_cols ps_rows ps_pixels ps_normalize] in *.
  - destruct V as (Hpw & Hph & Lp & _).
    destruct (@setup_model_ok fs flags pix pw ph nrm interp w h Hpw Hph Hw Hh Lp) as (pl & E & PO).
    exists (Some (pw, ph, pl)). split; [exact E|]. cbn [psf_ok mo_psf]. split; [reflexivity|]. split; [reflexivity|]. split; [exact Hpw|]. split; [exact Hph|exact PO].
  - exists None. split; [|exact I]. unfold SetupModelImage. apply Nat.leb_le in Hw, Hh. rewrite Hw, Hh. reflexivity.
Qed.

Section Final.
  Variables (fs : list (func R)) (bs : list (blk R)) (flags : list bool) (psf : option (psf_info R)) (interp : R -> R -> R) (w h : nat).
  Hypothesis Hb : blocks_ok bs.
  Hypothesis Hf : map fn_nParams fs = sizes bs.
  Hypothesis Hfl : DefineFunctionSets (length fs) (starts 0 bs) = Ok flags.
  Hypothesis Hpsf : valid_psf psf.
  Hypothesis Hw : 1 <= w.
  Hypothesis Hh : 1 <= h.

  Lemma flags_are : flags = flag_list bs.
  Proof.
    pose proof (defsets_ok Hb) as E. assert (L : length fs = length (sizes bs)) by (rewrite <- Hf, map_length; reflexivity).
    rewrite L in Hfl. rewrite E in Hfl. apply Ok_inj in Hfl. auto.
  Qed.

  Lemma image_final : exists m, SetupModelImage NumR dft_r2c fs flags psf interp w h = Ok (0%Z, Some m) /\
    forall garbage, length garbage = length fs ->
    exists out, image_for NumR dft_r2c dft_c2r m (initial NumR m garbage) (flat bs) = Ok out /\ length out = w * h /\
      forall c r, c < w -> r < h -> nth (r * w + c) out 0%R = image_pixel (psf_spec psf) interp fs (seen bs) c r.
  Proof.
    destruct (@model_set_up fs flags psf interp w h Hw Hh Hpsf) as (mp & E & PO). cbv zeta in E, PO.
    eexists. split; [exact E|]. intros garbage Lg. set (m := mkModel fs flags w h mp interp []) in *.
    destruct (@create_ok m bs (psf_spec psf) Hb Hf flags_are PO Hw eq_refl (initial NumR m garbage)) as (st & out & E1 & _ & E2 & Lo & V).
    - now apply initial_good.
    - exists out. unfold image_for. rewrite E1. cbn [bind]. split; [exact E2|]. split; [exact Lo|exact V].
  Qed.

  Lemma singles_final : exists m, SetupModelImage NumR dft_r2c fs flags psf interp w h = Ok (0%Z, Some m) /\
    forall garbage, length garbage = length fs ->
    exists img outs, image_for NumR dft_r2c dft_c2r m (initial NumR m garbage) (flat bs) = Ok img /\ length outs = length fs /\
      (forall i, i < length fs -> single_for NumR dft_r2c dft_c2r m (initial NumR m garbage) (flat bs) i = Ok (nth i outs [])) /\
      forall c r, c < w -> r < h -> nth (r * w + c) img 0%R = rsum (length fs) (fun i => nth (r * w + c) (nth i outs []) 0%R).
  Proof.
    destruct (@model_set_up fs flags psf interp w h Hw Hh Hpsf) as (mp & E & PO). cbv zeta in E, PO.
    eexists. split; [exact E|]. intros garbage Lg. set (m := mkModel fs flags w h mp interp []) in *.
    assert (G := @initial_good R NumR m garbage Lg).
    destruct (@create_ok m bs (psf_spec psf) Hb Hf flags_are PO Hw eq_refl (initial NumR m garbage) G) as (st & img & E1 & _ & E2 & Lo & V).
    assert (Ls : length (seen bs) = length fs) by (exact (@funcs_length m bs Hf)).
    set (d := mkFunc 0 (Plain (fun _ _ _ _ _ => 0%R)) : func R). set (e0 := (0%R, 0%R, []) : R * R * list R).
    destruct (@collect (list R) [] (fun i out => single_for NumR dft_r2c dft_c2r m (initial NumR m garbage) (flat bs) i = Ok out /\
        forall c r, c < w -> r < h -> nth (r * w + c) out 0%R = image_pixel (psf_spec psf) interp [nth i fs d] [nth i (seen bs) e0] c r) (length fs)) as (outs & Lo' & Ho).
    - intros i Hi. 
      destruct (nth_error fs i) as [f|] eqn:Ef; [|apply nth_error_None in Ef; lia].
      destruct (nth_error (seen bs) i) as [e|] eqn:Ee; [|apply nth_error_None in Ee; lia].
      destruct (@single_ok m bs (psf_spec psf) Hb Hf flags_are PO Hw eq_refl (initial NumR m garbage) i f e G Ef Ee) as (st' & out & Es & _ & _ & Vs).
      exists out. split; [unfold single_for; rewrite Es; reflexivity|].
      intros c r Hc Hr. rewrite Vs by auto. rewrite (nth_error_nth fs i d Ef), (nth_error_nth _ i e0 Ee). reflexivity.
    - exists img, outs. split; [unfold image_for; rewrite E1; exact E2|]. split; [exact Lo'|]. split; [intros i Hi; exact (proj1 (Ho i Hi))|].
      intros c r Hc Hr. rewrite V by auto. rewrite (@image_pixel_sum (psf_spec psf) _ d e0 c r fs (seen bs) Ls).
      apply rsum_ext. intros i Hi. symmetry. exact (proj2 (Ho i Hi) c r Hc Hr).
  Qed.

  (** with regions: the image from a state whose point sources have scale [z] *)
  Lemma regions_final bicubic qs : Forall (valid_request w h) qs ->
    exists m0 m, SetupModelImage NumR dft_r2c fs flags psf interp w h = Ok (0%Z, Some m0) /\ add_regions dft_r2c dft_c2r bicubic m0 qs = Ok m /\
    mo_funcs m = fs /\
    let regs := map (requested bicubic w h) qs in
    forall st z, good_z m z st ->
    exists st' out, CreateModelImage NumR dft_r2c dft_c2r m st (flat bs) = Ok st' /\ good_z m (last_scale z regs) st' /\
      GetModelImageVector m st' = Ok out /\ length out = w * h /\
      forall c r, c < w -> r < h -> nth (r * w + c) out 0%R =
        with_regions regs (image_pixel (psf_spec psf) (rescaled z interp) fs (seen bs) c r) fs (seen bs) c r.
  Proof.
    intros Vq. destruct (@model_set_up fs flags psf interp w h Hw Hh Hpsf) as (mp & E & PO). cbv zeta in E, PO.
    set (m0 := mkModel fs flags w h mp interp []) in *.
    destruct (@add_regions_ok bicubic qs m0 [] Hw Hh Vq (Forall2_nil _)) as (ris & Er & F).
    do 2 eexists. split; [exact E|]. split; [exact Er|]. split; [reflexivity|]. cbv zeta. intros st z G.
    set (m := mkModel (mo_funcs m0) (mo_flags m0) (mo_dataCols m0) (mo_dataRows m0) (mo_psf m0) (mo_interp m0) ris) in *.
    exact (@create_regions_ok m bs (psf_spec psf) (map (requested bicubic w h) qs) Hb Hf flags_are PO Hw F st z G).
  Qed.
End Final.

Lemma rescaled_1 i : rescaled 1 i = fun u v => i (1 * u)%R (1 * v)%R.
Proof. reflexivity. Qed.
Lemma sum_over_interp keep i j fs es x y : (forall u v, i u v = j u v) -> sum_over keep i fs es x y = sum_over keep j fs es x y.
Proof.
  intros H. unfold sum_over. f_equal. apply map_ext. intros [f [[x0 y0] p]]. destruct (keep f); auto.
  unfold func_value. destruct (fn_kind f); auto. now rewrite H.
Qed.
Lemma image_pixel_interp psf i j fs es c r : (forall u v, i u v = j u v) -> image_pixel psf i fs es c r = image_pixel psf j fs es c r.
Proof.
  intros H. unfold image_pixel. destruct psf as [[[p pw] ph]|]; [|now apply sum_over_interp].
  f_equal; [|now apply sum_over_interp]. apply rsum_ext. intros k _. apply rsum_ext. intros l _. f_equal. now apply sum_over_interp.
Qed.

(** a PSF that is 1 at its centre changes nothing *)
Lemma image_pixel_delta p pw ph i fs es c r : 1 <= pw -> 1 <= ph -> length es = length fs ->
  (forall k l, k < ph -> l < pw -> nth (k * pw + l) p 0%R = if ((k =? ph / 2) && (l =? pw / 2))%bool then 1%R else 0%R) ->
  image_pixel (Some (p, pw, ph)) i fs es c r = image_pixel None i fs es c r.
Proof.
  intros Hpw Hph Ls Hd. unfold image_pixel. rewrite (sum_split i _ _ Ls). f_equal.
  pose proof (half_le Hpw). pose proof (half_le Hph).
  rewrite (@rsum_single ph (ph / 2)); [|lia|].
  - rewrite (@rsum_single pw (pw / 2)); [|lia|].
    + rewrite Hd by lia. rewrite !Nat.eqb_refl. cbn [andb]. rewrite (Rminus_diag_eq (INR (pw / 2))), (Rminus_diag_eq (INR (ph / 2))) by reflexivity. rewrite !Rminus_0_r, Rmult_1_l. reflexivity.
    + intros l Hl Hne. rewrite Hd by lia. apply Nat.eqb_neq in Hne. rewrite Hne, andb_false_r. ring.
  - intros k Hk Hne. apply rsum_zero. intros l Hl. rewrite Hd by auto. apply Nat.eqb_neq in Hne. rewrite Hne. cbn [andb]. ring.
Qed.
