(** C11, C26-C31, C36: masks, weights, fit statistics, deviates, resampling. *)
From Coq Require Import Reals ZArith List Bool Lia Lra.
From Flocq Require Import Core.Core IEEE754.BinarySingleNaN.
From Verif Require Import Base Num FloatFacts Sums Stats_Model Stats_Spec Stats_Proof MT_Model MT_Spec MT_FloatProof
  Fit_Model Fit_Spec Fit_Proof Fit_FloatProof Fit_RealProof Fit_Multi.
Import ListNotations.
Local Open Scope nat_scope.

(** ---- C26 ---- *)
(** Both conventions (10: zero is good, 20: zero is bad): the internal mask is
    1 exactly at the good pixels and 0 elsewhere, and the number of valid
    pixels is the number of good ones. *)
Theorem C26_masks : forall m (o : mobj F64) cols rows pix ty,
  cols = nDataColumns o -> rows = nDataRows o -> cols * rows = nDataVals o -> length pix = nDataVals o ->
  (ty = 10 \/ ty = 20)%Z ->
  exists mask, AddMaskVector (NumF m) o cols rows pix ty
      = Ok (0%Z, with_mask o true mask (Z.of_nat (length (filter (mask_good (NumF m) ty) pix)))) /\
    mask = map (fun x => if mask_good (NumF m) ty x then f_ofZ 1 else f_ofZ 0) pix.
Proof. intros m. exact (@mask_types F64 (NumF m)). Qed.
Print Assumptions C26_masks.

(** every other type is rejected *)
Theorem C26_other_types : forall m (o : mobj F64) cols rows pix ty,
  ty <> 10%Z -> ty <> 20%Z ->
  AddMaskVector (NumF m) o cols rows pix ty = Abort \/
  AddMaskVector (NumF m) o cols rows pix ty = Ok ((-1)%Z, with_mask o false pix 0).
Proof. intros m. exact (@mask_other F64 (NumF m)). Qed.
Print Assumptions C26_other_types.

(** after setup the weight of a pixel is its weight by the error model times
    the mask factor: 1 for usable pixels, 0 for all others *)
Theorem C26_weights : forall m s o, well_formed (NumF m) s -> prepare (NumF m) s = Ok (0%Z, o) ->
  nValid o = n_usable (NumF m) s /\
  (forall z, z < npix s -> usable (NumF m) s z = true -> at_ (NumF m) (weightVector o) z = given_weight (NumF m) s z) /\
  (forall z, z < npix s -> user_good (NumF m) s z = false -> is_zero (at_ (NumF m) (weightVector o) z) = true).
Proof.
  intros m s o W E. destruct (usable_weights W E) as (_ & A & _ & _ & _ & B & C). split; [exact A|]. split.
  - intros z Hz U. now apply B.
  - intros z Hz U. apply C; [exact Hz|]. unfold usable. now rewrite U.
Qed.
Print Assumptions C26_weights.

Definition fz := f_ofZ.
Ltac wf := unfold well_formed; repeat (split; [first [vm_compute; reflexivity | cbn; lia | cbn; split; [vm_compute; reflexivity|tauto] | exact I]|]); first [vm_compute; reflexivity | cbn; lia | exact I].
(** a 2x2 image with one masked pixel, one NaN mask value, sigma-image errors *)
Definition ex_setup : setup F64 :=
  mkSetup 2 2 [fz 10; fz 20; fz 30; fz 40] None (fz 2) (fz 3) (fz 1) 1 (fz 5)
    (Some ([fz 0; fz 1; f_nan; fz 0], 10%Z)) (ChiUserErrors [fz 1; fz 2; fz 4; fz 8] 100).
Example C26_case : forall m, well_formed (NumF m) ex_setup /\ exists o, prepare (NumF m) ex_setup = Ok (0%Z, o) /\ nValid o = 2%Z.
Proof.
  intros m. split.
  - wf.
  - assert (H : match prepare (NumF m) ex_setup with Ok (st, o) => ((st =? 0) && (nValid o =? 2))%Z | _ => false end = true) by (vm_compute; reflexivity).
    destruct (prepare (NumF m) ex_setup) as [(st, o)| | |]; [|discriminate|discriminate|discriminate]. apply andb_prop in H. destruct H as (A & B).
    apply Z.eqb_eq in A, B. subst st. exists o. split; [reflexivity|exact B].
Qed.

(** ---- C27 ---- *)
(** Two sets of inputs that differ only in the data and error values of pixels
    the mask excludes: same setup status, same statistic, same deviates (as
    binary64 values, up to the sign of zero), NaN and infinite values included.
    Needed: the term of every excluded pixel is finite before it is multiplied
    by its zero weight (see the two refutations below). *)
Theorem C27_masked_pixels_partial : forall m s1 s2 st1 st2 o1 o2 mv ob y,
  well_formed (NumF m) s1 -> well_formed (NumF m) s2 -> differ_only_where_masked (NumF m) s1 s2 ->
  prepare (NumF m) s1 = Ok (st1, o1) -> prepare (NumF m) s2 = Ok (st2, o2) ->
  (forall z, z < npix s1 -> user_good (NumF m) s1 z = false ->
     is_finite (pixel_term (NumF m) s1 mv z) = true /\ is_finite (pixel_term (NumF m) s2 mv z) = true) ->
  length mv = model_size s1 -> resample_ok (NumF m) s1 ob -> length y = length (pixels s1 ob) ->
  st1 = st2 /\
  (exists o1' o2' f1 f2, GetFitStatistic (NumF m) (resampled o1 ob) mv = Ok (o1', f1) /\
     GetFitStatistic (NumF m) (resampled o2 ob) mv = Ok (o2', f2) /\ same_value f1 f2) /\
  (s_stat s1 <> Cash ->
   exists o1' o2' y1 y2, ComputeDeviates (NumF m) (resampled o1 ob) mv y 0 = Ok (o1', y1) /\
     ComputeDeviates (NumF m) (resampled o2 ob) mv y 0 = Ok (o2', y2) /\ Forall2 same_value y1 y2).
Proof.
  intros m s1 s2 st1 st2 o1 o2 mv ob y W1 W2 D E1 E2 TM L R Ly.
  pose proof (fprepared W1 E1) as P1. pose proof (fprepared W2 E2) as P2.
  split; [exact (pair_status P1 P2 D)|]. split; [exact (pair_stat P1 P2 D TM L R)|].
  intros NC. exact (pair_deviates P1 P2 D TM L R NC Ly).
Qed.
Print Assumptions C27_masked_pixels_partial.

Definition ex_setup' : setup F64 :=
  mkSetup 2 2 [fz 10; f_nan; f_inf; fz 40] None (fz 2) (fz 3) (fz 1) 1 (fz 5)
    (Some ([fz 0; fz 1; f_nan; fz 0], 10%Z)) (ChiUserErrors [fz 1; f_inf; fz (-4); fz 8] 100).
Definition ex_model := [fz 11; fz 12; fz 13; fz 14].
Example C27_case : forall m, differ_only_where_masked (NumF m) ex_setup ex_setup' /\ well_formed (NumF m) ex_setup' /\
  (forall z, z < npix ex_setup -> user_good (NumF m) ex_setup z = false ->
     is_finite (pixel_term (NumF m) ex_setup ex_model z) = true /\ is_finite (pixel_term (NumF m) ex_setup' ex_model z) = true).
Proof.
  intros m. split; [|split].
  - repeat split; try reflexivity.
    + intros [|[|[|[|z]]]] H U; try reflexivity; try (vm_compute in U; discriminate); exfalso; unfold npix in H; cbn in H; lia.
    + intros [|[|[|[|z]]]] H U; try reflexivity; try (vm_compute in U; discriminate); exfalso; unfold npix in H; cbn in H; lia.
  - wf.
  - intros z H U. change (npix ex_setup) with 4 in H.
    destruct z as [|[|[|[|z]]]]; [| | | |lia]; try (split; vm_compute; reflexivity).
Qed.

(** Poisson-MLR: a NaN in the data of a pixel makes the statistic NaN for every
    model image, even when that pixel is masked: the data-only terms are
    computed before non-finite data are removed. *)
Theorem C27_pmlr_nan : forall m s st o mv z, well_formed (NumF m) s -> prepare (NumF m) s = Ok (st, o) ->
  s_stat s = PMLR -> length mv = model_size s -> z < npix s -> at_ (NumF m) (s_data s) z = f_nan ->
  exists o', GetFitStatistic (NumF m) o mv = Ok (o', f_nan).
Proof. intros m s st o mv z W E. exact (pmlr_nan (fprepared W E)). Qed.
Print Assumptions C27_pmlr_nan.

Definition pm_setup (masked : F64) : setup F64 :=
  mkSetup 2 1 [fz 1; masked] None (fz 1) (fz 0) (fz 1) 1 (fz 0) (Some ([fz 0; fz 1], 10%Z)) PMLR.
(** so the unrestricted claim is false: changing a masked pixel from 1 to NaN
    changes the statistic from 0 to NaN (any libm with log 1 = 0) *)
Theorem C27_pmlr_nan_refuted : forall m, m_log m (f_ofZ 1) = f_ofZ 0 ->
  differ_only_where_masked (NumF m) (pm_setup (fz 1)) (pm_setup f_nan) /\
  exists o1 o2 o1' o2' f1, prepare (NumF m) (pm_setup (fz 1)) = Ok (0%Z, o1) /\ prepare (NumF m) (pm_setup f_nan) = Ok (0%Z, o2) /\
    GetFitStatistic (NumF m) o1 [fz 1; fz 1] = Ok (o1', f1) /\ is_zero f1 = true /\
    GetFitStatistic (NumF m) o2 [fz 1; fz 1] = Ok (o2', f_nan).
Proof.
  intros m Hl. split.
  - repeat split; try reflexivity. intros [|[|z]] H U; try reflexivity; try (vm_compute in U; discriminate); exfalso; unfold npix in H; cbn in H; lia.
  - assert (W1 : well_formed (NumF m) (pm_setup (fz 1))) by wf.
    assert (W2 : well_formed (NumF m) (pm_setup f_nan)) by wf.
    destruct (fprepare_ok W1) as (st1 & o1 & E1 & P1). destruct (fprepare_ok W2) as (st2 & o2 & E2 & P2).
    assert (S1 : st1 = 0%Z).
    { rewrite (p_st P1). replace (n_usable (NumF m) (pm_setup (fz 1))) with 1%Z by (vm_compute; reflexivity).
      replace (weight_ok (NumF m) (pm_setup (fz 1)) o1) with true; [reflexivity|]. symmetry. unfold weight_ok. apply forallb_forall.
      intros z Iz. apply in_seq in Iz. destruct (usable (NumF m) (pm_setup (fz 1)) z) eqn:U; [|reflexivity].
      rewrite (w_good P1) by (auto; lia). vm_compute. reflexivity. }
    assert (S2 : st2 = 0%Z).
    { rewrite (p_st P2). replace (n_usable (NumF m) (pm_setup f_nan)) with 1%Z by (vm_compute; reflexivity).
      replace (weight_ok (NumF m) (pm_setup f_nan) o2) with true; [reflexivity|]. symmetry. unfold weight_ok. apply forallb_forall.
      intros z Iz. apply in_seq in Iz. destruct (usable (NumF m) (pm_setup f_nan) z) eqn:U; [|reflexivity].
      rewrite (w_good P2) by (auto; lia). vm_compute. reflexivity. }
    subst st1 st2.
    destruct (@pmlr_nan m (pm_setup f_nan) 0%Z o2 [fz 1; fz 1] 1 P2) as (o2' & G2); try reflexivity; [unfold npix; cbn; lia|].
    eexists o1, o2, _, o2', _. split; [exact E1|]. split; [exact E2|]. split; [|split; [|exact G2]].
    + unfold GetFitStatistic. rewrite (p_uc P1). cbn [s_stat pm_setup].
      change o1 with (resampled o1 None) at 1. rewrite (@cash_ok _ (NumF m) (pm_setup (fz 1)) 0%Z o1 [fz 1; fz 1] None P1 eq_refl I) by (exact (fun x => x)).
      cbn [bind]. reflexivity.
    + cbn [pixels]. replace (npix (pm_setup (fz 1))) with 2 by reflexivity. cbn [seq map fold_left].
      assert (PT : forall z, z < 2 -> is_zero (pixel_term (NumF m) (pm_setup (fz 1)) [fz 1; fz 1] z) = true).
      { intros z Hz.
        replace (pixel_term (NumF m) (pm_setup (fz 1)) [fz 1; fz 1] z) with
          (f_add (f_sub (fz 1) (f_mul (fz 1) (m_log m (f_ofZ 1)))) (f_sub (f_mul (fz 1) (m_log m (f_ofZ 1))) (fz 1))).
        - rewrite Hl. vm_compute. reflexivity.
        - assert (C1 : counts (NumF m) (pm_setup (fz 1)) (fz 1) = fz 1) by (apply B2SF_inj; vm_compute; reflexivity).
          assert (L1 : f_leb (fz 1) (f_ofZ 0) = false) by (vm_compute; reflexivity).
          assert (Q : model_at (NumF m) (pm_setup (fz 1)) [fz 1; fz 1] z = fz 1 /\ clean_data (NumF m) (pm_setup (fz 1)) z = fz 1 /\
                      at_ (NumF m) (s_data (pm_setup (fz 1))) z = fz 1).
          { destruct z as [|[|z]]; [| |lia]; repeat split; reflexivity. }
          destruct Q as (Q1 & Q2 & Q3). unfold pixel_term, data_term, log_counts. cbn [s_stat pm_setup].
          rewrite Q1, Q2. change (at_ (NumF m) [fz 1; fz 1] z) with (at_ (NumF m) (s_data (pm_setup (fz 1))) z). rewrite Q3.
          rewrite C1. cbn [nleb nofZ NumF nlog nadd nsub nmul]. rewrite L1. reflexivity. }
      assert (UW : forall z, z < 2 -> is_finite (used_weight (NumF m) (pm_setup (fz 1)) o1 [fz 1; fz 1] z) = true).
      { intros z Hz. unfold used_weight. cbn [s_stat pm_setup].
        destruct (usable (NumF m) (pm_setup (fz 1)) z) eqn:U.
        - rewrite (w_good P1) by auto. vm_compute. reflexivity.
        - pose proof (w_bad P1 Hz U) as Q. destruct (at_ (NumF m) (weightVector o1) z); try discriminate; reflexivity. }
      assert (ZM : forall a b : F64, is_finite a = true -> is_zero b = true -> is_zero (f_mul a b) = true).
      { intros a [] A B; try discriminate B. destruct a; try discriminate A; reflexivity. }
      assert (ZA : forall a b : F64, is_zero a = true -> is_zero b = true -> is_zero (f_add a b) = true).
      { intros [x|?| |? ? ? ?] b A B; try discriminate A. destruct b as [y|?| |? ? ? ?]; try discriminate B. destruct x, y; reflexivity. }
      cbn [nmul nadd NumF nofZ]. apply ZM; [reflexivity|].
      apply ZA; [apply ZA; [reflexivity|]|]; apply ZM; auto.
Qed.
Print Assumptions C27_pmlr_nan_refuted.

(** chi-squared: a masked pixel whose residual overflows turns the statistic
    into NaN (0 * infinity) *)
Definition huge : F64 := f_mul (fz (2 ^ 1000)) (fz (2 ^ 23)).
Definition ov_setup (masked : F64) : setup F64 :=
  mkSetup 2 1 [fz 1; masked] None (fz 1) (fz 0) (fz 1) 1 (fz 0) (Some ([fz 0; fz 1], 10%Z)) ChiModelErrors.
Theorem C27_overflow_refuted : forall m,
  differ_only_where_masked (NumF m) (ov_setup (fz 1)) (ov_setup huge) /\
  exists o1 o2 o1' o2' f1, prepare (NumF m) (ov_setup (fz 1)) = Ok (0%Z, o1) /\ prepare (NumF m) (ov_setup huge) = Ok (0%Z, o2) /\
    GetFitStatistic (NumF m) o1 [fz 1; f_neg huge] = Ok (o1', f1) /\ is_finite f1 = true /\
    GetFitStatistic (NumF m) o2 [fz 1; f_neg huge] = Ok (o2', f_nan).
Proof.
  intros m. split.
  - repeat split; try reflexivity. intros [|[|z]] H U; try reflexivity; try (vm_compute in U; discriminate); exfalso; unfold npix in H; cbn in H; lia.
  - assert (H : match prepare (NumF m) (ov_setup (fz 1)), prepare (NumF m) (ov_setup huge) with
                | Ok (st1, o1), Ok (st2, o2) => ((st1 =? 0) && (st2 =? 0))%Z &&
                    match GetFitStatistic (NumF m) o1 [fz 1; f_neg huge], GetFitStatistic (NumF m) o2 [fz 1; f_neg huge] with
                    | Ok (_, f1), Ok (_, f2) => is_finite f1 && is_nan f2
                    | _, _ => false
                    end
                | _, _ => false end = true) by (vm_compute; reflexivity).
    destruct (prepare (NumF m) (ov_setup (fz 1))) as [(st1, o1)| | |]; [|discriminate|discriminate|discriminate].
    destruct (prepare (NumF m) (ov_setup huge)) as [(st2, o2)| | |]; [|discriminate|discriminate|discriminate].
    destruct (GetFitStatistic (NumF m) o1 [fz 1; f_neg huge]) as [(o1', f1)| | |] eqn:G1; try (rewrite andb_false_r in H; discriminate).
    destruct (GetFitStatistic (NumF m) o2 [fz 1; f_neg huge]) as [(o2', f2)| | |] eqn:G2; try (rewrite andb_false_r in H; discriminate).
    apply andb_prop in H. destruct H as (A & B). apply andb_prop in A, B. destruct A as (A1 & A2), B as (B1 & B2).
    apply Z.eqb_eq in A1, A2. subst. destruct f2; try discriminate.
    exists o1, o2, o1', o2', f1. auto 6.
Qed.
Print Assumptions C27_overflow_refuted.

Local Open Scope R_scope.
(** ---- C28 ---- *)
(** Chi-squared (any error model): the sum of squared deviates is the reported
    statistic, exactly whenever the norm is exact (C34), and up to
    n * (3.834e-20)^2 in any case. *)
Theorem C28_chi_squared : forall s st o mv ob y, well_formed NumR s -> chi_statistic s -> prepare NumR s = Ok (st, o) ->
  length mv = model_size s -> resample_ok NumR s ob -> length y = length (pixels s ob) ->
  exists o1 o2 dev f,
    ComputeDeviates NumR (resampled o ob) mv y 0 = Ok (o1, dev) /\
    GetFitStatistic NumR (resampled o ob) mv = Ok (o2, f) /\
    dev = map (fun z => final_weight s mv z * (at_ NumR (s_data s) z - model_at NumR s mv z)) (pixels s ob) /\
    sum_of_squares dev - INR (length dev) * (3834 / IZR (10 ^ 23) * (3834 / IZR (10 ^ 23))) <= f <= sum_of_squares dev /\
    ((Forall (fun a => Rabs a < 13040000000000000000 / INR (length dev)) dev \/
      Forall (fun a => a = 0 \/ 3834 / IZR (10 ^ 23) < Rabs a) dev) -> f = sum_of_squares dev).
Proof. exact lm_chi. Qed.
Print Assumptions C28_chi_squared.

(** Poisson-MLR, positive model counts and non-negative data counts *)
Theorem C28_poisson_partial : forall s st o mv ob y, well_formed NumR s -> s_stat s = PMLR -> prepare NumR s = Ok (st, o) ->
  length mv = model_size s -> resample_ok NumR s ob -> length y = length (pixels s ob) -> positive_counts s mv ob ->
  exists o1 o2 dev f,
    ComputeDeviates NumR (resampled o ob) mv y 0 = Ok (o1, dev) /\
    GetFitStatistic NumR (resampled o ob) mv = Ok (o2, f) /\
    f = sum_of_squares dev.
Proof.
  intros s st o mv ob y W S E L R Ly PC. destruct (pmlr_stat W S E L R Ly PC) as (o1 & o2 & d & f & A & B & C & _). eauto 8.
Qed.
Print Assumptions C28_poisson_partial.

(** a one-pixel image: datum d, model value v *)
Definition one_pixel (d : R) (k : statistic R) : setup R := mkSetup 1 1 [d] None 1 0 1 1 0 None k.
Lemma one_wf d k : (match k with ChiUserErrors _ _ => False | _ => True end) -> well_formed NumR (one_pixel d k).
Proof.
  intros K. repeat split; try (simpl; apply Rltb_true; lra); try (simpl; apply Rleb_true; lra); try (simpl; lia).
  destruct k; simpl; auto; contradiction.
Qed.
Lemma one_counts d k v : counts NumR (one_pixel d k) v = v.
Proof. unfold counts, total_gain, one_pixel. cbn [s_gain s_expTime s_nCombined s_sky nmul nadd nofZ NumR]. ring. Qed.

(** Without that condition the two objectives differ: with a negative datum
    (-1) and model value 1/2 the reported statistic is negative. *)
Theorem C28_negative_data_refuted : exists s o mv o1 o2 dev f,
  well_formed NumR s /\ s_stat s = PMLR /\ prepare NumR s = Ok (0%Z, o) /\ length mv = model_size s /\
  ComputeDeviates NumR o mv [0] 0 = Ok (o1, dev) /\ GetFitStatistic NumR o mv = Ok (o2, f) /\
  f < 0 < sum_of_squares dev.
Proof.
  pose (s := one_pixel (-1) PMLR). assert (W : well_formed NumR s) by (apply one_wf; exact I).
  destruct (rprepare_ok W) as (st & o & E & P).
  assert (S0 : st = 0%Z).
  { rewrite (p_st P). replace (n_usable NumR s) with 1%Z by reflexivity.
    replace (weight_ok NumR s o) with true; [reflexivity|]. symmetry. unfold weight_ok. apply forallb_forall.
    intros z Iz. apply in_seq in Iz. rewrite (rw_good P) by (auto; lia).
    change (given_weight NumR s z) with 1. cbn [nfin NumR]. replace (nltb NumR 1 (nofZ NumR 0)) with false; [apply orb_true_r|].
    symmetry. apply Rltb_false. simpl. lra. }
  subst st. pose (mv := [1 / 2]). assert (L : length mv = model_size s) by reflexivity.
  destruct (@r_deviates s 0%Z o mv None P L I [0]) as (o1 & E1); [reflexivity|].
  assert (C : ~ chi_statistic s) by exact (fun x => x).
  pose proof (@r_stat_cash s 0%Z o mv None P L I C) as E2.
  exists s, o, mv, o1, (resampled o None). eexists _, _. split; [exact W|]. split; [reflexivity|]. split; [exact E|]. split; [exact L|].
  split; [exact E1|]. split; [exact E2|].
  change (pixels s None) with [0%nat]. cbn [map].
  assert (PT : pixel_term NumR s mv 0 = 1 / 2 + ln (1 / 2)).
  { unfold pixel_term. change (s_stat s) with (@PMLR R). cbv zeta.
    unfold s. rewrite !one_counts. unfold data_term. change (s_stat (one_pixel (-1) PMLR)) with (@PMLR R). cbv zeta. rewrite one_counts.
    change (model_at NumR (one_pixel (-1) PMLR) mv 0) with (1 / 2). change (clean_data NumR (one_pixel (-1) PMLR) 0) with (-1).
    change (at_ NumR (s_data (one_pixel (-1) PMLR)) 0) with (-1). unfold log_counts. cbn [nleb nofZ nlog nadd nsub nmul NumR].
    replace (Rleb (1 / 2) 0) with false by (symmetry; apply Rleb_false; lra).
    replace (Rleb (-1) 0) with true by (symmetry; apply Rleb_true; lra). ring. }
  assert (Neg : 1 / 2 + ln (1 / 2) < 0).
  { assert (ln (1 / 2) < - (1 / 2)); [|lra].
    rewrite <- (ln_exp (- (1 / 2))). apply ln_increasing; [lra|].
    rewrite exp_Ropp. replace (1 / 2) with (/ 2) at 1 by lra.
    apply Rinv_lt_contravar; [apply Rmult_lt_0_compat; [apply exp_pos|lra]|].
    assert (Q : exp (1 / 2) * exp (1 / 2) = exp 1) by (rewrite <- exp_plus; f_equal; lra).
    pose proof exp_le_3. pose proof (exp_pos (1 / 2)). nra. }
  assert (FW : final_weight s mv 0 = 1) by reflexivity.
  split.
  - unfold rsuml. cbn [fold_right]. rewrite FW, PT. lra.
  - unfold sum_of_squares, rsuml. cbn [map fold_right].
    rewrite (@r_dev_pmlr s 0%Z o mv None P I 0%nat) by (reflexivity || (left; reflexivity)).
    rewrite FW, PT, Rabs_left by lra. lra.
Qed.
Print Assumptions C28_negative_data_refuted.

Example C28_case : well_formed NumR (one_pixel 7 ChiDataErrors) /\ chi_statistic (one_pixel 7 ChiDataErrors) /\
  well_formed NumR (one_pixel 7 ChiModelErrors) /\ chi_statistic (one_pixel 7 ChiModelErrors).
Proof. repeat split; try apply one_wf; exact I. Qed.

(** ---- C29 ---- *)
(** An error image given as sigmas (100), variances (110) or weights (120)
    yields 1/sigma as the weight of every unmasked pixel, and the statistic is
    the squared norm of (data - model)/sigma over unmasked pixels, which does
    not depend on the encoding. *)
Theorem C29_error_images : forall s sig e ty st o mv ob, well_formed NumR s -> s_stat s = ChiUserErrors e ty -> encodings sig e ty ->
  Forall (fun x => 0 < x) sig -> prepare NumR s = Ok (st, o) -> length mv = model_size s -> resample_ok NumR s ob ->
  (forall z, (z < npix s)%nat -> at_ NumR (weightVector o) z = if user_good NumR s z then 1 / at_ NumR sig z else 0) /\
  exists o' , GetFitStatistic NumR (resampled o ob) mv
    = Ok (o', let chi := mp_enorm NumR (map (fun z => if user_good NumR s z then 1 / at_ NumR sig z * (at_ NumR (s_data s) z - model_at NumR s mv z) else 0) (pixels s ob)) in chi * chi).
Proof. exact error_images. Qed.
Print Assumptions C29_error_images.

Example C29_case : encodings [2; 3] [2 * 2; 3 * 3] 110 /\ Forall (fun x => 0 < x) [2; 3] /\
  well_formed NumR (mkSetup 2 1 [5; 6] None 1 0 1 1 0 None (ChiUserErrors [2 * 2; 3 * 3] 110)).
Proof.
  split; [right; left; split; reflexivity|]. split; [repeat constructor; lra|].
  repeat split; try (simpl; apply Rltb_true; lra); try (simpl; apply Rleb_true; lra); try (simpl; lia).
Qed.

(** ---- C30 ---- *)
(** When setup reports success every usable pixel has a finite non-negative
    weight and finite data (the data stored are finite everywhere, unusable
    pixels have weight zero), and at least one pixel is usable. The statement
    covers every statistic and error model. *)
Theorem C30_setup_success : forall m s o, well_formed (NumF m) s -> prepare (NumF m) s = Ok (0%Z, o) ->
  (1 <= n_usable (NumF m) s)%Z /\ nValid o = n_usable (NumF m) s /\
  length (weightVector o) = npix s /\ length (dataVector o) = npix s /\
  (forall z, (z < npix s)%nat -> is_finite (at_ (NumF m) (dataVector o) z) = true) /\
  (forall z, (z < npix s)%nat -> usable (NumF m) s z = true ->
     at_ (NumF m) (dataVector o) z = at_ (NumF m) (s_data s) z /\
     at_ (NumF m) (weightVector o) z = given_weight (NumF m) s z /\ is_finite (given_weight (NumF m) s z) = true /\
     f_leb (f_ofZ 0) (given_weight (NumF m) s z) = true) /\
  (forall z, (z < npix s)%nat -> usable (NumF m) s z = false -> is_zero (at_ (NumF m) (weightVector o) z) = true).
Proof. exact usable_weights. Qed.
Print Assumptions C30_setup_success.

(** ... and failure is reported only for a reason: *)
Theorem C30_setup_failure : forall m s st o, well_formed (NumF m) s -> prepare (NumF m) s = Ok (st, o) ->
  (st = (-3)%Z <-> n_usable (NumF m) s = 0%Z) /\
  (st = 0%Z \/ st = (-1)%Z \/ st = (-3)%Z) /\
  (st = (-1)%Z -> exists z, (z < npix s)%nat /\ usable (NumF m) s z = true /\
     (is_finite (given_weight (NumF m) s z) = false \/ f_ltb (given_weight (NumF m) s z) (f_ofZ 0) = true)).
Proof. exact status_values. Qed.
Print Assumptions C30_setup_failure.

(** setup always terminates with a status *)
Theorem C30_setup_total : forall m s, well_formed (NumF m) s -> exists st o, prepare (NumF m) s = Ok (st, o).
Proof. intros m s W. destruct (fprepare_ok W) as (st & o & E & _). eauto. Qed.
Print Assumptions C30_setup_total.

Example C30_failures : forall m,
  (exists o, prepare (NumF m) (mkSetup 2 1 [fz 1; f_nan] None (fz 1) (fz 0) (fz 1) 1 (fz 0) (Some ([fz 1; fz 0], 10%Z)) ChiDataErrors) = Ok ((-3)%Z, o)) /\
  (exists o, prepare (NumF m) (mkSetup 2 1 [fz 0; fz 1] None (fz 1) (fz 0) (fz 1) 1 (fz 0) None ChiDataErrors) = Ok ((-1)%Z, o)).
Proof.
  intros m. split.
  - assert (H : match prepare (NumF m) (mkSetup 2 1 [fz 1; f_nan] None (fz 1) (fz 0) (fz 1) 1 (fz 0) (Some ([fz 1; fz 0], 10%Z)) ChiDataErrors) with Ok (st, _) => (st =? -3)%Z | _ => false end = true) by (vm_compute; reflexivity).
    destruct (prepare _ _) as [(st, o)| | |]; [|discriminate|discriminate|discriminate]. apply Z.eqb_eq in H. subst. eauto.
  - assert (H : match prepare (NumF m) (mkSetup 2 1 [fz 0; fz 1] None (fz 1) (fz 0) (fz 1) 1 (fz 0) None ChiDataErrors) with Ok (st, _) => (st =? -1)%Z | _ => false end = true) by (vm_compute; reflexivity).
    destruct (prepare _ _) as [(st, o)| | |]; [|discriminate|discriminate|discriminate]. apply Z.eqb_eq in H. subst. eauto.
Qed.

(** ---- C31 ---- *)
Theorem C31_terms : forall M D, 0 < M -> 0 <= D -> 0 <= pmlr_term M D /\ (pmlr_term M D = 0 <-> M = D).
Proof. exact pmlr_nonneg. Qed.
Print Assumptions C31_terms.

(** the program's Poisson-MLR statistic is the sum of these terms over the
    unmasked pixels *)
Theorem C31_statistic : forall s st o mv ob, well_formed NumR s -> s_stat s = PMLR -> prepare NumR s = Ok (st, o) ->
  length mv = model_size s -> resample_ok NumR s ob -> positive_counts s mv ob ->
  exists o2, GetFitStatistic NumR (resampled o ob) mv = Ok (o2,
    rsuml (map (fun z => if user_good NumR s z then pmlr_term (counts NumR s (model_at NumR s mv z)) (counts NumR s (at_ NumR (s_data s) z)) else 0)
                 (pixels s ob))).
Proof.
  intros s st o mv ob W S E L R PC.
  destruct (@pmlr_stat s st o mv ob (repeat 0 (length (pixels s ob))) W S E L R (repeat_length _ _) PC) as (o1 & o2 & d & f & _ & B & _ & C).
  exists o2. now rewrite B, C.
Qed.
Print Assumptions C31_statistic.

(** it differs from the Cash statistic of the same inputs by a sum that does
    not involve the model image (any data, any model) *)
Theorem C31_cash : forall s st1 st2 o1 o2 mv ob, well_formed NumR (with_stat s PMLR) ->
  prepare NumR (with_stat s PMLR) = Ok (st1, o1) -> prepare NumR (with_stat s Cash) = Ok (st2, o2) ->
  length mv = model_size s -> resample_ok NumR (with_stat s PMLR) ob ->
  exists p c, GetFitStatistic NumR (resampled o1 ob) mv = Ok (resampled o1 ob, p) /\
    GetFitStatistic NumR (resampled o2 ob) mv = Ok (resampled o2 ob, c) /\
    p - c = rsuml (map (fun z => if user_good NumR s z then 2 * data_term NumR (with_stat s PMLR) z else 0) (pixels s ob)).
Proof. exact pmlr_vs_cash. Qed.
Print Assumptions C31_cash.

Example C31_case : well_formed NumR (one_pixel 3 PMLR) /\ positive_counts (one_pixel 3 PMLR) [5] None /\
  pmlr_term 5 3 = 2 * (2 + 3 * ln (3 / 5)).
Proof.
  split; [apply one_wf; exact I|]. split.
  - intros z [<-|[]] _. rewrite !one_counts. change (model_at NumR (one_pixel 3 PMLR) [5] 0) with 5.
    change (at_ NumR (s_data (one_pixel 3 PMLR)) 0) with 3. lra.
  - unfold pmlr_term. destruct (Req_EM_T 3 0); [lra|ring].
Qed.

Local Open Scope nat_scope.
(** ---- C36 ---- *)
(** For every stream of 32-bit words [w] from the generator: either sampling is
    still running after [fuel] rejected draws for one pixel, or it ends with
    exactly nValid indices of in-range pixels of positive weight. It never
    reads outside the weight image. *)
Theorem C36_resample : forall m (o : mobj F64) w fuel k, (forall k, 0 <= w k < 2 ^ 32)%Z ->
  (1 <= Z.of_nat (nDataVals o) < 2 ^ 31)%Z -> length (weightVector o) = nDataVals o ->
  (exists b k', MakeBootstrapSample (NumF m) fuel o (fun k => real2 (NumF m) (w k)) k = Ok (with_bootstrap o b, k') /\
     length b = Z.to_nat (nValid o) /\
     Forall (fun n => n < nDataVals o /\ f_ltb (f_ofZ 0) (at_ (NumF m) (weightVector o) n) = true) b) \/
  MakeBootstrapSample (NumF m) fuel o (fun k => real2 (NumF m) (w k)) k = Fuel.
Proof. intros m o w fuel k W Hn Hw. exact (boot_ok m W Hn Hw fuel k). Qed.
Print Assumptions C36_resample.

(** with the object that setup produced: every index is a usable pixel *)
Theorem C36_after_setup : forall m s o w fuel k b k', well_formed (NumF m) s -> prepare (NumF m) s = Ok (0%Z, o) ->
  (forall k, 0 <= w k < 2 ^ 32)%Z -> (1 <= Z.of_nat (npix s) < 2 ^ 31)%Z ->
  MakeBootstrapSample (NumF m) fuel o (fun k => real2 (NumF m) (w k)) k = Ok (with_bootstrap o b, k') ->
  Z.of_nat (length b) = n_usable (NumF m) s /\ Forall (fun n => n < npix s /\ usable (NumF m) s n = true) b.
Proof.
  intros m s o w fuel k b k' W E Ww Hn H. pose proof (fprepared W E) as P.
  destruct (usable_weights W E) as (N1 & Nv & Lw & _ & _ & _ & Z0).
  assert (Nd : nDataVals o = npix s) by exact (p_n P).
  destruct (boot_ok m (o := o) Ww) with (fuel := fuel) (k := k) as [(b' & k'' & B1 & B2 & B3)|B]; try (rewrite Nd; auto; fail).
  - rewrite H in B1. assert (bootstrapIndices (with_bootstrap o b) = bootstrapIndices (with_bootstrap o b')) as EB by congruence.
    cbn [bootstrapIndices with_bootstrap] in EB. subst b'. split; [lia|].
    rewrite Forall_forall in *. intros n In_. destruct (B3 n In_) as (A & Q). rewrite Nd in A. split; [exact A|].
    destruct (usable (NumF m) s n) eqn:U; [reflexivity|]. specialize (Z0 n A U). exfalso.
    destruct (at_ (NumF m) (weightVector o) n) as [[]| | |]; try discriminate.
  - rewrite H in B. discriminate.
Qed.
Print Assumptions C36_after_setup.

(** the loop never ends when no pixel has positive weight *)
Theorem C36_no_valid_pixel : forall m (o : mobj F64) w, (forall k, 0 <= w k < 2 ^ 32)%Z ->
  (1 <= Z.of_nat (nDataVals o) < 2 ^ 31)%Z -> length (weightVector o) = nDataVals o -> (1 <= nValid o)%Z ->
  (forall n, n < nDataVals o -> f_ltb (f_ofZ 0) (at_ (NumF m) (weightVector o) n) = false) ->
  forall fuel k, MakeBootstrapSample (NumF m) fuel o (fun k => real2 (NumF m) (w k)) k = Fuel.
Proof. intros m o w W Hn Hw Hv Hz fuel k. exact (boot_stuck W Hn Hw fuel k Hv Hz). Qed.
Print Assumptions C36_no_valid_pixel.

Example C36_case : forall m, match prepare (NumF m) ex_setup with
  | Ok (_, o) => match MakeBootstrapSample (NumF m) 3 o (fun k => real2 (NumF m) (Z.of_nat k * 1431655765)%Z) 0 with
                 | Ok (o', _) => bootstrapIndices o' = [0; 3]
                 | _ => False
                 end
  | _ => False
  end.
Proof. intros m. vm_compute. reflexivity. Qed.

(** ---- C11 ---- *)
(** The joint statistic is the sum of the images' own statistics (added in
    order, in whatever arithmetic: here binary64 and exact). *)
Theorem C11_statistic : forall m cash (l : list (mobj F64 * list F64 * F64)),
  Forall (fun t => useCash (fst (fst t)) = cash /\ exists o', GetFitStatistic (NumF m) (fst (fst t)) (snd (fst t)) = Ok (o', snd t)) l ->
  MultiFitStatistic (NumF m) cash (map (fun t => fst (fst t)) l) (map (fun t => snd (fst t)) l)
    = Ok (fold_left f_add (map snd l) (f_ofZ 0)).
Proof. intros m. exact (@multi_stat F64 (NumF m)). Qed.
Print Assumptions C11_statistic.
Theorem C11_statistic_exact : forall cash (l : list (mobj R * list R * R)),
  Forall (fun t => useCash (fst (fst t)) = cash /\ exists o', GetFitStatistic NumR (fst (fst t)) (snd (fst t)) = Ok (o', snd t)) l ->
  MultiFitStatistic NumR cash (map (fun t => fst (fst t)) l) (map (fun t => snd (fst t)) l) = Ok (rsuml (map snd l)).
Proof.
  intros cash l F. rewrite (multi_stat F). f_equal. change (nadd NumR) with Rplus. rewrite fold_left_rsuml. apply Rplus_0_l.
Qed.
Print Assumptions C11_statistic_exact.

(** Without bootstrap the joint deviates are the concatenation of the images'
    deviates. Each list element is (inputs, prepared object, model image, that
    image's own deviates). *)
Theorem C11_deviates_partial : forall m (l : list (setup F64 * mobj F64 * list F64 * list F64)) y,
  Forall (fun t => let '(s, o, mv, d) := t in
     well_formed (NumF m) s /\ length mv = model_size s /\ (exists st, prepare (NumF m) s = Ok (st, o)) /\
     exists y o', length y = npix s /\ ComputeDeviates (NumF m) o mv y 0 = Ok (o', d)) l ->
  length y = fold_right (fun t a => npix (fst (fst (fst t))) + a) 0 l ->
  MultiDeviates (NumF m) (map (fun t => snd (fst (fst t))) l) (map (fun t => snd (fst t)) l) y = Ok (concat (map snd l)).
Proof. intros m l y. exact (@multi_dev F64 (NumF m) (F01 m) (F00 m) l y). Qed.
Print Assumptions C11_deviates_partial.

Example C11_case : forall m, exists o d, Forall (image_ok (NumF m)) [(ex_setup, o, ex_model, d); (ex_setup, o, ex_model, d)].
Proof.
  intros m. assert (W : well_formed (NumF m) ex_setup) by apply C26_case.
  destruct (fprepare_ok W) as (st & o & E & P).
  destruct (@deviates_ok _ (NumF m) (F01 m) (F00 m) ex_setup st o ex_model None (repeat (fz 0) 4) 0 P eq_refl I) as (o' & D); [cbn; lia|].
  eexists o, _. assert (X : image_ok (NumF m) (ex_setup, o, ex_model, snd (o', firstn 0 (repeat (fz 0) 4) ++
     map (deviate (NumF m) ex_setup o ex_model) (pixels ex_setup None) ++ skipn (0 + length (pixels ex_setup None)) (repeat (fz 0) 4)))).
  { split; [exact W|]. split; [reflexivity|]. split; [now exists st|]. exists (repeat (fz 0) 4), o'. split; [reflexivity|exact D]. }
  constructor; [exact X|]. constructor; [exact X|constructor].
Qed.

(** With bootstrap resampling and masks it fails: the solver supplies a buffer
    of as many elements as there are valid pixels (core/bootstrap_errors.cpp:167,
    267), but each image's deviates start at the total number of pixels of the
    preceding images, so the writes run past the end. *)
Theorem C11_bootstrap_refuted : forall m, exists s1 s2 o1 o2 b1 b2,
  well_formed (NumF m) s1 /\ well_formed (NumF m) s2 /\
  prepare (NumF m) s1 = Ok (0%Z, o1) /\ prepare (NumF m) s2 = Ok (0%Z, o2) /\
  resample_ok (NumF m) s1 (Some b1) /\ resample_ok (NumF m) s2 (Some b2) /\
  (forall mv1 y0, length mv1 = model_size s1 -> length y0 = length b1 -> exists o' d, ComputeDeviates (NumF m) (with_bootstrap o1 b1) mv1 y0 0 = Ok (o', d)) /\
  MultiDeviates (NumF m) [with_bootstrap o1 b1; with_bootstrap o2 b2] [[fz 1; fz 2]; [fz 3; fz 4]]
    (repeat (fz 0) (Z.to_nat (nValid o1 + nValid o2))) = Undef.
Proof.
  intros m.
  pose (s1 := mkSetup 2 1 [fz 1; fz 2] None (fz 1) (fz 0) (fz 1) 1 (fz 0) (Some ([fz 0; fz 1], 10%Z)) ChiDataErrors : setup F64).
  pose (s2 := mkSetup 2 1 [fz 1; fz 2] None (fz 1) (fz 0) (fz 1) 1 (fz 0) None ChiDataErrors : setup F64).
  assert (W1 : well_formed (NumF m) s1) by wf.
  assert (W2 : well_formed (NumF m) s2) by wf.
  assert (H : match prepare (NumF m) s1, prepare (NumF m) s2 with
      | Ok (st1, o1), Ok (st2, o2) => ((st1 =? 0) && (st2 =? 0))%Z &&
        match MultiDeviates (NumF m) [with_bootstrap o1 [0]; with_bootstrap o2 [0; 1]] [[fz 1; fz 2]; [fz 3; fz 4]]
                (repeat (fz 0) (Z.to_nat (nValid o1 + nValid o2))) with Undef => true | _ => false end
      | _, _ => false end = true) by (vm_compute; reflexivity).
  destruct (prepare (NumF m) s1) as [(st1, o1)| | |] eqn:E1; [|discriminate|discriminate|discriminate].
  destruct (prepare (NumF m) s2) as [(st2, o2)| | |] eqn:E2; [|discriminate|discriminate|discriminate].
  apply andb_prop in H. destruct H as (A & B). apply andb_prop in A. destruct A as (A1 & A2). apply Z.eqb_eq in A1, A2. subst st1 st2.
  assert (R1 : resample_ok (NumF m) s1 (Some [0])) by (split; [vm_compute; reflexivity|repeat constructor]).
  assert (R2 : resample_ok (NumF m) s2 (Some [0; 1])) by (split; [vm_compute; reflexivity|repeat constructor]).
  exists s1, s2, o1, o2, [0], [0; 1]. split; [exact W1|]. split; [exact W2|]. split; [exact E1|]. split; [exact E2|]. split; [exact R1|]. split; [exact R2|]. split.
  - intros mv1 y0 L Ly. destruct (@deviates_ok _ (NumF m) (F01 m) (F00 m) s1 0%Z o1 mv1 (Some [0]) y0 0 (fprepared W1 E1) L R1) as (o' & H).
    + cbn [pixels length] in *. lia.
    + eauto.
  - destruct (MultiDeviates _ _ _ _); [discriminate B|reflexivity|discriminate B|discriminate B].
Qed.
Print Assumptions C11_bootstrap_refuted.
