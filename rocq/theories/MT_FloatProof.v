From Coq Require Import ZArith List Lia Bool Reals Lra.
From Flocq Require Import Core.Core IEEE754.BinarySingleNaN.
From Verif Require Import Base Num FloatFacts MT_Model MT_Spec MT_Proof.
Local Open Scope R_scope.
Set Implicit Arguments.
Unset Strict Implicit.

Lemma B32_ofZ y : B32 y -> isf (f_ofZ y) (IZR y).
Proof. intros [H1 H2]. apply isf_ofZ. change (2 ^ 53)%Z with (2 ^ 21 * 2 ^ 32)%Z. lia. Qed.

Lemma c1_isf : isf (f_div (f_ofZ 1) (f_ofZ 4294967295)) (IZR (2 ^ 32 + 1) * bpow radix2 (-64)).
Proof.
  replace (IZR (2 ^ 32 + 1) * bpow radix2 (-64)) with (IZR (Z.pos 4503599628419072) * bpow radix2 (-84)).
  - apply isf_B2SF with (s := false). vm_compute. reflexivity.
  - replace (Z.pos 4503599628419072) with ((2 ^ 32 + 1) * 2 ^ 20)%Z by reflexivity.
    rewrite mult_IZR, Rmult_assoc. f_equal. change (IZR (2 ^ 20)) with (IZR (radix2 ^ 20)). rewrite IZR_Zpower by lia.
    rewrite <- bpow_plus. reflexivity.
Qed.
Lemma c2_isf : isf (f_div (f_ofZ 1) (f_ofZ 4294967296)) (bpow radix2 (-32)).
Proof.
  replace (bpow radix2 (-32)) with (IZR (Z.pos 4503599627370496) * bpow radix2 (-84)).
  - apply isf_B2SF with (s := false). vm_compute. reflexivity.
  - change (Z.pos 4503599627370496) with (radix2 ^ 52)%Z. rewrite IZR_Zpower by lia. now rewrite <- bpow_plus.
Qed.
Lemma c3_isf : isf (f_div (f_ofZ 1) (f_ofZ 9007199254740992)) (bpow radix2 (-53)).
Proof.
  replace (bpow radix2 (-53)) with (IZR (Z.pos 4503599627370496) * bpow radix2 (-105)).
  - apply isf_B2SF with (s := false). vm_compute. reflexivity.
  - change (Z.pos 4503599627370496) with (radix2 ^ 52)%Z. rewrite IZR_Zpower by lia. now rewrite <- bpow_plus.
Qed.
Lemma half_isf : isf (f_dec 5 1) (1 / 2).
Proof.
  replace (1 / 2) with (IZR (Z.pos 4503599627370496) * bpow radix2 (-53)).
  - apply isf_B2SF with (s := false). vm_compute. reflexivity.
  - change (Z.pos 4503599627370496) with (radix2 ^ 52)%Z. rewrite IZR_Zpower by lia. rewrite <- bpow_plus. simpl. lra.
Qed.

Lemma small_ok r : fmt r -> Rabs r <= IZR (2 ^ 53) -> Rabs (rnd r) < big.
Proof.
  intros F H. rewrite rnd_exact by auto. eapply Rle_lt_trans; [exact H|]. unfold big.
  rewrite <- bpow_IZR by lia. apply bpow_lt. lia.
Qed.

Lemma bm32 : bpow radix2 (-32) = / IZR (2 ^ 32). Proof. reflexivity. Qed.
Lemma bm53 : bpow radix2 (-53) = / IZR (2 ^ 53). Proof. reflexivity. Qed.
Lemma bm64 : bpow radix2 (-64) = / IZR (2 ^ 64). Proof. reflexivity. Qed.

Lemma B32_R y : B32 y -> 0 <= IZR y <= IZR (2 ^ 32 - 1).
Proof. intros [H1 H2]. split; apply IZR_le; lia. Qed.

Lemma real1_range m y : B32 y -> exists r, isf (real1 (NumF m) y) r /\ 0 <= r <= 1.
Proof.
  intros Hy. unfold real1. cbn [nmul ndiv nofZ NumF].
  pose proof (B32_R Hy) as [H0 H1].
  assert (P : 0 <= IZR y * (IZR (2 ^ 32 + 1) * bpow radix2 (-64)) <= 1).
  { rewrite bm64. split.
    - apply Rmult_le_pos; auto. apply Rmult_le_pos; [apply IZR_le; lia|]. left. apply Rinv_0_lt_compat. apply IZR_lt. lia.
    - apply Rle_trans with (IZR (2 ^ 32 - 1) * (IZR (2 ^ 32 + 1) * / IZR (2 ^ 64))).
      + apply Rmult_le_compat_r; auto. apply Rmult_le_pos; [apply IZR_le; lia|]. left. apply Rinv_0_lt_compat. apply IZR_lt. lia.
      + rewrite <- Rmult_assoc, <- mult_IZR. apply Rmult_le_reg_r with (IZR (2 ^ 64)); [apply IZR_lt; lia|].
        rewrite Rmult_assoc, Rinv_l by (apply IZR_neq; lia). rewrite Rmult_1_r, Rmult_1_l. apply IZR_le. lia. }
  exists (rnd (IZR y * (IZR (2 ^ 32 + 1) * bpow radix2 (-64)))). split.
  - apply isf_mul; [now apply B32_ofZ|apply c1_isf|].
    apply no_overflow with 1; [apply (fmt_Z 1); lia|rewrite Rabs_pos_eq; apply P|].
    unfold big. change 1 with (bpow radix2 0). apply bpow_lt. lia.
  - split; [apply rnd_ge_fmt; [apply fmt_0|apply P]|apply rnd_le_fmt; [apply (fmt_Z 1); lia|apply P]].
Qed.

Lemma real2_exact m y : B32 y -> isf (real2 (NumF m) y) (IZR y / IZR (2 ^ 32)).
Proof.
  intros Hy. unfold real2. cbn [nmul ndiv nofZ NumF]. unfold Rdiv. rewrite <- bm32.
  assert (F : fmt (IZR y * bpow radix2 (-32))) by (apply fmt_dyadic; [destruct Hy; lia|lia]).
  rewrite <- (rnd_exact _ F). apply isf_mul; [now apply B32_ofZ|apply c2_isf|].
  apply small_ok; auto. rewrite bm32. pose proof (B32_R Hy) as [H0 H1].
  rewrite Rabs_pos_eq.
  - apply Rle_trans with (IZR y * 1).
    + apply Rmult_le_compat_l; auto. rewrite <- Rinv_1. apply Rinv_le_contravar; [lra|]. apply IZR_le. lia.
    + rewrite Rmult_1_r. eapply Rle_trans; [exact H1|]. apply IZR_le. lia.
  - apply Rmult_le_pos; auto. left. apply Rinv_0_lt_compat. apply IZR_lt. lia.
Qed.

Lemma real3_exact m y : B32 y -> isf (real3 (NumF m) y) ((IZR y + 1 / 2) / IZR (2 ^ 32)).
Proof.
  intros Hy. unfold real3. cbn [nmul nadd ndec ndiv nofZ NumF]. unfold Rdiv at 1. rewrite <- bm32.
  pose proof (B32_R Hy) as [H0 H1].
  assert (E : IZR y + 1 / 2 = IZR (2 * y + 1) * bpow radix2 (-1)).
  { rewrite plus_IZR, mult_IZR. simpl. lra. }
  assert (F0 : fmt (IZR y + 1 / 2)) by (rewrite E; apply fmt_dyadic; [destruct Hy; lia|lia]).
  assert (A0 : isf (f_add (f_ofZ y) (f_dec 5 1)) (IZR y + 1 / 2)).
  { rewrite <- (rnd_exact _ F0) at 1. apply isf_add; [now apply B32_ofZ|apply half_isf|].
    apply small_ok; auto. rewrite Rabs_pos_eq by lra. apply Rle_trans with (IZR (2 ^ 32 - 1) + 1); [lra|]. rewrite <- plus_IZR. apply IZR_le. lia. }
  assert (F : fmt ((IZR y + 1 / 2) * bpow radix2 (-32))).
  { rewrite E, Rmult_assoc, <- bpow_plus. apply fmt_dyadic; [destruct Hy; lia|lia]. }
  rewrite <- (rnd_exact _ F). apply isf_mul; [exact A0|apply c2_isf|].
  apply small_ok; auto. rewrite bm32.
  rewrite Rabs_pos_eq.
  - apply Rle_trans with ((IZR y + 1 / 2) * 1).
    + apply Rmult_le_compat_l; [lra|]. rewrite <- Rinv_1. apply Rinv_le_contravar; [lra|]. apply IZR_le. lia.
    + rewrite Rmult_1_r. apply Rle_trans with (IZR (2 ^ 32 - 1) + 1); [lra|]. rewrite <- plus_IZR. apply IZR_le. lia.
  - apply Rmult_le_pos; [lra|]. left. apply Rinv_0_lt_compat. apply IZR_lt. lia.
Qed.

Lemma res53_exact m y1 y2 : B32 y1 -> B32 y2 ->
  isf (res53 (NumF m) y1 y2) (IZR ((y1 / 32) * 2 ^ 26 + y2 / 64) / IZR (2 ^ 53)).
Proof.
  intros [A0 A1] [B0 B1]. unfold res53. cbn [nmul nadd ndiv nofZ NumF]. unfold Rdiv. rewrite <- bm53.
  rewrite !Z.shiftr_div_pow2 by lia. change (2 ^ 5)%Z with 32%Z. change (2 ^ 6)%Z with 64%Z.
  set (a := (y1 / 32)%Z). set (b := (y2 / 64)%Z).
  assert (Ha : (0 <= a < 2 ^ 27)%Z).
  { unfold a. split; [apply Z.div_pos; lia|apply Z.div_lt_upper_bound; lia]. }
  assert (Hb : (0 <= b < 2 ^ 26)%Z).
  { unfold b. split; [apply Z.div_pos; lia|apply Z.div_lt_upper_bound; lia]. }
  change 67108864%Z with (2 ^ 26)%Z.
  assert (P1 : isf (f_mul (f_ofZ a) (f_ofZ (2 ^ 26))) (IZR (a * 2 ^ 26))).
  { assert (F : fmt (IZR (a * 2 ^ 26))) by (apply fmt_Z; lia).
    rewrite <- (rnd_exact _ F). rewrite mult_IZR. apply isf_mul; try (apply isf_ofZ; lia).
    rewrite <- mult_IZR. apply small_ok; auto. rewrite <- abs_IZR. apply IZR_le. lia. }
  assert (P2 : isf (f_add (f_mul (f_ofZ a) (f_ofZ (2 ^ 26))) (f_ofZ b)) (IZR (a * 2 ^ 26 + b))).
  { assert (F : fmt (IZR (a * 2 ^ 26 + b))) by (apply fmt_Z; lia).
    rewrite <- (rnd_exact _ F). rewrite plus_IZR. apply isf_add; auto; try (apply isf_ofZ; lia).
    rewrite <- plus_IZR. apply small_ok; auto. rewrite <- abs_IZR. apply IZR_le. lia. }
  assert (F : fmt (IZR (a * 2 ^ 26 + b) * bpow radix2 (-53))) by (apply fmt_dyadic; lia).
  rewrite <- (rnd_exact _ F). apply isf_mul; [exact P2|apply c3_isf|].
  apply small_ok; auto. rewrite bm53, Rabs_pos_eq.
  - apply Rle_trans with (IZR (a * 2 ^ 26 + b) * 1).
    + apply Rmult_le_compat_l; [apply IZR_le; lia|]. rewrite <- Rinv_1. apply Rinv_le_contravar; [lra|]. apply IZR_le. lia.
    + rewrite Rmult_1_r. apply IZR_le. lia.
  - apply Rmult_le_pos; [apply IZR_le; lia|]. left. apply Rinv_0_lt_compat. apply IZR_lt. lia.
Qed.

Lemma quot_range a b : (0 <= a < b)%Z -> 0 <= IZR a / IZR b < 1.
Proof.
  intros [H1 H2]. assert (0 < IZR b) by (apply IZR_lt; lia). split.
  - apply Rmult_le_pos; [apply IZR_le; lia|]. left. now apply Rinv_0_lt_compat.
  - apply Rmult_lt_reg_r with (IZR b); auto. unfold Rdiv. rewrite Rmult_assoc, Rinv_l by lra.
    rewrite Rmult_1_r, Rmult_1_l. now apply IZR_lt.
Qed.

Section S.
  Variables (W : Z) (HW : (32 <= W)%Z) (m : Libm) (st : mtstate).
  Hypothesis Hst : ready st.

  Lemma r1_ok : exists x st' r, genrand_real1 W (NumF m) st = Ok (x, st') /\ ready st' /\ isf x r /\ 0 <= r <= 1.
  Proof.
    destruct (genrand_int32_ok HW Hst) as (y & st' & E & B & R). unfold genrand_real1. rewrite E. cbn [bind].
    destruct (real1_range m B) as (r & I & H). exists (real1 (NumF m) y), st', r. auto.
  Qed.
  Lemma r2_ok : exists x st' r, genrand_real2 W (NumF m) st = Ok (x, st') /\ ready st' /\ isf x r /\ 0 <= r < 1.
  Proof.
    destruct (genrand_int32_ok HW Hst) as (y & st' & E & B & R). unfold genrand_real2. rewrite E. cbn [bind].
    eexists. exists st'. eexists. split; [reflexivity|]. split; [auto|]. split; [now apply real2_exact|]. apply quot_range. exact B.
  Qed.
  Lemma r3_ok : exists x st' r, genrand_real3 W (NumF m) st = Ok (x, st') /\ ready st' /\ isf x r /\ 0 < r < 1.
  Proof.
    destruct (genrand_int32_ok HW Hst) as (y & st' & E & B & R). unfold genrand_real3. rewrite E. cbn [bind].
    eexists. exists st'. eexists. split; [reflexivity|]. split; [auto|]. split; [now apply real3_exact|].
    replace ((IZR y + 1 / 2) / IZR (2 ^ 32)) with (IZR (2 * y + 1) / IZR (2 ^ 33)).
    - destruct B as [B1 B2]. assert (X : 0 <= IZR (2 * y + 1) / IZR (2 ^ 33) < 1) by (apply quot_range; lia).
      split; [|apply X]. apply Rmult_lt_0_compat; [apply IZR_lt; lia|]. apply Rinv_0_lt_compat. apply IZR_lt. lia.
    - change (2 ^ 33)%Z with (2 * 2 ^ 32)%Z. rewrite (mult_IZR 2 (2 ^ 32)), plus_IZR, mult_IZR. field. apply IZR_neq. lia.
  Qed.
  Lemma r53_ok : exists x st' r, genrand_res53 W (NumF m) st = Ok (x, st') /\ ready st' /\ isf x r /\ 0 <= r < 1.
  Proof.
    destruct (genrand_int32_ok HW Hst) as (y & st1 & E & B & R). unfold genrand_res53. rewrite E. cbn [bind].
    destruct (genrand_int32_ok HW R) as (y2 & st2 & E2 & B2 & R2). rewrite E2. cbn [bind].
    eexists. exists st2. eexists. split; [reflexivity|]. split; [auto|]. split; [now apply res53_exact|].
    apply quot_range. destruct B, B2.
    assert (0 <= y / 32 < 2 ^ 27)%Z by (split; [apply Z.div_pos; lia|apply Z.div_lt_upper_bound; lia]).
    assert (0 <= y2 / 64 < 2 ^ 26)%Z by (split; [apply Z.div_pos; lia|apply Z.div_lt_upper_bound; lia]). lia.
  Qed.
End S.
