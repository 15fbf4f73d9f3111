From Coq Require Import Reals ZArith List Permutation Bool Lia Lra.
From Flocq Require Import Core.Core IEEE754.BinarySingleNaN.
From Verif Require Import Base Num FloatFacts Sums Stats_Model Stats_Spec.
Local Open Scope R_scope.
Set Implicit Arguments.
Unset Strict Implicit.

(** ---- mp_enorm ---- *)
Lemma RDWARF_pos : 0 < RDWARF NumR.
Proof.
  unfold RDWARF. cbn [ndec NumR]. apply Rdiv_lt_0_compat; apply IZR_lt; [lia|apply Z.pow_pos_nonneg; lia].
Qed.

Definition einv (st : enorm_st R) (S B : R) : Prop :=
  let '(mkEn s1 s2 s3 x1 x3) := st in
  0 <= s1 /\ 0 <= s2 /\ 0 <= s3 /\ 0 <= x1 /\ 0 <= x3 /\ (x1 = 0 -> s1 = 0) /\ (x3 = 0 -> s3 = 0) /\
  s1 * (x1 * x1) + s2 + s3 * (x3 * x3) = S /\ s3 * (x3 * x3) <= B.

Lemma abs_sq x : Rabs x * Rabs x = x * x.
Proof. rewrite <- Rabs_mult. apply Rabs_pos_eq. nra. Qed.

Lemma sq_quot a b : 0 < b -> 0 <= a -> (a / b) * (a / b) * (b * b) = a * a.
Proof. intros Hb Ha. field. lra. Qed.

Notation d2 := (RDWARF NumR * RDWARF NumR).
Lemma enorm_step_inv ag st xi S B : einv st S B -> einv (enorm_step NumR ag st xi) (S + xi * xi) (B + d2).
Proof.
  destruct st as [s1 s2 s3 x1 x3]. unfold einv, enorm_step. cbn [nabs nltb neqb nadd nmul ndiv nofZ NumR].
  intros (H1 & H2 & H3 & X1 & X3 & I1 & I3 & E & Bd). pose proof RDWARF_pos as Hd.
  pose proof (Rabs_pos xi) as Hp. rewrite <- (abs_sq xi). set (a := Rabs xi) in *. clearbody a.
  set (d := RDWARF NumR) in *. clearbody d.
  assert (Pa : 0 <= a * a) by nra. assert (Pd : 0 <= d * d) by nra.
  destruct (Rltb d a && Rltb a ag)%bool.
  { repeat split; auto; lra. }
  destruct (Rltb d a) eqn:Ed.
  - apply Rltb_true in Ed. destruct (Rltb x1 a) eqn:E1.
    + apply Rltb_true in E1. assert (Q : 0 <= (x1 / a) * (x1 / a)) by nra.
      repeat split; auto; try lra; try nra.
      replace ((1 + s1 * (x1 / a) * (x1 / a)) * (a * a)) with (a * a + s1 * ((x1 / a) * (x1 / a) * (a * a))) by ring.
      rewrite sq_quot by lra. lra.
    + apply Rltb_false in E1. assert (Q : 0 <= (a / x1) * (a / x1)) by nra.
      repeat split; auto; try lra.
      replace ((s1 + (a / x1) * (a / x1)) * (x1 * x1)) with (s1 * (x1 * x1) + ((a / x1) * (a / x1) * (x1 * x1))) by ring.
      rewrite sq_quot by lra. lra.
  - apply Rltb_false in Ed. assert (a * a <= d * d) by nra. destruct (Rltb x3 a) eqn:E3.
    + apply Rltb_true in E3. assert (Q : 0 <= (x3 / a) * (x3 / a)) by nra.
      assert (F : (1 + s3 * (x3 / a) * (x3 / a)) * (a * a) = a * a + s3 * (x3 * x3)).
      { replace ((1 + s3 * (x3 / a) * (x3 / a)) * (a * a)) with (a * a + s3 * ((x3 / a) * (x3 / a) * (a * a))) by ring.
        rewrite sq_quot by lra. reflexivity. }
      repeat split; auto; try lra; try nra.
    + apply Rltb_false in E3. destruct (Reqb a 0) eqn:E0; cbn [negb].
      * apply Reqb_true in E0. subst a. repeat split; auto; lra.
      * apply Reqb_false in E0. assert (Q : 0 <= (a / x3) * (a / x3)) by nra.
        assert (F : (s3 + (a / x3) * (a / x3)) * (x3 * x3) = s3 * (x3 * x3) + a * a).
        { replace ((s3 + (a / x3) * (a / x3)) * (x3 * x3)) with (s3 * (x3 * x3) + ((a / x3) * (a / x3) * (x3 * x3))) by ring.
          rewrite sq_quot by lra. reflexivity. }
        repeat split; auto; try lra.
Qed.

Lemma enorm_fold ag x : forall st S B, einv st S B ->
  einv (fold_left (enorm_step NumR ag) x st) (S + sum_of_squares x) (B + INR (length x) * d2).
Proof.
  induction x as [|a t IH]; intros st S B H; cbn [fold_left].
  - unfold sum_of_squares. simpl. rewrite Rmult_0_l, !Rplus_0_r. exact H.
  - replace (S + sum_of_squares (a :: t)) with ((S + a * a) + sum_of_squares t) by (unfold sum_of_squares; simpl; ring).
    replace (B + INR (length (a :: t)) * d2) with ((B + d2) + INR (length t) * d2).
    + apply IH. now apply enorm_step_inv.
    + cbn [length]. rewrite S_INR. ring.
Qed.

Lemma no_big ag x : Forall (fun a => Rabs a < ag) x -> forall st,
  e_s1 st = 0 -> e_s1 (fold_left (enorm_step NumR ag) x st) = 0.
Proof.
  intros H. induction H as [|a t Ha Ht IH]; intros st E; cbn [fold_left]; auto. apply IH.
  destruct st as [s1 s2 s3 x1 x3]. unfold enorm_step. cbn [nabs nltb neqb nadd nmul ndiv nofZ NumR e_s1] in *.
  apply Rltb_true in Ha. rewrite Ha.
  destruct (Rltb (RDWARF NumR) (Rabs a)); cbn [andb]; auto. destruct (Rltb x3 (Rabs a)); auto. destruct (Reqb (Rabs a) 0); auto.
Qed.
Lemma no_small ag x : Forall (fun a => a = 0 \/ RDWARF NumR < Rabs a) x -> forall st,
  e_s3 st = 0 -> 0 <= e_x3max st -> e_s3 (fold_left (enorm_step NumR ag) x st) = 0.
Proof.
  intros H. induction H as [|a t Ha Ht IH]; intros st E E3; cbn [fold_left]; auto.
  destruct st as [s1 s2 s3 x1 x3]. cbn [e_s3 e_x3max] in *. pose proof RDWARF_pos.
  assert (e_s3 (enorm_step NumR ag (mkEn s1 s2 s3 x1 x3) a) = 0 /\ 0 <= e_x3max (enorm_step NumR ag (mkEn s1 s2 s3 x1 x3) a)) as [A B].
  { unfold enorm_step. cbn [nabs nltb neqb nadd nmul ndiv nofZ NumR].
    destruct (Rltb (RDWARF NumR) (Rabs a)) eqn:Ed; cbn [andb].
    - destruct (Rltb (Rabs a) ag); cbn [e_s3 e_x3max]; auto. destruct (Rltb x1 (Rabs a)); auto.
    - apply Rltb_false in Ed. destruct Ha as [->|Ha]; [|lra]. rewrite Rabs_R0.
      destruct (Rltb x3 0) eqn:E0; [apply Rltb_true in E0; lra|].
      destruct (Reqb 0 0) eqn:Er; [auto|]. apply Reqb_false in Er. congruence. }
  apply IH; auto.
Qed.

Lemma sqrt_pull x t : 0 <= x -> 0 <= t -> x * sqrt t = sqrt (x * x * t).
Proof. intros Hx Ht. rewrite sqrt_mult by nra. rewrite sqrt_square by auto. reflexivity. Qed.

Lemma mp_enorm_cases x : exists s1 s2 s3 x1 x3,
  fold_left (enorm_step NumR (RGIANT NumR / INR (length x))) x (mkEn 0 0 0 0 0) = mkEn s1 s2 s3 x1 x3 /\
  einv (mkEn s1 s2 s3 x1 x3) (sum_of_squares x) (INR (length x) * d2) /\
  mp_enorm NumR x = sqrt (sum_of_squares x - (if Reqb s1 0 then 0 else s3 * (x3 * x3))).
Proof.
  unfold mp_enorm.
  assert (H : einv (mkEn (nofZ NumR 0) (nofZ NumR 0) (nofZ NumR 0) (nofZ NumR 0) (nofZ NumR 0)) 0 0).
  { unfold einv. cbn [nofZ NumR]. repeat split; lra. }
  apply (@enorm_fold (ndiv NumR (RGIANT NumR) (nofZ NumR (Z.of_nat (length x)))) x) in H.
  rewrite !Rplus_0_l in H. cbn [ndiv nofZ NumR] in *. rewrite INR_IZR_INZ in *.
  destruct (fold_left _ x _) as [s1 s2 s3 x1 x3]. exists s1, s2, s3, x1, x3. split; [reflexivity|]. split; [exact H|].
  destruct H as (H1 & H2 & H3 & X1 & X3 & I1 & I3 & E & _). rewrite <- E. clear E.
  cbn [neqb nleb nadd nmul ndiv nofZ nsqrt NumR].
  destruct (Reqb s1 0) eqn:E1; cbn [negb]; rewrite ?Rminus_0_r.
  - apply Reqb_true in E1. subst s1. rewrite Rmult_0_l, Rplus_0_l.
    destruct (Reqb s2 0) eqn:E2; cbn [negb].
    + apply Reqb_true in E2. subst s2. rewrite Rplus_0_l, sqrt_pull by auto. f_equal. ring.
    + apply Reqb_false in E2. destruct (Rleb x3 s2) eqn:El; f_equal.
      * field. lra.
      * apply Rleb_false in El. field. lra.
  - apply Reqb_false in E1. assert (x1 <> 0) by (intros ->; apply E1; auto).
    assert (0 < x1) by lra. rewrite sqrt_pull; auto.
    + f_equal. field. lra.
    + assert (0 <= s2 / x1 / x1); [|lra]. apply Rmult_le_pos; [apply Rmult_le_pos; auto|]; left; now apply Rinv_0_lt_compat.
Qed.

Lemma sq_nonneg x : 0 <= sum_of_squares x.
Proof. unfold sum_of_squares. induction x as [|a t IH]; unfold rsuml in *; simpl; [lra|]. nra. Qed.

Lemma mp_enorm_bounds x :
  0 <= mp_enorm NumR x <= sqrt (sum_of_squares x) /\
  sum_of_squares x - INR (length x) * d2 <= mp_enorm NumR x * mp_enorm NumR x.
Proof.
  destruct (mp_enorm_cases x) as (s1 & s2 & s3 & x1 & x3 & _ & I & ->).
  destruct I as (H1 & H2 & H3 & X1 & X3 & _ & _ & E & Bd).
  assert (P3 : 0 <= s3 * (x3 * x3)) by (apply Rmult_le_pos; nra).
  assert (P1 : 0 <= s1 * (x1 * x1)) by (apply Rmult_le_pos; nra).
  set (e := if Reqb s1 0 then 0 else s3 * (x3 * x3)).
  assert (He : 0 <= e <= s3 * (x3 * x3)) by (unfold e; destruct (Reqb s1 0); lra).
  clearbody e. split; [split|].
  - apply sqrt_pos.
  - apply sqrt_le_1_alt. lra.
  - rewrite sqrt_sqrt by lra. lra.
Qed.

Lemma mp_enorm_exact x :
  (Forall (fun a => Rabs a < RGIANT NumR / INR (length x)) x \/ Forall (fun a => a = 0 \/ RDWARF NumR < Rabs a) x) ->
  mp_enorm NumR x = sqrt (sum_of_squares x).
Proof.
  intros H. destruct (mp_enorm_cases x) as (s1 & s2 & s3 & x1 & x3 & F & I & ->).
  assert (A : s1 = 0 \/ s3 = 0).
  { destruct H as [H|H].
    - left. pose proof (@no_big _ _ H (mkEn 0 0 0 0 0) eq_refl) as Q. rewrite F in Q. exact Q.
    - right. pose proof (@no_small (RGIANT NumR / INR (length x)) _ H (mkEn 0 0 0 0 0) eq_refl (Rle_refl 0)) as Q. rewrite F in Q. exact Q. }
  destruct (Reqb s1 0) eqn:E1; [now rewrite Rminus_0_r|]. apply Reqb_false in E1. destruct A as [|A]; [congruence|].
  subst s3. now rewrite Rmult_0_l, Rminus_0_r.
Qed.

(** a large and a tiny component: the tiny one is dropped *)
Lemma mp_enorm_drops g d : RGIANT NumR <= g -> 0 < d <= RDWARF NumR -> mp_enorm NumR (g :: d :: nil) = g.
Proof.
  intros Hg Hd. unfold mp_enorm. cbn [ndiv nofZ NumR length]. set (ag := (RGIANT NumR / _)).
  assert (Gp : IZR 2 * RDWARF NumR < RGIANT NumR).
  { unfold RGIANT, RDWARF. cbn [nofZ ndec NumR]. apply Rmult_lt_reg_r with (IZR (10 ^ 23)); [apply IZR_lt; reflexivity|].
    unfold Rdiv. rewrite Rmult_assoc, (Rmult_assoc (IZR 3834)), Rinv_l by (apply IZR_neq; discriminate).
    rewrite Rmult_1_r, <- !mult_IZR. apply IZR_lt. reflexivity. }
  pose proof RDWARF_pos as Dp.
  assert (Ag : ag = RGIANT NumR / 2) by reflexivity.
  assert (Hag : ag <= g) by lra. clearbody ag.
  assert (S1 : enorm_step NumR ag (mkEn 0 0 0 0 0) g = mkEn 1 0 0 g 0).
  { unfold enorm_step. cbn [nabs nltb neqb nadd nmul ndiv nofZ NumR]. rewrite (Rabs_pos_eq g) by lra.
    destruct (Rltb (RDWARF NumR) g) eqn:E1; [|apply Rltb_false in E1; lra].
    destruct (Rltb g ag) eqn:E2; [apply Rltb_true in E2; lra|]. cbn [andb].
    destruct (Rltb 0 g) eqn:E3; [|apply Rltb_false in E3; lra]. f_equal. ring. }
  assert (S2 : exists s3 x3, enorm_step NumR ag (mkEn 1 0 0 g 0) d = mkEn 1 0 s3 g x3).
  { unfold enorm_step. cbn [nabs nltb neqb nadd nmul ndiv nofZ NumR]. rewrite (Rabs_pos_eq d) by lra.
    destruct (Rltb (RDWARF NumR) d) eqn:E1; [apply Rltb_true in E1; lra|]. cbn [andb].
    destruct (Rltb 0 d) eqn:E3; [|apply Rltb_false in E3; lra]. eauto. }
  destruct S2 as (s3 & x3 & S2). cbn [fold_left]. rewrite S1, S2.
  cbn [neqb nadd nmul ndiv nsqrt NumR]. destruct (Reqb 1 0) eqn:E1; [apply Reqb_true in E1; lra|]. cbn [negb].
  replace (1 + 0 / g / g) with 1 by (field; lra). rewrite sqrt_1. ring.
Qed.

(** ---- information criteria ---- *)
Lemma AIC_exact L k n b : AIC_corrected NumR L k n b =
  (if b then L else -2 * L) + 2 * IZR k + 2 * IZR k * (IZR k + 1) / (IZR n - IZR k - 1).
Proof. unfold AIC_corrected. cbn [nadd nsub nmul ndiv nneg nofZ NumR]. destruct b; reflexivity. Qed.
Lemma BIC_exact L k n b : BIC NumR L k n b = (if b then L else -2 * L) + IZR k * ln (IZR n).
Proof. unfold BIC. cbn [nadd nsub nmul ndiv nneg nofZ nlog NumR]. destruct b; reflexivity. Qed.

Lemma pow_incr_lt x y n : 0 < x < y -> (0 < n)%nat -> x ^ n < y ^ n.
Proof.
  intros [H1 H2] Hn. induction n as [|n IH]; [lia|]. simpl. destruct n as [|n]; [simpl; lra|].
  apply Rmult_gt_0_lt_compat; try lra; [apply pow_lt; lra|]. apply IH. lia.
Qed.
Lemma exp2_lt_8 : exp 2 < 8.
Proof.
  assert (A : 15 / 16 < exp (- (1 / 16))) by (pose proof (exp_ineq1 (- (1 / 16)) ltac:(lra)); lra).
  assert (B : exp 2 * (exp (- (1 / 16))) ^ 32 = 1).
  { rewrite <- Rpower_pow by apply exp_pos. unfold Rpower. rewrite ln_exp. rewrite <- exp_plus.
    replace (2 + INR 32 * - (1 / 16)) with 0 by (simpl INR; lra). apply exp_0. }
  assert (C : (15 / 16) ^ 32 < exp (- (1 / 16)) ^ 32) by (apply pow_incr_lt; [lra|lia]).
  assert (D : 1 / 8 < (15 / 16) ^ 32).
  { unfold Rdiv at 2. rewrite Rpow_mult_distr, pow_inv. 
    rewrite !pow_IZR. apply Rmult_lt_reg_r with (IZR (16 ^ Z.of_nat 32)); [apply IZR_lt; reflexivity|].
    rewrite Rmult_assoc, Rinv_l by (apply IZR_neq; discriminate).
    apply Rmult_lt_reg_r with 8; [lra|]. replace (1 / 8 * IZR (16 ^ Z.of_nat 32) * 8) with (IZR (16 ^ Z.of_nat 32)) by field.
    rewrite Rmult_1_r, <- mult_IZR. apply IZR_lt. reflexivity. }
  pose proof (exp_pos 2). nra.
Qed.
Lemma exp2_gt_7 : 7 < exp 2.
Proof.
  assert (A : 65 / 64 < exp (1 / 64)) by (pose proof (exp_ineq1 (1 / 64) ltac:(lra)); lra).
  assert (B : exp 2 = (exp (1 / 64)) ^ 128).
  { rewrite <- Rpower_pow by apply exp_pos. unfold Rpower. rewrite ln_exp. f_equal.
    rewrite INR_IZR_INZ. change (Z.of_nat 128) with 128%Z. lra. }
  assert (C : (65 / 64) ^ 128 < exp (1 / 64) ^ 128) by (apply pow_incr_lt; [lra|lia]).
  rewrite B. eapply Rlt_trans; [|exact C].
  unfold Rdiv. rewrite Rpow_mult_distr, pow_inv. rewrite !pow_IZR.
  apply Rmult_lt_reg_r with (IZR (64 ^ Z.of_nat 128)); [apply IZR_lt; reflexivity|].
  rewrite Rmult_assoc, Rinv_l by (apply IZR_neq; discriminate).
  rewrite Rmult_1_r, <- mult_IZR. apply IZR_lt. reflexivity.
Qed.

Lemma ln_vs_2 n : (1 <= n)%Z -> ((8 <= n)%Z <-> 2 < ln (IZR n)).
Proof.
  intros Hn. assert (P : 0 < IZR n) by (apply IZR_lt; lia). split.
  - intros H. rewrite <- (ln_exp 2). apply ln_increasing; [apply exp_pos|].
    eapply Rlt_le_trans; [apply exp2_lt_8|]. now apply IZR_le.
  - intros H. destruct (Z_lt_le_dec n 8) as [Hlt|]; auto. exfalso.
    assert (ln (IZR n) < 2); [|lra]. rewrite <- (ln_exp 2). apply ln_increasing; auto.
    eapply Rle_lt_trans; [|apply exp2_gt_7]. apply IZR_le. lia.
Qed.

(** adding an infinity never gives a finite result *)
Lemma add_inf_not_finite x s : is_finite (f_add x (B754_infinity s)) = false.
Proof. unfold f_add. destruct x as [[]|[]| |[] ? ? ?]; destruct s; reflexivity. Qed.

Lemma fin_pos_shape (x : F64) r : isf x r -> 0 < r -> exists m e H, x = B754_finite false m e H.
Proof.
  intros [F B] Hr. destruct x as [s|s| |s m e H]; try discriminate; simpl in B; [lra|].
  destruct s; [|eauto]. exfalso. assert (F2R (Float radix2 (Z.neg m) e) < 0) by (apply F2R_lt_0; reflexivity). simpl in *. lra.
Qed.
Lemma zero_shape (x : F64) : isf x 0 -> exists s, x = B754_zero s.
Proof.
  intros [F B]. destruct x as [s|s| |s m e H]; try discriminate; eauto. exfalso. simpl in B.
  apply eq_0_F2R in B. destruct s; discriminate.
Qed.

Lemma isf_small : forall r b, fmt r -> Rabs r <= IZR b -> (b <= 2 ^ 100)%Z -> Rabs (rnd r) < big.
Proof.
  intros r b Fr H Hb. rewrite rnd_exact by auto. eapply Rle_lt_trans; [exact H|]. unfold big.
  apply Rle_lt_trans with (IZR (2 ^ 100)); [now apply IZR_le|]. rewrite <- bpow_IZR by lia. apply bpow_lt. lia.
Qed.

Lemma AIC_zero_den m L k b : (1 <= k < 2 ^ 31)%Z -> is_finite (AIC_corrected (NumF m) L k (k + 1) b) = false.
Proof.
  intros Hk. unfold AIC_corrected. cbn [nadd nsub nmul ndiv nneg nofZ NumF].
  assert (D : isf (f_sub (f_sub (f_ofZ (k + 1)) (f_ofZ k)) (f_ofZ 1)) 0).
  { assert (D1 : isf (f_sub (f_ofZ (k + 1)) (f_ofZ k)) (IZR 1)).
    { replace (IZR 1) with (IZR (k + 1) - IZR k) by (rewrite plus_IZR; ring).
      assert (F : fmt (IZR (k + 1) - IZR k)) by (rewrite <- minus_IZR; apply fmt_Z; lia).
      rewrite <- (rnd_exact _ F) at 1. apply isf_sub; try (apply isf_ofZ; lia).
      eapply isf_small with (b := 1%Z); auto; [|lia]. rewrite <- minus_IZR, <- abs_IZR. apply IZR_le. lia. }
    replace 0 with (IZR 1 - IZR 1) by ring.
    assert (F : fmt (IZR 1 - IZR 1)) by (rewrite <- minus_IZR; apply fmt_Z; lia).
    rewrite <- (rnd_exact _ F) at 1. apply isf_sub; auto; try (apply isf_ofZ; lia).
    eapply isf_small with (b := 1%Z); auto; [|lia]. rewrite <- minus_IZR, <- abs_IZR. apply IZR_le. lia. }
  apply zero_shape in D. destruct D as (s & ->).
  assert (P1 : isf (f_mul (f_ofZ 2) (f_ofZ k)) (IZR (2 * k))).
  { rewrite mult_IZR. assert (F : fmt (IZR 2 * IZR k)) by (rewrite <- mult_IZR; apply fmt_Z; lia).
    rewrite <- (rnd_exact _ F) at 1. apply isf_mul; try (apply isf_ofZ; lia).
    eapply isf_small with (b := (2 * k)%Z); auto; [|lia]. rewrite <- mult_IZR, <- abs_IZR. apply IZR_le. lia. }
  assert (P2 : isf (f_add (f_ofZ k) (f_ofZ 1)) (IZR (k + 1))).
  { rewrite plus_IZR. assert (F : fmt (IZR k + IZR 1)) by (rewrite <- plus_IZR; apply fmt_Z; lia).
    rewrite <- (rnd_exact _ F) at 1. apply isf_add; try (apply isf_ofZ; lia).
    eapply isf_small with (b := (k + 1)%Z); auto; [|lia]. rewrite <- plus_IZR, <- abs_IZR. apply IZR_le. lia. }
  assert (P3 : isf (f_mul (f_mul (f_ofZ 2) (f_ofZ k)) (f_add (f_ofZ k) (f_ofZ 1))) (rnd (IZR (2 * k) * IZR (k + 1)))).
  { apply isf_mul; auto. apply no_overflow with (bpow radix2 70); [apply fmt_bpow; lia| |apply bpow_lt; lia].
    rewrite <- mult_IZR, <- abs_IZR, bpow_IZR by lia. apply IZR_le. nia. }
  apply fin_pos_shape in P3.
  - destruct P3 as (mm & e & H & ->). apply add_inf_not_finite.
  - apply Rlt_le_trans with (IZR 1); [lra|]. apply rnd_ge_fmt; [apply fmt_Z; lia|]. rewrite <- mult_IZR. apply IZR_le. nia.
Qed.

(** ---- confidence interval: indices ---- *)
Lemma dec_lower : isf (f_dec 1585 4) (IZR 5710564327505789 * bpow radix2 (-55)).
Proof. apply isf_B2SF with (s := false). vm_compute. reflexivity. Qed.
Lemma dec_upper : isf (f_dec 8415 4) (IZR 7579558172864545 * bpow radix2 (-53)).
Proof. apply isf_B2SF with (s := false). vm_compute. reflexivity. Qed.

Lemma IZR_sub_dec M e p q : (0 <= e)%Z -> (0 < q)%Z -> (2 ^ 50 * Z.abs (M * q - p * 2 ^ e) <= q * 2 ^ e)%Z ->
  Rabs (IZR M * bpow radix2 (- e) - IZR p / IZR q) <= / IZR (2 ^ 50).
Proof.
  intros He Hq H. assert (Pe : (0 < 2 ^ e)%Z) by (apply Z.pow_pos_nonneg; lia).
  rewrite bpow_opp, bpow_IZR by auto.
  replace (IZR M * / IZR (2 ^ e) - IZR p / IZR q) with (IZR (M * q - p * 2 ^ e) / (IZR q * IZR (2 ^ e))).
  - assert (Q : 0 < IZR q * IZR (2 ^ e)) by (apply Rmult_lt_0_compat; apply IZR_lt; lia).
    unfold Rdiv. rewrite Rabs_mult, Rabs_inv, (Rabs_pos_eq (IZR q * _)) by lra. rewrite <- abs_IZR.
    apply Rmult_le_reg_r with (IZR q * IZR (2 ^ e)); auto. rewrite Rmult_assoc, Rinv_l, Rmult_1_r by lra.
    apply Rmult_le_reg_l with (IZR (2 ^ 50)); [apply IZR_lt; lia|].
    rewrite <- Rmult_assoc, Rinv_r, Rmult_1_l by (apply IZR_neq; lia). rewrite <- !mult_IZR. now apply IZR_le.
  - rewrite minus_IZR, !mult_IZR. field. split; apply IZR_neq; lia.
Qed.

Lemma round_index m c v p q n : isf c v -> (0 <= p <= q)%Z -> (0 < q)%Z -> Rabs (v - IZR p / IZR q) <= / IZR (2 ^ 50) ->
  (0 <= n < 2 ^ 31)%Z ->
  exists k, nround (NumF m) (nmul (NumF m) c (nofZ (NumF m) n)) = Some k /\
    Rabs (IZR k - IZR p / IZR q * IZR n) <= 1 / 2 + 1 / 100000.
Proof.
  intros Hc Hp Hq Hv Hn. cbn [nround nmul nofZ NumF].
  assert (Nn : 0 <= IZR n <= IZR (2 ^ 31)) by (split; apply IZR_le; lia).
  assert (Qn : 0 <= IZR p / IZR q <= 1).
  { assert (0 < IZR q) by (apply IZR_lt; lia). assert (0 <= IZR p <= IZR q) by (split; apply IZR_le; lia). split.
    - apply Rmult_le_pos; [lra|]. left. now apply Rinv_0_lt_compat.
    - apply Rmult_le_reg_r with (IZR q); auto. unfold Rdiv. rewrite Rmult_assoc, Rinv_l by lra. lra. }
  assert (B50 : IZR (2 ^ 31) * / IZR (2 ^ 50) = / IZR (2 ^ 19)).
  { change (2 ^ 50)%Z with (2 ^ 31 * 2 ^ 19)%Z. rewrite mult_IZR. field. split; apply IZR_neq; lia. }
  assert (S19 : / IZR (2 ^ 19) <= 1). { rewrite <- Rinv_1. apply Rinv_le_contravar; [lra|]. apply IZR_le. lia. }
  set (t := IZR p / IZR q) in *. clearbody t. destruct Nn as [N0 N1].
  assert (D : Rabs (v * IZR n - t * IZR n) <= / IZR (2 ^ 19)).
  { replace (v * IZR n - t * IZR n) with ((v - t) * IZR n) by ring. rewrite Rabs_mult, (Rabs_pos_eq (IZR n)) by auto.
    rewrite <- B50, Rmult_comm. apply Rmult_le_compat; auto. apply Rabs_pos. }
  assert (M : Rabs (v * IZR n) <= bpow radix2 32).
  { apply Rle_trans with (Rabs (t * IZR n) + Rabs (v * IZR n - t * IZR n)).
    - replace (v * IZR n) with (t * IZR n + (v * IZR n - t * IZR n)) at 1 by ring. apply Rabs_triang.
    - rewrite bpow_IZR by lia. change (2 ^ 32)%Z with (2 ^ 31 + 2 ^ 31)%Z. rewrite plus_IZR. apply Rplus_le_compat.
      + rewrite Rabs_pos_eq by (apply Rmult_le_pos; lra). rewrite <- (Rmult_1_l (IZR (2 ^ 31))). apply Rmult_le_compat; lra.
      + eapply Rle_trans; [exact D|]. eapply Rle_trans; [exact S19|]. apply IZR_le. lia. }
  assert (I : isf (f_mul c (f_ofZ n)) (rnd (v * IZR n))).
  { apply isf_mul; auto; [apply isf_ofZ; lia|]. apply no_overflow with (bpow radix2 32); auto; [apply fmt_bpow; lia|apply bpow_lt; lia]. }
  destruct I as [F B]. rewrite (f_round_ok _ F). eexists. split; [reflexivity|]. rewrite B.
  assert (E1 : Rabs (rnd (v * IZR n) - v * IZR n) <= bpow radix2 (32 - 53)) by (apply rnd_err; auto; lia).
  replace (bpow radix2 (32 - 53)) with (/ IZR (2 ^ 21)) in E1 by reflexivity.
  assert (T1 : / IZR (2 ^ 19) <= 1 / 500000) by (unfold Rdiv; rewrite Rmult_1_l; apply Rinv_le_contravar; [lra|apply IZR_le; lia]).
  assert (T2 : / IZR (2 ^ 21) <= 1 / 2000000) by (unfold Rdiv; rewrite Rmult_1_l; apply Rinv_le_contravar; [lra|apply IZR_le; lia]).
  pose proof (Znearest_half (Zle_bool 0) (rnd (v * IZR n))) as Hz.
  set (z := IZR (ZnearestA (rnd (v * IZR n)))) in *. clearbody z.
  set (r := rnd (v * IZR n)) in *. clearbody r.
  apply Rabs_le_inv in D, E1, Hz. apply Rabs_le. lra.
Qed.

Lemma ci_indices_ok m n : (1 <= n < 2 ^ 31)%Z -> exists l u, ci_indices (NumF m) n = Ok (l, u) /\
  (0 <= l)%Z /\ (l <= u)%Z /\ (u < n)%Z /\
  (10000 * l <= 1585 * n)%Z /\ (1585 * n - 5001 <= 10000 * (l + 1))%Z /\
  (10000 * (n - 1 - u) <= 1585 * n)%Z /\ (1585 * n - 5001 <= 10000 * (n - u))%Z.
Proof.
  intros Hn. unfold ci_indices, ONESIGMA_LOWER, ONESIGMA_UPPER.
  destruct (@round_index m (ndec (NumF m) 1585 4) _ 1585 10000 n dec_lower) as (rl & El & Bl); try lia.
  { apply (@IZR_sub_dec 5710564327505789 55 1585 10000); lia. }
  destruct (@round_index m (ndec (NumF m) 8415 4) _ 8415 10000 n dec_upper) as (ru & Eu & Bu); try lia.
  { apply (@IZR_sub_dec 7579558172864545 53 8415 10000); lia. }
  rewrite El, Eu. eexists. eexists. split; [reflexivity|].
  assert (Zl : (Z.abs (10000 * rl - 1585 * n) <= 5000)%Z).
  { assert (Z.abs (10000 * rl - 1585 * n) < 5001)%Z; [|lia]. apply lt_IZR. rewrite abs_IZR, minus_IZR, !mult_IZR.
    replace (10000 * IZR rl - 1585 * IZR n) with (10000 * (IZR rl - 1585 / 10000 * IZR n)) by field.
    rewrite Rabs_mult, (Rabs_pos_eq 10000) by lra. lra. }
  assert (Zu : (Z.abs (10000 * ru - 8415 * n) <= 5000)%Z).
  { assert (Z.abs (10000 * ru - 8415 * n) < 5001)%Z; [|lia]. apply lt_IZR. rewrite abs_IZR, minus_IZR, !mult_IZR.
    replace (10000 * IZR ru - 8415 * IZR n) with (10000 * (IZR ru - 8415 / 10000 * IZR n)) by field.
    rewrite Rabs_mult, (Rabs_pos_eq 10000) by lra. lra. }
  destruct (Z.ltb_spec (rl - 1) 0); destruct (Z.leb_spec n ru); lia.
Qed.

(** ---- counting in a sorted array ---- *)
Lemma filter_none_above {A} (p : A -> bool) (w : list A) : forall k,
  (forall i x, (k <= i)%nat -> nth_error w i = Some x -> p x = false) -> (length (filter p w) <= k)%nat.
Proof.
  induction w as [|a t IH]; intros k H; simpl; [lia|]. destruct k as [|k].
  - rewrite (H O a) by (auto; lia). apply IH. intros i x Hi E. apply (H (S i) x); auto; lia.
  - assert (length (filter p t) <= k)%nat.
    { apply IH. intros i x Hi E. apply (H (S i) x); auto; lia. }
    destruct (p a); simpl; lia.
Qed.
Lemma filter_all_below {A} (p : A -> bool) (w : list A) : forall k, (k <= length w)%nat ->
  (forall i x, (i < k)%nat -> nth_error w i = Some x -> p x = true) -> (k <= length (filter p w))%nat.
Proof.
  induction w as [|a t IH]; intros k Hk H; simpl in *; [lia|]. destruct k as [|k]; [lia|].
  rewrite (H O a) by (auto; lia). simpl. apply le_n_S. apply IH; [lia|].
  intros i x Hi E. apply (H (S i) x); auto; lia.
Qed.
Lemma filter_rev_len {A} (p : A -> bool) (w : list A) : length (filter p (rev w)) = length (filter p w).
Proof.
  assert (Q : forall u v : list A, filter p (u ++ v) = filter p u ++ filter p v).
  { intros u v. induction u as [|a u IH]; simpl; auto. rewrite IH. destruct (p a); reflexivity. }
  induction w as [|a t IH]; simpl; auto. rewrite Q, app_length, IH. simpl. destruct (p a); simpl; lia.
Qed.
Lemma filter_perm_len {A} (p : A -> bool) (v w : list A) : Permutation v w -> length (filter p v) = length (filter p w).
Proof. induction 1; simpl; auto; try congruence; destruct (p x); try destruct (p y); simpl; auto. Qed.
Lemma nth_rev {A} (w : list A) i : (i < length w)%nat -> nth_error (rev w) i = nth_error w (length w - 1 - i).
Proof.
  intros Hi. destruct w as [|d t] eqn:Ew; [simpl in Hi; lia|]. rewrite <- Ew in *.
  rewrite (nth_error_nth' (rev w) d) by (rewrite rev_length; lia).
  rewrite (nth_error_nth' w d) by lia. rewrite rev_nth by auto. do 2 f_equal. lia.
Qed.

Lemma getZ_at {A} (w : list A) i : (0 <= i)%Z -> (i < Z.of_nat (length w))%Z ->
  exists x, getZ w i = Ok x /\ nth_error w (Z.to_nat i) = Some x.
Proof.
  intros H0 H1. destruct (nth_error w (Z.to_nat i)) as [x|] eqn:E.
  - exists x. split; auto. unfold getZ. destruct (Z.ltb_spec i 0); [lia|]. apply get_Ok_iff. exact E.
  - apply nth_error_None in E. lia.
Qed.

Lemma CI_ok m qsort v : sorts qsort -> no_nan v -> (1 <= Z.of_nat (length v) < 2 ^ 31)%Z ->
  exists lo hi, ConfidenceInterval (NumF m) qsort v = Ok (lo, hi, qsort v) /\
    In lo v /\ In hi v /\ f_leb lo hi = true /\
    (10000 * count (fun x => f_ltb x lo) v <= 1585 * Z.of_nat (length v))%Z /\
    (10000 * count (fun x => f_ltb hi x) v <= 1585 * Z.of_nat (length v))%Z /\
    (1585 * Z.of_nat (length v) - 5001 <= 10000 * count (fun x => f_leb x lo) v)%Z /\
    (1585 * Z.of_nat (length v) - 5001 <= 10000 * count (fun x => f_leb hi x) v)%Z.
Proof.
  intros Hs Hv Hn. destruct (Hs v Hv) as [P S]. set (w := qsort v) in *.
  pose proof (Permutation_length P) as Len.
  assert (Hw : no_nan w). { apply Forall_forall. intros x Hx. unfold no_nan in Hv. rewrite Forall_forall in Hv. apply Hv. now apply (Permutation_in _ (Permutation_sym P)). }
  assert (Nn : forall i x, nth_error w i = Some x -> is_nan x = false).
  { intros i x E. apply nth_error_In in E. unfold no_nan in Hw. rewrite Forall_forall in Hw. auto. }
  destruct (@ci_indices_ok m _ Hn) as (l & u & E & L0 & LU & UN & C1 & C2 & C3 & C4).
  unfold ConfidenceInterval. rewrite E. cbn [bind]. fold w.
  destruct (@getZ_at _ w l) as (lo & El & Nl); try lia. destruct (@getZ_at _ w u) as (hi & Eu & Nu); try lia.
  rewrite El, Eu. cbn [bind]. exists lo, hi. split; [reflexivity|].
  split; [apply (Permutation_in _ (Permutation_sym P)); eapply nth_error_In; eauto|].
  split; [apply (Permutation_in _ (Permutation_sym P)); eapply nth_error_In; eauto|].
  split; [apply (S (Z.to_nat l) (Z.to_nat u)); auto; lia|].
  unfold count. rewrite !(filter_perm_len _ P).
  assert (A1 : (length (filter (fun x => f_ltb x lo) w) <= Z.to_nat l)%nat).
  { apply filter_none_above. intros i x Hi Ex. rewrite f_ltb_leb by eauto. rewrite (S (Z.to_nat l) i lo x); auto. }
  assert (A2 : (length (filter (fun x => f_ltb hi x) w) <= Z.to_nat (Z.of_nat (length w) - 1 - u))%nat).
  { rewrite <- filter_rev_len. apply filter_none_above. intros i x Hi Ex.
    assert (Hl : (i < length w)%nat) by (rewrite <- (rev_length w); apply nth_error_Some; congruence).
    rewrite nth_rev in Ex by auto. rewrite f_ltb_leb by eauto.
    rewrite (S (length w - 1 - i)%nat (Z.to_nat u) x hi); auto; lia. }
  assert (A3 : (Z.to_nat (l + 1) <= length (filter (fun x => f_leb x lo) w))%nat).
  { apply filter_all_below; [lia|]. intros i x Hi Ex. apply (S i (Z.to_nat l)); auto. lia. }
  assert (A4 : (Z.to_nat (Z.of_nat (length w) - u) <= length (filter (fun x => f_leb hi x) w))%nat).
  { rewrite <- filter_rev_len. apply filter_all_below; [rewrite rev_length; lia|]. intros i x Hi Ex.
    rewrite nth_rev in Ex by lia. apply (S (Z.to_nat u) (length w - 1 - i)%nat); auto. lia. }
  lia.
Qed.

(** ---- mean and standard deviation ---- *)
Lemma fold_plus_sq (m : R) v : forall a,
  fold_left (fun sum x => sum + (x - m) * (x - m)) v a = a + rsuml (map (fun x => (x - m) ^ 2) v).
Proof.
  induction v as [|x t IH]; intros a; simpl; [unfold rsuml; simpl; ring|]. rewrite IH. unfold rsuml. simpl. ring.
Qed.
Lemma Mean_exact v : Mean NumR v = average v.
Proof.
  unfold Mean, average, total, size. cbn [nadd ndiv nofZ NumR].
  change (fun sum x : R => sum + x) with Rplus. rewrite fold_left_rsuml, Rplus_0_l, INR_IZR_INZ. reflexivity.
Qed.
Lemma sq_sum_nonneg m v : 0 <= rsuml (map (fun x => (x - m) ^ 2) v).
Proof. induction v as [|x t IH]; unfold rsuml in *; simpl in *; [lra|]. pose proof (pow2_ge_0 (x - m)); simpl in *; lra. Qed.
Lemma SD_exact v : StandardDeviation NumR v = sample_sd v.
Proof.
  unfold StandardDeviation. cbn [nadd nsub nmul ndiv nofZ nleb nsqrt NumR].
  replace (fold_left (fun mean x : R => mean + x) v 0 / IZR (Z.of_nat (length v))) with (average v)
    by (rewrite <- Mean_exact; reflexivity).
  rewrite fold_plus_sq, Rplus_0_l. unfold sample_sd, size.
  destruct (Rleb 0 _) eqn:E; [|apply Rleb_false in E; pose proof (sq_sum_nonneg (average v) v); lra].
  rewrite minus_IZR, <- INR_IZR_INZ. reflexivity.
Qed.
Lemma average_affine v a b : v <> nil -> average (map (fun x => a * x + b) v) = a * average v + b.
Proof.
  intros Hv. unfold average, size, total. rewrite map_length.
  assert (E : rsuml (map (fun x => a * x + b) v) = a * rsuml v + INR (length v) * b).
  { clear Hv. induction v as [|x t IH]; [unfold rsuml; simpl; ring|]. cbn [map length]. rewrite S_INR. unfold rsuml in *. simpl. rewrite IH. ring. }
  rewrite E. assert (0 < INR (length v)) by (apply lt_0_INR; destruct v; [congruence|simpl; lia]). field. lra.
Qed.
Lemma sd_affine v a b : (2 <= length v)%nat -> sample_sd (map (fun x => a * x + b) v) = Rabs a * sample_sd v.
Proof.
  intros Hv. assert (Hn : v <> nil) by (destruct v; [simpl in Hv; lia|discriminate]).
  unfold sample_sd. rewrite average_affine by auto. unfold size. rewrite map_length, map_map.
  rewrite (map_ext _ (fun x => a ^ 2 * (x - average v) ^ 2)) by (intros; ring).
  assert (E : forall (f : R -> R) u, rsuml (map (fun x => a ^ 2 * f x) u) = a ^ 2 * rsuml (map f u)).
  { intros f u. induction u as [|x t IH]; unfold rsuml in *; simpl in *; [ring|]. rewrite IH. ring. }
  rewrite (E (fun x => (x - average v) ^ 2)).
  assert (P : 0 < INR (length v) - 1) by (pose proof (le_INR 2 _ Hv) as Q; simpl in Q; lra).
  unfold Rdiv. rewrite Rmult_assoc, sqrt_mult.
  - f_equal. rewrite <- Rsqr_pow2. apply sqrt_Rsqr_abs.
  - apply pow2_ge_0.
  - apply Rmult_le_pos; [apply sq_sum_nonneg|]. left. now apply Rinv_0_lt_compat.
Qed.

(** a sorting function, to show that [sorts] can be met *)
Fixpoint insert_ (x : F64) (l : list F64) : list F64 :=
  match l with nil => x :: nil | y :: t => if f_leb x y then x :: l else y :: insert_ x t end.
Definition isort (l : list F64) : list F64 := fold_right insert_ nil l.

Fixpoint sortedF (l : list F64) : Prop :=
  match l with nil => True | x :: t => Forall (fun y => f_leb x y = true) t /\ sortedF t end.

Lemma insert_perm x l : Permutation (x :: l) (insert_ x l).
Proof.
  induction l as [|y t IH]; simpl; auto. destruct (f_leb x y); auto.
  eapply perm_trans; [apply perm_swap|]. now constructor.
Qed.
Lemma insert_sorted x l : is_nan x = false -> no_nan l -> sortedF l -> sortedF (insert_ x l).
Proof.
  intros Hx. induction l as [|y t IH]; intros Hn Hs; simpl in *; [split; auto|].
  inversion Hn as [|? ? Hy Ht]; subst. destruct Hs as [S1 S2].
  destruct (f_leb x y) eqn:E; simpl.
  - repeat split; auto. constructor; auto. eapply Forall_impl; [|exact S1]. intros z Hz. eapply f_leb_trans; eauto.
  - split; [|now apply IH]. assert (Eyx : f_leb y x = true) by (destruct (@f_leb_total x y Hx Hy); congruence).
    apply (Permutation_Forall (insert_perm x t)). constructor; auto.
Qed.
Lemma isort_perm v : Permutation v (isort v).
Proof. induction v as [|x t IH]; simpl; auto. eapply perm_trans; [|apply insert_perm]. now constructor. Qed.
Lemma isort_sorted v : no_nan v -> sortedF (isort v).
Proof.
  induction v as [|x t IH]; intros H; simpl; auto. inversion H; subst. apply insert_sorted; auto.
  apply (Permutation_Forall (isort_perm t)). auto.
Qed.
Lemma isort_sorts : sorts isort.
Proof.
  intros v Hv. split; [apply isort_perm|]. intros i j x y Hij Ei Ej.
  assert (N : no_nan (isort v)) by (apply (Permutation_Forall (isort_perm v)); auto).
  pose proof (isort_sorted Hv) as S. revert i j Hij Ei Ej. induction (isort v) as [|z t IH]; intros i j Hij Ei Ej.
  - destruct i; discriminate.
  - destruct S as [S1 S2]. inversion N as [|? ? Nz Nt]; subst. destruct i as [|i]; destruct j as [|j]; simpl in *; try lia.
    + assert (z = x) by congruence. assert (z = y) by congruence. subst. now apply f_leb_refl.
    + assert (z = x) by congruence. subst. rewrite Forall_forall in S1. apply S1. eapply nth_error_In; eauto.
    + apply (IH Nt S2 i j); auto. lia.
Qed.
