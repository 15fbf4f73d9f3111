(** Differential evolution in binary64: fixed parameters, energies, indices. *)
From Coq Require Import ZArith List Bool Lia Reals Lra.
From Flocq Require Import Core.Core IEEE754.BinarySingleNaN.
From Verif Require Import Base Num FloatFacts MT_Model MT_Proof MT_FloatProof DE_Model DE_Spec DE_Proof DE_RealProof DE_Safe.
Import ListNotations.
Set Implicit Arguments. Unset Strict Implicit.
Local Open Scope R_scope.

(** ---- NaN-freeness ---- *)
Lemma nn_add (x y : F64) : is_finite x = true -> is_nan y = false -> is_nan (f_add x y) = false.
Proof.
  intros Fx Ny. destruct (is_finite y) eqn:Fy.
  - pose proof (Bplus_correct 53 1024 Hprec Hmax mode_NE x y Fx Fy) as C. unfold f_add. destruct (Rlt_bool _ _).
    + destruct C as (_ & C & _). destruct (Bplus mode_NE x y); try discriminate; reflexivity.
    + destruct C as (C & _). rewrite <- is_nan_SF_B2SF, C. apply is_nan_binary_overflow.
  - destruct y as [s|s| |s mm e B]; try discriminate. destruct x as [[]|[]| |[] ? ? ?]; try discriminate; destruct s; reflexivity.
Qed.
Lemma nn_add' (x y : F64) : is_nan x = false -> is_finite y = true -> is_nan (f_add x y) = false.
Proof.
  intros Nx Fy. destruct (is_finite x) eqn:Fx.
  - apply nn_add; auto. destruct y; try discriminate; reflexivity.
  - destruct x as [s|s| |s mm e B]; try discriminate. destruct y as [[]|[]| |[] ? ? ?]; try discriminate; destruct s; reflexivity.
Qed.
Lemma nn_mul (x y : F64) : is_finite x = true -> B2R x <> 0 -> is_nan y = false -> is_nan (f_mul x y) = false.
Proof.
  intros Fx Zx Ny. destruct (is_finite y) eqn:Fy.
  - pose proof (Bmult_correct 53 1024 Hprec Hmax mode_NE x y) as C. unfold f_mul. destruct (Rlt_bool _ _).
    + destruct C as (_ & C & _). rewrite Fx, Fy in C. destruct (Bmult mode_NE x y); try discriminate; reflexivity.
    + rewrite <- is_nan_SF_B2SF, C. apply is_nan_binary_overflow.
  - destruct y as [s|s| |s mm e B]; try discriminate. destruct x as [[]|[]| |[] ? ? ?]; try discriminate; try (cbn in Zx; congruence); destruct s; reflexivity.
Qed.
Lemma isf_nn x r : isf x r -> is_nan x = false.
Proof. intros (F & _). destruct x; try discriminate; reflexivity. Qed.
Lemma fin_fmt (x : F64) : fmt (B2R x). Proof. apply fmt_B2R. Qed.
Lemma fin_big (x : F64) : Rabs (B2R x) < big. Proof. apply abs_B2R_lt_emax. Qed.
Lemma isf_fmt x r : isf x r -> fmt r /\ Rabs r < big.
Proof. intros (_ & <-). split; [apply fin_fmt|apply fin_big]. Qed.
Lemma zero_big : Rabs (rnd 0) < big. Proof. rewrite rnd_0, Rabs_R0. apply big_pos. Qed.
Lemma isf_exact x a r : isf x (rnd a) -> a = r -> fmt r -> isf x r.
Proof. intros H -> F. now rewrite rnd_exact in H. Qed.
Lemma ok_exact a r : a = r -> fmt r -> Rabs r < big -> Rabs (rnd a) < big.
Proof. intros -> F H. now rewrite rnd_exact. Qed.
Lemma isf_sub_same x y r : isf x r -> isf y r -> isf (f_sub x y) 0.
Proof.
  intros A B. assert (E : r - r = 0) by ring. apply (isf_exact (a := r - r)); auto using fmt_0. apply isf_sub; auto. rewrite E. apply zero_big.
Qed.
Lemma isf_mul_0 x y r : isf x r -> isf y 0 -> isf (f_mul x y) 0.
Proof.
  intros A B. assert (E : r * 0 = 0) by ring. apply (isf_exact (a := r * 0)); auto using fmt_0. apply isf_mul; auto. rewrite E. apply zero_big.
Qed.
Lemma isf_add_0 x y r : isf x r -> isf y 0 -> isf (f_add x y) r.
Proof.
  intros A B. destruct (isf_fmt A) as (F & G). assert (E : r + 0 = r) by ring. apply (isf_exact (a := r + 0)); auto.
  apply isf_add; auto. now apply ok_exact with r.
Qed.
Lemma isf_sub_0 x y r : isf x r -> isf y 0 -> isf (f_sub x y) r.
Proof.
  intros A B. destruct (isf_fmt A) as (F & G). assert (E : r - 0 = r) by ring. apply (isf_exact (a := r - 0)); auto.
  apply isf_sub; auto. now apply ok_exact with r.
Qed.
Lemma isf_0_add x y r : isf x 0 -> isf y r -> isf (f_add x y) r.
Proof.
  intros A B. destruct (isf_fmt B) as (F & G). assert (E : 0 + r = r) by ring. apply (isf_exact (a := 0 + r)); auto.
  apply isf_add; auto. now apply ok_exact with r.
Qed.
Lemma isf_0_sub x y r : isf x 0 -> isf y r -> isf (f_sub x y) (- r).
Proof.
  intros A B. destruct (isf_fmt B) as (F & G). apply fmt_opp in F. assert (E : 0 - r = - r) by ring. apply (isf_exact (a := 0 - r)); auto.
  apply isf_sub; auto. apply ok_exact with (- r); auto. now rewrite Rabs_Ropp.
Qed.
Lemma isf_mul_1 x y r : isf x r -> isf y 1 -> isf (f_mul x y) r.
Proof.
  intros A B. destruct (isf_fmt A) as (F & G). assert (E : r * 1 = r) by ring. apply (isf_exact (a := r * 1)); auto.
  apply isf_mul; auto. now apply ok_exact with r.
Qed.
Lemma isf_i z : (Z.abs z <= 2 ^ 53)%Z -> isf (f_ofZ z) (IZR z). Proof. apply isf_ofZ. Qed.

(** ---- comparisons with energies ---- *)
Lemma f_ltb_key (x y : F64) : f_ltb x y = true <-> is_nan x = false /\ is_nan y = false /\ fkey x < fkey y.
Proof.
  split.
  - intros H. assert (Nx : is_nan x = false) by (destruct x as [[]|[]| |[] ? ? ?]; auto; discriminate).
    assert (Ny : is_nan y = false) by (destruct y as [[]|[]| |[] ? ? ?]; auto; destruct x as [[]|[]| |[] ? ? ?]; discriminate).
    split; auto. split; auto. rewrite f_ltb_leb, f_leb_key in H by auto. destruct (Rleb _ _) eqn:E; [discriminate|]. now apply Rleb_false.
  - intros (Nx & Ny & H). rewrite f_ltb_leb, f_leb_key by auto. apply Rleb_false in H. now rewrite H.
Qed.

Section Energy.
Variable m : Libm.
Variables (draw : nat -> F64) (energy : nat -> list F64 -> F64) (interrupted : nat -> bool) (shuffled : nat -> nat -> Z) (fuel : nat).
Variable c : config F64.
Lemma flt_trans a b d : nltb (NumF m) a b = true -> nltb (NumF m) b d = true -> nltb (NumF m) a d = true.
Proof. cbn [nltb NumF]. rewrite !f_ltb_key. intros (A & B & E) (_ & D & F). repeat split; auto. lra. Qed.
Lemma flt_cotrans a b d : nltb (NumF m) a b = true -> is_nan d = false -> nltb (NumF m) a d = true \/ nltb (NumF m) d b = true.
Proof. cbn [nltb NumF]. rewrite !f_ltb_key. intros (A & B & E) D. destruct (Rlt_dec (fkey a) (fkey d)); [left|right]; repeat split; auto. lra. Qed.
Lemma flt_irrefl a : nltb (NumF m) a a = false.
Proof. cbn [nltb NumF]. destruct (f_ltb a a) eqn:E; auto. apply f_ltb_key in E. destruct E as (_ & _ & E). lra. Qed.
Lemma flt_ord a b : nltb (NumF m) a b = true -> is_nan a = false.
Proof. cbn [nltb NumF]. rewrite f_ltb_key. tauto. Qed.
Lemma big_ord : is_nan (BIG (NumF m)) = false.
Proof. vm_compute. reflexivity. Qed.
Lemma float_step cand s s' : candidate_step (NumF m) draw energy fuel c cand s = Ok s' ->
  f_ltb (bestEnergy s) (bestEnergy s') = false /\ exists v e, calls s' = (v, e) :: calls s.
Proof.
  intros E. destruct (@estep F64 (NumF m) draw energy fuel c (fun x => is_nan x = false) flt_trans flt_cotrans flt_irrefl flt_ord cand s s' E) as (A & B & _). auto.
Qed.
Lemma float_einv useLHS k s mg r : Setup (NumF m) draw shuffled c useLHS k = Ok s ->
  Solve (NumF m) draw energy interrupted fuel c mg s = Ok r -> einv (NumF m) energy c (fun x => is_nan x = false) (snd r).
Proof. exact (@esolve F64 (NumF m) draw energy interrupted shuffled fuel c (fun x => is_nan x = false) flt_trans flt_cotrans flt_irrefl flt_ord big_ord useLHS k s mg r). Qed.
End Energy.

(** ---- index draws ---- *)
Lemma scaled_index m x u n : isf x u -> 0 <= u <= 1 - / IZR (2 ^ 32) -> (1 <= n < 2 ^ 31)%Z ->
  exists k, ntrunc (NumF m) (f_add (f_ofZ 0) (f_mul x (f_sub (f_ofZ n) (f_ofZ 0)))) = Some k /\ (0 <= k < n)%Z.
Proof.
  intros Iu U Hn.
  assert (I0 : isf (f_ofZ 0) 0) by (apply isf_i; lia).
  assert (In : isf (f_sub (f_ofZ n) (f_ofZ 0)) (IZR n)) by (apply isf_sub_0; auto; apply isf_i; lia).
  assert (N1 : 1 <= IZR n) by (apply IZR_le; lia).
  assert (Pn : 0 <= u * IZR n) by (apply Rmult_le_pos; lra).
  assert (Pl : u * IZR n <= IZR n).
  { rewrite <- (Rmult_1_l (IZR n)) at 2. apply Rmult_le_compat_r; [lra|].
    assert (0 < / IZR (2 ^ 32)) by (apply Rinv_0_lt_compat, IZR_lt; lia). lra. }
  set (k := (Z.log2 n + 1)%Z).
  assert (K : (2 ^ (k - 1) <= n < 2 ^ k)%Z) by (unfold k; replace (Z.log2 n + 1 - 1)%Z with (Z.log2 n) by lia; apply Z.log2_spec; lia).
  assert (K1 : (1 <= k <= 31)%Z).
  { unfold k. pose proof (Z.log2_nonneg n). split; [lia|]. assert (Z.log2 n < 31)%Z by (apply Z.log2_lt_pow2; lia). lia. }
  set (b := IZR (n * 2 ^ (53 - k) - 1) * bpow radix2 (k - 53)).
  assert (PW : (2 ^ k * 2 ^ (53 - k) = 2 ^ 53)%Z) by (rewrite <- Z.pow_add_r by lia; f_equal; lia).
  assert (P0 : (0 < 2 ^ (53 - k))%Z) by (apply Z.pow_pos_nonneg; lia).
  assert (Fb : fmt b) by (apply fmt_dyadic; [nia|lia]).
  assert (Eb : b = IZR n - bpow radix2 (k - 53)).
  { unfold b. rewrite minus_IZR, mult_IZR. rewrite Rmult_minus_distr_r, Rmult_1_l.
    rewrite <- (bpow_IZR (53 - k)) by lia. rewrite Rmult_assoc, <- bpow_plus. replace (53 - k + (k - 53))%Z with 0%Z by lia. cbn [bpow]. now rewrite Rmult_1_r. }
  assert (Ub : u * IZR n <= b).
  { rewrite Eb. apply Rle_trans with ((1 - / IZR (2 ^ 32)) * IZR n); [apply Rmult_le_compat_r; lra|].
    rewrite Rmult_minus_distr_r, Rmult_1_l. apply Rplus_le_compat_l, Ropp_le_contravar.
    change (/ IZR (2 ^ 32)) with (bpow radix2 (-32)).
    apply Rle_trans with (bpow radix2 (-32) * bpow radix2 (k - 1)).
    - rewrite <- bpow_plus. apply bpow_le. lia.
    - apply Rmult_le_compat_l; [apply bpow_ge_0|]. rewrite bpow_IZR by lia. apply IZR_le. lia. }
  assert (Ip : isf (f_add (f_ofZ 0) (f_mul x (f_sub (f_ofZ n) (f_ofZ 0)))) (rnd (u * IZR n))).
  { apply isf_0_add; auto. apply isf_mul; auto. apply no_overflow with (IZR n); [apply fmt_Z; lia|rewrite Rabs_pos_eq; auto|].
    unfold big. apply Rlt_le_trans with (IZR (2 ^ 31)); [apply IZR_lt; lia|]. rewrite <- bpow_IZR by lia. apply bpow_le. lia. }
  assert (R0 : 0 <= rnd (u * IZR n)) by (apply rnd_ge_fmt; [apply fmt_0|auto]).
  assert (R1 : rnd (u * IZR n) <= b) by (apply rnd_le_fmt; auto).
  destruct Ip as (Fp & Vp). cbn [ntrunc NumF]. unfold f_trunc. rewrite Fp. eexists. split; [reflexivity|].
  match goal with |- (_ <= Btrunc ?t < _)%Z => assert (BT : IZR (Btrunc t) = IZR (Ztrunc (rnd (u * IZR n)))) end.
  { rewrite Btrunc_correct by exact Hmax. rewrite round_FIX0. now rewrite Vp. }
  apply eq_IZR in BT. rewrite BT. rewrite Ztrunc_floor by auto. split.
  - apply Zfloor_lub. exact R0.
  - apply lt_IZR. apply Rle_lt_trans with (rnd (u * IZR n)); [apply Zfloor_lb|].
    eapply Rle_lt_trans; [exact R1|]. rewrite Eb. assert (0 < bpow radix2 (k - 53)) by apply bpow_gt_0. lra.
Qed.

Lemma real1_below m y : (0 <= y < 2 ^ 32 - 1)%Z -> exists u, isf (real1 (NumF m) y) u /\ 0 <= u <= 1 - / IZR (2 ^ 32).
Proof.
  intros Hy. unfold real1. cbn [nmul ndiv nofZ NumF].
  assert (E32 : / IZR (2 ^ 32) = bpow radix2 (-32)) by reflexivity.
  assert (F1 : fmt (1 - / IZR (2 ^ 32))).
  { replace (1 - / IZR (2 ^ 32)) with (IZR (2 ^ 32 - 1) * bpow radix2 (-32)); [apply fmt_dyadic; lia|].
    rewrite minus_IZR, Rmult_minus_distr_r, Rmult_1_l, <- E32, Rinv_r by (apply IZR_neq; lia). reflexivity. }
  set (p := IZR y * (IZR (2 ^ 32 + 1) * bpow radix2 (-64))).
  assert (P : 0 <= p <= 1 - / IZR (2 ^ 32)).
  { unfold p. rewrite bm64. split.
    - apply Rmult_le_pos; [apply IZR_le; lia|]. apply Rmult_le_pos; [apply IZR_le; lia|]. left. apply Rinv_0_lt_compat. apply IZR_lt. lia.
    - apply Rmult_le_reg_r with (IZR (2 ^ 64)); [apply IZR_lt; lia|].
      replace (IZR y * (IZR (2 ^ 32 + 1) * / IZR (2 ^ 64)) * IZR (2 ^ 64)) with (IZR y * IZR (2 ^ 32 + 1) * (/ IZR (2 ^ 64) * IZR (2 ^ 64))) by ring.
      rewrite Rinv_l, Rmult_1_r by (apply IZR_neq; lia).
      replace ((1 - / IZR (2 ^ 32)) * IZR (2 ^ 64)) with (IZR (2 ^ 64 - 2 ^ 32)).
      + rewrite <- mult_IZR. apply IZR_le. lia.
      + rewrite minus_IZR. replace (IZR (2 ^ 64)) with (IZR (2 ^ 32) * IZR (2 ^ 32)) by (rewrite <- mult_IZR; f_equal).
        rewrite Rmult_minus_distr_r, Rmult_1_l, <- Rmult_assoc, Rinv_l by (apply IZR_neq; lia). ring. }
  exists (rnd p). split.
  - apply isf_mul; [apply isf_i; lia|apply c1_isf|].
    apply no_overflow with 1; [apply (fmt_Z 1); lia| |].
    + rewrite Rabs_pos_eq by apply P. assert (0 < / IZR (2 ^ 32)) by (apply Rinv_0_lt_compat, IZR_lt; lia). fold p. lra.
    + unfold big. change 1 with (bpow radix2 0). apply bpow_lt. lia.
  - split; [apply rnd_ge_fmt; [apply fmt_0|apply P]|apply rnd_le_fmt; [exact F1|apply P]].
Qed.

Lemma index_draw m w n k : (forall k, 0 <= w k < 2 ^ 32 - 1)%Z -> (1 <= n)%nat -> (Z.of_nat n < 2 ^ 31)%Z ->
  exists z, rand_int (NumF m) (fun k => real1 (NumF m) (w k)) n k = Ok (z, S k) /\ (0 <= z < Z.of_nat n)%Z.
Proof.
  intros W H1 H2. destruct (real1_below m (W k)) as (u & Iu & U).
  destruct (@scaled_index m _ u (Z.of_nat n) Iu U ltac:(lia)) as (z & E & B).
  exists z. split; [|exact B]. unfold rand_int, RandomUniform. cbn [nadd nmul nsub nofZ NumF]. now rewrite E.
Qed.

(** ---- fixed parameters ---- *)
Section Fixed.
Variable m : Libm.
Notation N := (NumF m).
Variables (draw : nat -> F64) (energy : nat -> list F64 -> F64) (interrupted : nat -> bool) (shuffled : nat -> nat -> Z) (fuel : nat).
Hypothesis draw01 : forall k, exists r, isf (draw k) r /\ 0 <= r <= 1.

Lemma uni01 k : exists r, isf (fst (RandomUniform N draw (f_ofZ 0) (f_ofZ 1) k)) r.
Proof.
  destruct (draw01 k) as (r & Ir & _). exists r. unfold RandomUniform. cbn [fst nadd nmul nsub NumF].
  assert (I0 : isf (f_ofZ 0) 0) by (apply isf_i; lia). assert (I1 : isf (f_ofZ 1) 1) by (apply isf_i; lia).
  apply isf_0_add; auto. apply isf_mul_1; [exact Ir|]. apply isf_sub_0; [exact I1|exact I0].
Qed.
Lemma uniform_pt x y p k : isf x p -> isf y p -> isf (fst (RandomUniform N draw x y k)) p.
Proof.
  intros A B. destruct (draw01 k) as (r & Ir & _). unfold RandomUniform. cbn [fst nadd nmul nsub NumF].
  apply isf_add_0; auto. apply isf_mul_0 with r; auto. now apply isf_sub_same with p.
Qed.
Lemma back_pt lo hi old t p k : isf lo p -> isf hi p -> isf old p -> is_nan t = false -> isf (fst (bring_back N draw lo hi old t k)) p.
Proof.
  intros A B O T. unfold bring_back. cbn [nltb NumF].
  assert (X : forall t k, isf t p -> isf (fst (if f_ltb hi t then let '(u, k') := RandomUniform N draw (nofZ N 0) (nofZ N 1) k in (nsub N hi (nmul N u (nsub N hi old)), k') else (t, k))) p).
  { intros t0 k0 It. rewrite (isf_ltb _ _ _ _ B It). unfold Rltb. destruct (Rlt_dec p p); [lra|]. exact It. }
  destruct (f_ltb t lo) eqn:E1.
  - destruct (uni01 k) as (r & Ir). cbn [nofZ NumF]. destruct (RandomUniform N draw (f_ofZ 0) (f_ofZ 1) k) as (u, k'). cbn [fst] in Ir.
    apply X. cbn [nadd nmul nsub NumF]. apply isf_add_0; auto. apply isf_mul_0 with r; auto. now apply isf_sub_same with p.
  - destruct (f_ltb hi t) eqn:E2.
    + destruct (uni01 k) as (r & Ir). cbn [nofZ NumF]. destruct (RandomUniform N draw (f_ofZ 0) (f_ofZ 1) k) as (u, k'). cbn [fst] in Ir |- *.
      cbn [nadd nmul nsub NumF]. apply isf_sub_0; auto. apply isf_mul_0 with r; auto. now apply isf_sub_same with p.
    + cbn [fst].
      assert (K : fkey t = p).
      { assert (KL : fkey lo = p) by (destruct A as (FA & <-); destruct lo; try discriminate; reflexivity).
        assert (KH : fkey hi = p) by (destruct B as (FB & <-); destruct hi; try discriminate; reflexivity).
        assert (~ fkey t < fkey lo). { intros C. assert (f_ltb t lo = true) by (apply f_ltb_key; repeat split; auto; eapply isf_nn; eauto). congruence. }
        assert (~ fkey hi < fkey t). { intros C. assert (f_ltb hi t = true) by (apply f_ltb_key; repeat split; auto; eapply isf_nn; eauto). congruence. }
        lra. }
      destruct (isf_fmt A) as (_ & PB). pose proof big_pos.
      destruct t as [s|s| |s mm e Bd]; try discriminate; cbn [fkey] in K; try (split; [reflexivity|exact K]).
      exfalso. destruct s; subst p; revert PB; unfold Rabs; destruct (Rcase_abs _); lra.
Qed.
Lemma lhs_pt lo hi sh P p k : isf lo p -> isf hi p -> (0 <= sh < P)%Z -> (P < 2 ^ 31)%Z ->
  isf (f_add lo (f_mul (f_add (f_ofZ sh) (draw k)) (f_div (f_sub hi lo) (f_ofZ P)))) p.
Proof.
  intros A B Hs HP. destruct (draw01 k) as (r & Ir & R).
  assert (Is : isf (f_ofZ sh) (IZR sh)) by (apply isf_i; lia). assert (IP : isf (f_ofZ P) (IZR P)) by (apply isf_i; lia).
  assert (S0 : 0 <= IZR sh <= IZR (2 ^ 31)) by (split; apply IZR_le; lia).
  assert (P0 : IZR P <> 0) by (apply IZR_neq; lia).
  assert (Id : isf (f_div (f_sub hi lo) (f_ofZ P)) 0).
  { rewrite <- rnd_0. replace 0 with (0 / IZR P) by (field; auto). apply isf_div; auto; [now apply isf_sub_same with p|].
    replace (0 / IZR P) with 0 by (field; auto). apply zero_big. }
  apply isf_add_0; auto. apply isf_mul_0 with (rnd (IZR sh + r)); auto. apply isf_add; auto.
  apply no_overflow with (IZR (2 ^ 32)); [apply fmt_Z; lia| |].
  - rewrite Rabs_pos_eq by lra. assert (IZR (2 ^ 31) + 1 <= IZR (2 ^ 32)) by (rewrite <- plus_IZR; apply IZR_le; lia). lra.
  - unfold big. rewrite <- bpow_IZR by lia. apply bpow_lt. lia.
Qed.
Lemma mutant_pt s b t a1 a2 p : is_finite s = true -> B2R s <> 0 -> isf b p \/ isf b 0 -> isf t p -> isf a1 p -> isf a2 p ->
  is_nan (f_add t (f_add (f_mul s (f_sub b t)) (f_mul s (f_sub a1 a2)))) = false.
Proof.
  intros Fs Zs Hb It I1 I2. apply nn_add; [apply It|]. apply nn_add'.
  - apply nn_mul; auto. destruct Hb as [Hb|Hb].
    + apply isf_nn with 0. now apply isf_sub_same with p.
    + apply isf_nn with (- p). now apply isf_0_sub.
  - apply (@isf_mul_0 s (f_sub a1 a2) (B2R s)); [now split|now apply isf_sub_same with p].
Qed.
Lemma scale_ok : is_finite (f_dec 7 1) = true /\ B2R (f_dec 7 1) <> 0.
Proof.
  split; [vm_compute; reflexivity|]. intros E. assert (C : f_eqb (f_dec 7 1) (f_ofZ 0) = true).
  { unfold f_eqb. rewrite Beqb_correct; [|vm_compute; reflexivity|vm_compute; reflexivity]. rewrite E. apply Req_bool_true. reflexivity. }
  assert (D : f_eqb (f_dec 7 1) (f_ofZ 0) = false) by (vm_compute; reflexivity). congruence.
Qed.

Lemma rand_nonneg n k z k' : (Z.of_nat n < 2 ^ 31)%Z -> rand_int N draw n k = Ok (z, k') -> (0 <= z)%Z.
Proof.
  intros Hn E. unfold rand_int, RandomUniform in E. cbn [nadd nmul nsub nofZ ntrunc NumF] in E.
  destruct (draw01 k) as (r & Ir & R).
  assert (I0 : isf (f_ofZ 0) 0) by (apply isf_i; lia).
  assert (In : isf (f_sub (f_ofZ (Z.of_nat n)) (f_ofZ 0)) (IZR (Z.of_nat n))) by (apply isf_sub_0; auto; apply isf_i; lia).
  assert (N0 : 0 <= IZR (Z.of_nat n)) by (apply IZR_le; lia).
  assert (P0 : 0 <= r * IZR (Z.of_nat n)) by (apply Rmult_le_pos; lra).
  assert (Ip : isf (f_add (f_ofZ 0) (f_mul (draw k) (f_sub (f_ofZ (Z.of_nat n)) (f_ofZ 0)))) (rnd (r * IZR (Z.of_nat n)))).
  { apply isf_0_add; auto. apply isf_mul; auto. apply no_overflow with (IZR (Z.of_nat n)); [apply fmt_Z; lia| |].
    - rewrite Rabs_pos_eq by auto. rewrite <- (Rmult_1_l (IZR (Z.of_nat n))) at 2. apply Rmult_le_compat_r; lra.
    - unfold big. apply Rlt_le_trans with (IZR (2 ^ 31)); [apply IZR_lt; lia|]. rewrite <- bpow_IZR by lia. apply bpow_le. lia. }
  destruct Ip as (Fp & Vp). unfold f_trunc in E. rewrite Fp in E. apply Ok_inj in E. apply (f_equal fst) in E. cbn [fst] in E. subst z.
  match goal with |- (_ <= Btrunc ?t)%Z => assert (BT : IZR (Btrunc t) = IZR (Ztrunc (rnd (r * IZR (Z.of_nat n))))) end.
  { rewrite Btrunc_correct by exact Hmax. rewrite round_FIX0. now rewrite Vp. }
  apply eq_IZR in BT. rewrite BT. assert (R0 : 0 <= rnd (r * IZR (Z.of_nat n))) by (apply rnd_ge_fmt; [apply fmt_0|auto]).
  rewrite Ztrunc_floor by auto. apply Zfloor_lub. exact R0.
Qed.

Variables (params : list F64) (lims : list (limits F64)).
Hypothesis same_len : length lims = length params.
Hypothesis size : (8 * Z.of_nat (length params) < 2 ^ 31)%Z.
Hypothesis shuffled_in : forall i j, (i < 8 * nFree lims)%nat -> (j < length params)%nat -> (0 <= shuffled j i < Z.of_nat (8 * nFree lims))%Z.
Hypothesis finite : forall p, In p params -> is_finite p = true.

Lemma fit_fixed ftol useLHS mg k status out s :
  DiffEvolnFit N draw energy interrupted shuffled fuel params lims ftol useLHS mg k = Ok (status, out, Some s) ->
  (forall v e, In (v, e) (calls s) -> keeps_fixed (fun x p => f_eqb x p = true) params lims v) /\
  ((exists v e, In (v, e) (calls s) /\ f_ltb e (f_ofZ (10 ^ 20)) = true) -> keeps_fixed (fun x p => f_eqb x p = true) params lims out).
Proof.
  intros E. unfold DiffEvolnFit in E. apply bind_Ok in E. destruct E as (((los, his), ok) & Eb & E).
  destruct (bounds_ok Eb) as (L1 & L2 & L3 & B & _). destruct ok; cbn [negb] in E; [|discriminate]. specialize (B eq_refl).
  cbv zeta in E. set (c := mkCfg _ _ _ _ _ _ _ _ _) in E.
  apply bind_Ok in E. destruct E as (s0 & E0 & E). apply bind_Ok in E. destruct E as (((st, g), s1) & E1 & E). injection E as <- <- ->.
  pose (isfix := fun j p => nth_error params j = Some p /\ exists l, nth_error lims j = Some l /\ fixed l = true).
  pose (Good := fun j x => forall p, isfix j p -> isf x (B2R p)).
  pose (Trial := fun j (x : F64) => forall p, isfix j p -> is_nan x = false).
  pose (Best := fun j x => forall p, isfix j p -> isf x (B2R p) \/ isf x 0).
  assert (BI : forall j p lo hi, isfix j p -> nth_error los j = Some lo -> nth_error his j = Some hi -> lo = p /\ hi = p).
  { intros j p lo hi (Ep & l & El & Ef) Elo Ehi. destruct (B j p l Ep El) as (A1 & A2 & _). rewrite Ef in A1, A2. split; congruence. }
  assert (FP : forall j p, isfix j p -> isf p (B2R p)).
  { intros j p (Ep & _). split; [|reflexivity]. apply finite. eapply nth_error_In; eauto. }
  assert (NF : (nFree lims <= length lims)%nat).
  { unfold nFree. clear. induction lims as [|l ls IH]; cbn [filter length]; [lia|]. destruct (negb (fixed l)); cbn [length]; lia. }
  assert (PS : (Z.of_nat (nPop c) < 2 ^ 31)%Z) by (change (nPop c) with (8 * nFree lims)%nat; lia).
  assert (DS : (Z.of_nat (nDim c) < 2 ^ 31)%Z) by (change (nDim c) with (length params); lia).
  assert (I : inv N c Good Best (snd (st, g, s))).
  { refine (@solve_ok F64 N draw energy interrupted shuffled fuel c Good Trial Best _ _ _ _ _ _ _ _ useLHS k s0 mg _ E0 E1).
    - intros j x _ G p Fp. exact (isf_nn (G p Fp)).
    - intros j _ p Fp. right. apply isf_i. lia.
    - intros j x _ G p Fp. left. exact (G p Fp).
    - intros pop best trial rs n v (Lp & HP) (Lb & HB) Lt Hn HT HR EM p Fp.
      unfold mutant in EM. change (mut c) with RandToBest1 in EM. cbv iota in EM.
      inv EM. rename x into t. inv EM. rename x into b. inv EM. rename x into a1. inv EM. rename x into a2.
      apply getZ_some in H, H0. destruct H as (_ & Ht). destruct H0 as (_ & Hb).
      assert (EL : forall i a, (do r <- get rs i; Element c pop r n) = Ok a -> isf a (B2R p)).
      { intros i a Ea. inv Ea. rename x into r. apply get_some, nth_error_In in H.
        rewrite Forall_forall in HR. specialize (HR r H). unfold Element in Ea. apply getZ_some in Ea. destruct Ea as (_ & Ea).
        assert (Lr : (Z.to_nat (r * Z.of_nat (nDim c) + n) < length pop)%nat) by (apply nth_error_Some; congruence).
        replace (Z.to_nat (r * Z.of_nat (nDim c) + n)) with (Z.to_nat r * nDim c + Z.to_nat n)%nat in Ea, Lr.
        2:{ rewrite Z2Nat.inj_add by nia. rewrite Z2Nat.inj_mul by lia. now rewrite Nat2Z.id. }
        apply (HP (Z.to_nat r) (Z.to_nat n)); auto; [|lia]. rewrite Lp in Lr. nia. }
      apply EL in H1, H2. apply Ok_inj in EM. subst v.
      destruct scale_ok as (S1 & S2). exact (@mutant_pt (f_dec 7 1) b t a1 a2 (B2R p) S1 S2 (HB _ _ Hb p Fp) (HT _ Ht p Fp) H1 H2).
    - intros j lo hi old t k0 Hj El Eh G Tt p Fp. destruct (BI j p lo hi Fp El Eh) as (-> & ->). apply back_pt; eauto.
    - intros j lo hi k0 Hj El Eh p Fp. destruct (BI j p lo hi Fp El Eh) as (-> & ->). apply uniform_pt; eauto.
    - intros i j lo hi k0 Hi Hj El Eh p Fp. destruct (BI j p lo hi Fp El Eh) as (-> & ->). cbn [nadd nmul nsub ndiv nofZ NumF]. apply lhs_pt; eauto.
    - intros n k0 z k' Hn Ez. eapply rand_nonneg; [|exact Ez]. destruct Hn as [-> | ->]; auto. }
  assert (J : einv N energy c (fun x => is_nan x = false) (snd (st, g, s))) by (eapply float_einv; [exact E0|exact E1]).
  cbn [snd] in I, J.
  assert (G : forall v, cols c Good v -> keeps_fixed (fun x p => f_eqb x p = true) params lims v).
  { intros v (Lv & Hv). split; [exact Lv|]. intros j p l x Ep El Ex Ef.
    assert (Fp : isfix j p) by (split; eauto). destruct (Hv j x Ex p Fp) as (F1 & V1). destruct (FP j p Fp) as (F2 & _).
    unfold f_eqb. rewrite Beqb_correct by auto. apply Req_bool_true. exact V1. }
  split.
  - intros v e Hv. apply G. exact (i_calls I Hv).
  - intros (v & e & Hv & He). apply G.
    destruct (e_sol J) as [(_ & Q)|Q]; [|exact (i_calls I Q)].
    pose proof (e_calls J Hv) as C. rewrite Q in C. change (nltb N e (BIG N)) with (f_ltb e (f_ofZ (10 ^ 20))) in C. rewrite He in C. discriminate.
Qed.
End Fixed.
