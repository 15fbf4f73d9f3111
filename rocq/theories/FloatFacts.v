(** Facts about binary64 arithmetic used by the IEEE theorems. *)
From Coq Require Import Reals ZArith Bool Lia Lra.
From Flocq Require Import Core.Core IEEE754.BinarySingleNaN.
From Verif Require Import Num.
Local Open Scope R_scope.

Definition fexp64 := SpecFloat.fexp 53 1024.
Definition rnd (x : R) : R := round radix2 fexp64 ZnearestE x.
Definition fmt (x : R) : Prop := generic_format radix2 fexp64 x.

(** the float [x] is finite and denotes the real number [r] *)
Definition isf (x : F64) (r : R) : Prop := is_finite x = true /\ B2R x = r.

#[export] Instance valid64 : Valid_exp fexp64.
Proof. apply (fexp_correct 53 1024). exact Hprec. Qed.

Lemma rnd_fmt x : fmt (rnd x).
Proof. apply generic_format_round; auto with typeclass_instances. Qed.
Lemma rnd_exact x : fmt x -> rnd x = x.
Proof. intros H. apply round_generic; auto with typeclass_instances. Qed.
Lemma rnd_le x y : x <= y -> rnd x <= rnd y.
Proof. intros H. apply round_le; auto with typeclass_instances. Qed.
Lemma fmt_B2R (x : F64) : fmt (B2R x).
Proof. apply generic_format_B2R. Qed.
Lemma rnd_0 : rnd 0 = 0.
Proof. apply round_0. auto with typeclass_instances. Qed.
Lemma fmt_0 : fmt 0.
Proof. apply generic_format_0. Qed.

(** rounding cannot cross a representable number *)
Lemma rnd_le_fmt x b : fmt b -> x <= b -> rnd x <= b.
Proof. intros Hb H. rewrite <- (rnd_exact b Hb). now apply rnd_le. Qed.
Lemma rnd_ge_fmt x b : fmt b -> b <= x -> b <= rnd x.
Proof. intros Hb H. rewrite <- (rnd_exact b Hb). now apply rnd_le. Qed.

Lemma fmt_dyadic m e : (Z.abs m < 2 ^ 53)%Z -> (-1074 <= e)%Z -> fmt (IZR m * bpow radix2 e).
Proof.
  intros Hm He. change (IZR m * bpow radix2 e) with (F2R (Float radix2 m e)).
  unfold fmt, fexp64. change (SpecFloat.fexp 53 1024) with (FLT_exp (-1074) 53).
  apply generic_format_FLT. exists (Float radix2 m e); auto.
Qed.
Lemma fmt_Z m : (Z.abs m <= 2 ^ 53)%Z -> fmt (IZR m).
Proof.
  intros Hm. destruct (Z.eq_dec (Z.abs m) (2 ^ 53)) as [E|Hne].
  - replace (IZR m) with (IZR (Z.sgn m) * bpow radix2 53).
    + apply fmt_dyadic; [|lia]. destruct m; simpl; lia.
    + rewrite <- (IZR_Zpower radix2) by lia. rewrite <- mult_IZR. f_equal. change (radix2 ^ 53)%Z with (2 ^ 53)%Z. rewrite <- E. rewrite Z.mul_comm. apply Z.abs_sgn.
  - replace (IZR m) with (IZR m * bpow radix2 0) by (simpl; ring). apply fmt_dyadic; lia.
Qed.
Lemma fmt_opp x : fmt x -> fmt (- x).
Proof. apply generic_format_opp. Qed.
Lemma fmt_bpow e : (-1074 <= e)%Z -> fmt (bpow radix2 e).
Proof. intros H. replace (bpow radix2 e) with (1 * bpow radix2 e) by ring. apply (fmt_dyadic 1); lia. Qed.

Definition big : R := bpow radix2 1024.

Lemma no_overflow r b : fmt b -> Rabs r <= b -> b < big -> Rabs (rnd r) < big.
Proof.
  intros Hb Hr Hlt. apply Rle_lt_trans with b; auto.
  apply Rabs_le. apply Rabs_def2_le in Hr || (apply Rabs_le_inv in Hr). destruct Hr as [H1 H2]. split.
  - apply rnd_ge_fmt; auto. now apply fmt_opp.
  - apply rnd_le_fmt; auto.
Qed.

Lemma isf_mul x y a b : isf x a -> isf y b -> Rabs (rnd (a * b)) < big -> isf (f_mul x y) (rnd (a * b)).
Proof.
  intros [Fx <-] [Fy <-] H. unfold f_mul, isf.
  pose proof (Bmult_correct 53 1024 Hprec Hmax mode_NE x y) as C.
  rewrite Rlt_bool_true in C by exact H. destruct C as (C1 & C2 & _). rewrite C2, Fx, Fy. auto.
Qed.
Lemma isf_add x y a b : isf x a -> isf y b -> Rabs (rnd (a + b)) < big -> isf (f_add x y) (rnd (a + b)).
Proof.
  intros [Fx <-] [Fy <-] H. unfold f_add, isf.
  pose proof (Bplus_correct 53 1024 Hprec Hmax mode_NE x y Fx Fy) as C.
  rewrite Rlt_bool_true in C by exact H. destruct C as (C1 & C2 & _). auto.
Qed.
Lemma isf_sub x y a b : isf x a -> isf y b -> Rabs (rnd (a - b)) < big -> isf (f_sub x y) (rnd (a - b)).
Proof.
  intros [Fx <-] [Fy <-] H. unfold f_sub, isf.
  pose proof (Bminus_correct 53 1024 Hprec Hmax mode_NE x y Fx Fy) as C.
  rewrite Rlt_bool_true in C by exact H. destruct C as (C1 & C2 & _). auto.
Qed.
Lemma isf_div x y a b : isf x a -> isf y b -> b <> 0 -> Rabs (rnd (a / b)) < big -> isf (f_div x y) (rnd (a / b)).
Proof.
  intros [Fx <-] [Fy <-] Hb H. unfold f_div, isf.
  pose proof (Bdiv_correct 53 1024 Hprec Hmax mode_NE x y Hb) as C.
  rewrite Rlt_bool_true in C by exact H. destruct C as (C1 & C2 & _). rewrite C2. auto.
Qed.
Lemma isf_sqrt x a : isf x a -> 0 <= a -> isf (f_sqrt x) (rnd (sqrt a)).
Proof.
  intros [Fx <-] Ha. unfold f_sqrt, isf.
  destruct (Bsqrt_correct 53 1024 Hprec Hmax mode_NE x) as (C1 & C2 & _).
  split; [|exact C1]. rewrite C2. destruct x as [s|s| |s m e H]; try discriminate; auto.
  destruct s; auto. exfalso. simpl in Ha. apply F2R_ge_0 in Ha || idtac.
  assert (F2R (Float radix2 (Z.neg m) e) < 0) by (apply F2R_lt_0; reflexivity). simpl in *. lra.
Qed.

Lemma isf_ofZ z : (Z.abs z <= 2 ^ 53)%Z -> isf (f_ofZ z) (IZR z).
Proof.
  intros Hz. unfold f_ofZ, isf.
  pose proof (binary_normalize_correct 53 1024 Hprec Hmax mode_NE z 0 false) as C. cbv zeta in C.
  assert (E : F2R (Float radix2 z 0) = IZR z) by (unfold F2R; simpl; ring).
  rewrite E in C. assert (R1 : rnd (IZR z) = IZR z) by (apply rnd_exact; now apply fmt_Z).
  unfold rnd, fexp64 in R1. simpl round_mode in C. rewrite R1 in C.
  rewrite Rlt_bool_true in C.
  - destruct C as (C1 & C2 & _). auto.
  - rewrite <- abs_IZR. apply Rle_lt_trans with (IZR (2 ^ 53)); [now apply IZR_le|].
    change (2 ^ 53)%Z with (radix2 ^ 53)%Z. rewrite IZR_Zpower by lia. apply bpow_lt. lia.
Qed.

Lemma isf_ltb x y a b : isf x a -> isf y b -> f_ltb x y = Rltb a b.
Proof.
  intros [Fx <-] [Fy <-]. unfold f_ltb. rewrite Bltb_correct by auto.
  destruct (Rlt_bool_spec (B2R x) (B2R y)) as [H|H]; symmetry; [now apply Rltb_true|now apply Rltb_false].
Qed.
Lemma isf_leb x y a b : isf x a -> isf y b -> f_leb x y = Rleb a b.
Proof.
  intros [Fx <-] [Fy <-]. unfold f_leb. rewrite Bleb_correct by auto.
  destruct (Rle_bool_spec (B2R x) (B2R y)) as [H|H]; symmetry; [now apply Rleb_true|now apply Rleb_false].
Qed.

(** the reader's notions of interval membership, for floats *)
Definition f_in (lo : F64) (x : F64) (hi : F64) : Prop := f_leb lo x = true /\ f_leb x hi = true.

Lemma bpow_IZR e : (0 <= e)%Z -> bpow radix2 e = IZR (2 ^ e).
Proof. intros H. now rewrite <- (IZR_Zpower radix2). Qed.

(** absolute rounding error *)
Lemma rnd_err k x : (-1000 <= k)%Z -> Rabs x <= bpow radix2 k -> Rabs (rnd x - x) <= bpow radix2 (k - 53).
Proof.
  intros Hk Hx. eapply Rle_trans; [apply error_le_half_ulp; auto with typeclass_instances|].
  assert (U : ulp radix2 fexp64 x <= bpow radix2 (k + 1 - 53)).
  { replace (bpow radix2 (k + 1 - 53)) with (ulp radix2 fexp64 (bpow radix2 k)).
    - apply ulp_le; auto with typeclass_instances.
      + unfold fexp64. change (SpecFloat.fexp 53 1024) with (FLT_exp (-1074) 53). apply FLT_exp_monotone.
      + rewrite (Rabs_pos_eq (bpow radix2 k)); auto. apply bpow_ge_0.
    - rewrite ulp_bpow. f_equal. unfold fexp64. change (SpecFloat.fexp 53 1024) with (FLT_exp (-1074) 53).
      unfold FLT_exp. lia. }
  replace (k + 1 - 53)%Z with (k - 53 + 1)%Z in U by lia. rewrite bpow_plus in U. change (bpow radix2 1) with 2 in U. lra.
Qed.

Lemma round_FIX0 (r : R -> Z) x : round radix2 (FIX_exp 0) r x = IZR (r x).
Proof.
  unfold round, scaled_mantissa, cexp, FIX_exp, F2R. simpl. rewrite !Rmult_1_r. reflexivity.
Qed.

Lemma f_round_ok x : is_finite x = true -> f_round x = Some (ZnearestA (B2R x)).
Proof.
  intros F. unfold f_round, f_trunc.
  destruct (Bnearbyint_correct 53 1024 Hmax mode_NA x) as (B & FF & _).
  rewrite FF, F. f_equal. apply eq_IZR. rewrite Btrunc_correct by exact Hmax. rewrite !round_FIX0, B, round_FIX0.
  rewrite Ztrunc_IZR. reflexivity.
Qed.

Lemma isf_B2SF (x : F64) (s : bool) (m : positive) (e : Z) :
  B2SF x = SpecFloat.S754_finite s m e -> isf x (IZR (cond_Zopp s (Z.pos m)) * bpow radix2 e).
Proof.
  intros H. split.
  - rewrite <- is_finite_SF_B2SF, H. reflexivity.
  - rewrite <- SF2R_B2SF, H. reflexivity.
Qed.

(** comparisons of floats that are not NaN *)
Lemma f_ltb_leb (x y : F64) : is_nan x = false -> is_nan y = false -> f_ltb x y = negb (f_leb y x).
Proof.
  intros Hx Hy. unfold f_ltb, f_leb, Bltb, Bleb, SpecFloat.SFltb, SpecFloat.SFleb.
  pose proof (Bcompare_swap 53 1024 x y) as S. unfold Bcompare in S. rewrite S.
  assert (E : SpecFloat.SFcompare (B2SF x) (B2SF y) <> None).
  { destruct x as [[]|[]| |[] ? ? ?]; try discriminate; destruct y as [[]|[]| |[] ? ? ?]; discriminate. }
  destruct (SpecFloat.SFcompare (B2SF x) (B2SF y)) as [[]|]; try reflexivity. congruence.
Qed.

(** order embedding of the non-NaN floats, infinities included, into the reals *)
Definition fkey (x : F64) : R := match x with B754_infinity s => if s then - (2 * big) else 2 * big | _ => B2R x end.
Lemma big_pos : 0 < big. Proof. apply bpow_gt_0. Qed.
Lemma f_leb_key (x y : F64) : is_nan x = false -> is_nan y = false -> f_leb x y = Rleb (fkey x) (fkey y).
Proof.
  intros Hx Hy. pose proof big_pos as P.
  assert (A : forall z : F64, is_finite z = true -> fkey z = B2R z /\ - big < B2R z < big).
  { intros z Hz. split; [destruct z; try discriminate; reflexivity|].
    pose proof (abs_B2R_lt_emax 53 1024 z) as Q. apply Rabs_def2 in Q. unfold big. lra. }
  destruct (is_finite x) eqn:Fx; destruct (is_finite y) eqn:Fy.
  - destruct (A x Fx) as [-> _], (A y Fy) as [-> _]. apply isf_leb; split; auto.
  - destruct (A x Fx) as [-> Bx]. destruct y as [s|s| |s m e H]; try discriminate. cbn [fkey].
    destruct s; symmetry.
    + replace (f_leb x (B754_infinity true)) with false by (destruct x as [[]|[]| |[] ? ? ?]; try discriminate; reflexivity).
      apply Rleb_false. lra.
    + replace (f_leb x (B754_infinity false)) with true by (destruct x as [[]|[]| |[] ? ? ?]; try discriminate; reflexivity).
      apply Rleb_true. lra.
  - destruct (A y Fy) as [-> By]. destruct x as [s|s| |s m e H]; try discriminate. cbn [fkey].
    destruct s; symmetry.
    + replace (f_leb (B754_infinity true) y) with true by (destruct y as [[]|[]| |[] ? ? ?]; try discriminate; reflexivity).
      apply Rleb_true. lra.
    + replace (f_leb (B754_infinity false) y) with false by (destruct y as [[]|[]| |[] ? ? ?]; try discriminate; reflexivity).
      apply Rleb_false. lra.
  - destruct x as [s|s| |s m e H]; try discriminate. destruct y as [s'|s'| |s' m' e' H']; try discriminate. cbn [fkey].
    destruct s, s'; symmetry; cbn; try (apply Rleb_true; lra). apply Rleb_false. lra.
Qed.
Lemma f_leb_trans (x y z : F64) : f_leb x y = true -> f_leb y z = true -> f_leb x z = true.
Proof.
  intros H1 H2.
  assert (Nx : is_nan x = false) by (destruct x as [[]|[]| |[] ? ? ?]; auto; discriminate).
  assert (Ny : is_nan y = false) by (destruct y as [[]|[]| |[] ? ? ?]; auto; discriminate).
  assert (Nz : is_nan z = false).
  { destruct z as [[]|[]| |[] ? ? ?]; auto. destruct y as [[]|[]| |[] ? ? ?]; discriminate. }
  rewrite f_leb_key in * by auto. apply Rleb_true in H1, H2. apply Rleb_true. lra.
Qed.
Lemma f_leb_refl (x : F64) : is_nan x = false -> f_leb x x = true.
Proof. intros H. rewrite f_leb_key by auto. apply Rleb_true. lra. Qed.
Lemma f_leb_total (x y : F64) : is_nan x = false -> is_nan y = false -> f_leb x y = true \/ f_leb y x = true.
Proof.
  intros Hx Hy. rewrite !f_leb_key by auto. destruct (Rle_dec (fkey x) (fkey y)) as [H|H].
  - left. now apply Rleb_true.
  - right. apply Rleb_true. lra.
Qed.
Lemma f_leb_nan (x y : F64) : f_leb x y = true -> is_nan x = false /\ is_nan y = false.
Proof. intros H. destruct x as [[]|[]| |[] ? ? ?], y as [[]|[]| |[] ? ? ?]; auto; discriminate. Qed.
