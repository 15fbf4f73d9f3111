(** Proofs about the spiral functions (C92). *)
From Coq Require Import Reals Lra Lia List ZArith.
From Verif Require Import Spiral_Spec Func_Proof Func_Profile.
Set Implicit Arguments. Unset Strict Implicit.
Local Open Scope R_scope.

Lemma cos_turns x k : cos (x + IZR k * (2 * PI)) = cos x.
Proof.
  assert (N : forall n y, cos (y + INR n * (2 * PI)) = cos y).
  { intros n y. rewrite <- (cos_period y n). f_equal. ring. }
  destruct (Z_le_gt_dec 0 k) as [H|H].
  - rewrite <- (Z2Nat.id k) by lia. rewrite <- INR_IZR_INZ. apply N.
  - rewrite <- (N (Z.to_nat (- k)) (x + IZR k * (2 * PI))). f_equal.
    rewrite INR_IZR_INZ, Z2Nat.id by lia. rewrite opp_IZR. ring.
Qed.
Lemma cos_eq_1 x : cos x = 1 -> exists k, x = IZR k * (2 * PI).
Proof.
  intros H. assert (S : sin (x / 2) = 0).
  { pose proof (cos_2a_sin (x / 2)) as E. replace (2 * (x / 2)) with x in E by field. rewrite H in E. nra. }
  apply sin_eq_0_0 in S as (k & S). exists k. lra.
Qed.

(** the angle found by atan2() *)
Lemma atan2_cos_sin x y r : 0 < r -> r * r = x * x + y * y -> r * cos (Ratan2 y x) = x /\ r * sin (Ratan2 y x) = y.
Proof.
  intros P E.
  assert (A : x <> 0 -> Rabs x * sqrt (1 + (y / x)²) = r).
  { intros X. rewrite <- (sqrt_Rsqr (Rabs x)) by apply Rabs_pos. rewrite <- Rsqr_abs.
    rewrite <- sqrt_mult by (pose proof (Rle_0_sqr x); pose proof (Rle_0_sqr (y / x)); lra).
    replace (x² * (1 + (y / x)²)) with (r²); [apply sqrt_Rsqr; lra|]. unfold Rsqr. rewrite E. field. auto. }
  assert (Q : forall t, 0 < sqrt (1 + t²)). { intros t. apply sqrt_lt_R0. pose proof (Rle_0_sqr t). lra. }
  unfold Ratan2. destruct (Rlt_dec 0 x) as [X|X].
  - specialize (A ltac:(lra)). rewrite Rabs_pos_eq in A by lra. rewrite cos_atan, sin_atan. rewrite <- A.
    specialize (Q (y / x)). split; field; lra.
  - destruct (Rlt_dec x 0) as [X'|X'].
    + specialize (A ltac:(lra)). rewrite Rabs_left in A by lra. specialize (Q (y / x)).
      destruct (Rle_dec 0 y).
      * rewrite neg_cos, neg_sin, cos_atan, sin_atan, <- A. split; field; lra.
      * replace (atan (y / x) - PI) with (- (PI - atan (y / x))) by ring. rewrite cos_neg, sin_antisym.
        rewrite sin_PI_x, cos_minus, cos_PI, sin_PI, cos_atan, sin_atan, <- A. split; field; lra.
    + assert (x = 0) by lra. subst x. destruct (Rlt_dec 0 y).
      * assert (r = y) by nra. rewrite cos_PI2, sin_PI2. lra.
      * destruct (Rlt_dec y 0).
        -- assert (r = - y) by nra. rewrite cos_neg, sin_antisym, cos_PI2, sin_PI2. lra.
        -- nra.
Qed.
Lemma atan2_polar rho theta : 0 < rho -> exists k, Ratan2 (rho * sin theta) (rho * cos theta) = theta + IZR k * (2 * PI).
Proof.
  intros P. pose proof (sin2_cos2 theta) as S. unfold Rsqr in S.
  destruct (@atan2_cos_sin (rho * cos theta) (rho * sin theta) rho P) as (C1 & S1).
  { transitivity (rho * rho * (sin theta * sin theta + cos theta * cos theta)); [rewrite S; ring|ring]. }
  set (A := Ratan2 _ _) in *.
  assert (cos A = cos theta) by nra. assert (sin A = sin theta) by nra.
  destruct (@cos_eq_1 (A - theta)) as (k & K). { rewrite cos_minus. rewrite H, H0. lra. }
  exists k. lra.
Qed.

(** the frame *)
Lemma polar_seen x0 y0 PA ell rho theta : ell <> 1 -> 0 <= rho ->
  let s := seen_at x0 y0 PA ell rho theta in
  polar NumR x0 y0 PA ell (fst s) (snd s) = (rho, Ratan2 (rho * sin theta) (rho * cos theta)).
Proof.
  intros Q P s. unfold polar, cosPA, sinPA. cbn [nadd nsub nmul ndiv nneg nsqrt ncos nsin nofZ natan2 NumR]. rewrite deg_eq.
  unfold s, seen_at. cbn [fst snd]. set (c := cos ((PA + 90) * deg)). set (z := sin ((PA + 90) * deg)).
  assert (U : z * z + c * c = 1). { pose proof (sin2_cos2 ((PA + 90) * deg)) as U. exact U. }
  assert (A : (x0 + rho * cos theta * c - (1 - ell) * (rho * sin theta) * z - x0) * c
              + (y0 + rho * cos theta * z + (1 - ell) * (rho * sin theta) * c - y0) * z = rho * cos theta).
  { transitivity (rho * cos theta * (z * z + c * c)); [ring|rewrite U; ring]. }
  assert (B : (- (x0 + rho * cos theta * c - (1 - ell) * (rho * sin theta) * z - x0) * z
              + (y0 + rho * cos theta * z + (1 - ell) * (rho * sin theta) * c - y0) * c) / (1 - ell) = rho * sin theta).
  { transitivity ((1 - ell) * (rho * sin theta) * (z * z + c * c) / (1 - ell)); [f_equal; ring|rewrite U; field; lra]. }
  rewrite A, B. f_equal.
  replace (rho * cos theta * (rho * cos theta) + rho * sin theta * (rho * sin theta)) with (rho²).
  - now apply sqrt_Rsqr.
  - pose proof (sin2_cos2 theta) as S. unfold Rsqr in *. transitivity (rho * rho * (sin theta * sin theta + cos theta * cos theta)); [rewrite S; ring|ring].
Qed.
Lemma seen_everywhere x0 y0 PA ell x y : ell <> 1 -> x <> x0 \/ y <> y0 ->
  exists rho theta, 0 < rho /\ seen_at x0 y0 PA ell rho theta = (x, y).
Proof.
  intros Q D. set (c := cos ((PA + 90) * deg)). set (z := sin ((PA + 90) * deg)).
  assert (U : z * z + c * c = 1). { pose proof (sin2_cos2 ((PA + 90) * deg)) as U. exact U. }
  set (u := (x - x0) * c + (y - y0) * z). set (v := (- (x - x0) * z + (y - y0) * c) / (1 - ell)).
  assert (X : x = x0 + u * c - (1 - ell) * v * z).
  { unfold u, v. transitivity (x0 + (x - x0) * (z * z + c * c)); [rewrite U; ring|field; lra]. }
  assert (Y : y = y0 + u * z + (1 - ell) * v * c).
  { unfold u, v. transitivity (y0 + (y - y0) * (z * z + c * c)); [rewrite U; ring|field; lra]. }
  assert (P : 0 < u * u + v * v).
  { destruct (Req_dec u 0) as [E|E]; destruct (Req_dec v 0) as [F|F]; [|nra..].
    exfalso. clearbody u v. subst u v. destruct D as [D|D]; apply D; lra. }
  exists (sqrt (u * u + v * v)), (Ratan2 v u). split; [now apply sqrt_lt_R0|].
  destruct (@atan2_cos_sin u v (sqrt (u * u + v * v))) as (A & B).
  - now apply sqrt_lt_R0.
  - apply sqrt_sqrt. lra.
  - unfold seen_at. fold c z. rewrite A, B. f_equal; symmetry; assumption.
Qed.

(** the azimuthal factor *)
Lemma azimuthal_between (m : Z) i Ri s g rho theta k : 0 < s ->
  azimuthal NumR (IZR m) i Ri s g rho (theta + IZR k * (2 * PI))
  = between_arms (IZR m) s rho (theta - spiral_azimuth i Ri g rho).
Proof.
  intros Ps. unfold azimuthal, between_arms, spiral_azimuth. cbn [nadd nsub nmul ndiv nneg nexp nlog ncos nsin nofZ NumR]. rewrite deg_eq.
  fold (tan (i * deg)). f_equal. f_equal.
  - unfold Rsqr. field. lra.
  - f_equal. rewrite <- (cos_turns (IZR m * (theta - (g * deg + ln (rho / Ri) / tan (i * deg)))) (m * k)). f_equal.
    rewrite mult_IZR. unfold Rdiv. ring.
Qed.
Lemma off_centre_pos r : 0 < r -> off_centre NumR r = r.
Proof. intros H. unfold off_centre. cbn [nleb nofZ NumR]. now rewrite (proj2 (Rleb_false r 0)). Qed.

Lemma params_get params offset n i : (offset + n <= length params)%nat -> (i < n)%nat -> get params (i + offset) = Ok (nth (offset + i) params 0).
Proof. intros H I. rewrite (Nat.add_comm i). apply get_nth. lia. Qed.

Section Main.
Variable f : spiral.
Variable params : list R.
Variable offset : nat.
Hypothesis Len : (offset + nparams f <= length params)%nat.
Let p (i : nat) : R := nth (offset + i) params 0.
Variables x0 y0 : R.

(** the brightness in the terms of the code *)
Definition amp (r r' : R) : R :=
  match f with
  | LogSpiral => p 4
  | LogSpiral2 => (if Rltb r (p 9) then r / p 9 * exp (- ((p 9 - r) * (p 9 - r)) / (2 * p 10 * p 10)) else 1) * p 7 * exp (- r / p 8)
  | LogSpiral3 =>
      let ex := 1 / p 11 * (1 / p 8 - 1 / p 9) in
      if Rltb r (p 12) then r / p 12 * exp (- ((p 12 - r) * (p 12 - r)) / (2 * p 13 * p 13)) * p 7 * exp (- r / p 8)
      else BrokenExp_intensity NumR (p 7 * Rpow (1 + exp (- p 11 * p 10)) (- ex)) (p 8) (p 9) (p 10) (p 11) ex (p 10 / p 9 - p 10 / p 8) r
  | LogSpiralExp => if Rltb r (p 9) then p 7 * exp (- ((p 9 - r) * (p 9 - r)) / (2 * p 10 * p 10)) else p 7 / exp (- p 9 / p 8) * exp (- r / p 8)
  | LogSpiralGauss => p 4 * exp (- (Rabs (r' - p 8) * Rabs (r' - p 8)) / (if Rltb r (p 8) then 2 * p 9 * p 9 else 2 * p 10 * p 10))
  end.
Lemma value_amp x y : value f params offset x0 y0 x y =
  let '(r', phi) := polar NumR x0 y0 (p 0) (p 1) x y in
  let r := off_centre NumR r' in
  Ok (amp r r' * azimuthal NumR (p 2) (p 3) (R_i f p) (sigma f p) (gamma f p) r phi).
Proof.
  unfold value. revert Len. unfold amp, p.
  destruct f; cbn [nparams]; intros L;
  unfold LogSpiral_value, LogSpiral2_value, LogSpiral3_value, LogSpiralExp_value, LogSpiralGauss_value;
  rewrite ?(@params_get _ _ _ 0 L), ?(@params_get _ _ _ 1 L), ?(@params_get _ _ _ 2 L), ?(@params_get _ _ _ 3 L), ?(@params_get _ _ _ 4 L),
   ?(@params_get _ _ _ 5 L), ?(@params_get _ _ _ 6 L), ?(@params_get _ _ _ 7 L) by lia;
  try rewrite !(@params_get _ _ _ 8 L), !(@params_get _ _ _ 9 L), !(@params_get _ _ _ 10 L) by lia;
  try rewrite !(@params_get _ _ _ 11 L), !(@params_get _ _ _ 12 L), !(@params_get _ _ _ 13 L) by lia;
  cbn [bind R_i sigma gamma]; destruct (polar NumR _ _ _ _ _ _) as (r', phi);
  cbn [nadd nsub nmul ndiv nneg nabs nexp npow nltb nofZ NumR]; reflexivity.
Qed.

(** on the disc *)
Lemma value_seen rho theta : p 1%nat <> 1 -> 0 < rho ->
  let s := seen_at x0 y0 (p 0%nat) (p 1%nat) rho theta in
  exists k, value f params offset x0 y0 (fst s) (snd s) =
    Ok (amp rho rho * azimuthal NumR (p 2%nat) (p 3%nat) (R_i f p) (sigma f p) (gamma f p) rho (theta + IZR k * (2 * PI))).
Proof.
  intros Q P s. rewrite value_amp. unfold s. rewrite polar_seen by (auto; lra). destruct (@atan2_polar rho theta P) as (k & ->).
  exists k. now rewrite off_centre_pos.
Qed.

Lemma if_Rltb (A : Type) a b (x y : A) : (if Rltb a b then x else y) = if Rlt_dec a b then x else y.
Proof. unfold Rltb. destruct (Rlt_dec a b); reflexivity. Qed.
Lemma amp_on_arms rho : exact_profile f p rho -> amp rho rho = on_arms f p rho.
Proof.
  unfold amp, on_arms, exact_profile, bell. destruct f; intros E; rewrite ?if_Rltb; auto.
  - destruct (Rlt_dec rho (p 9%nat)); ring.
  - destruct (Rlt_dec rho (p 12%nat)); [ring|]. unfold BrokenExp_intensity, broken_exp.
    cbn [nltb nadd nsub nmul ndiv nneg nexp npow nofZ NumR]. rewrite (proj2 (Rltb_false _ _) E).
    rewrite <- !Rpow_eq by apply exp1_pos. ring.
  - destruct (Rlt_dec rho (p 9%nat)).
    + do 2 f_equal. unfold Rdiv. ring.
    + unfold Rdiv at 1. rewrite <- exp_Ropp, Rmult_assoc, <- exp_plus. do 2 f_equal. unfold Rdiv. ring.
  - f_equal. f_equal. destruct (Rlt_dec rho (p 8%nat)); rewrite <- Rabs_mult, Rabs_pos_eq by nra; reflexivity.
Qed.
Lemma amp_close rho : f = LogSpiral3 -> p 11%nat <> 0 ->
  relatively_close (Rabs (1 / p 11%nat * (1 / p 8%nat - 1 / p 9%nat)) * exp (-100)) (amp rho rho) (on_arms f p rho).
Proof.
  intros E A. unfold amp, on_arms. rewrite E, if_Rltb. destruct (Rlt_dec rho (p 12%nat)).
  - unfold bell. match goal with |- relatively_close _ ?v ?w => replace v with w by ring end. apply close_refl.
    apply Rmult_le_pos; [apply Rabs_pos|apply Rlt_le, exp_pos].
  - now apply BrokenExp_close.
Qed.
End Main.

(** between the arms *)
Lemma between_le m s rho a : between_arms m s rho a <= 1.
Proof.
  unfold between_arms. apply Rle_trans with (exp 0); [|rewrite exp_0; lra]. pose proof (COS_bound (m * a)). pose proof (Rle_0_sqr (rho / s)).
  destruct (Req_dec (- (rho / s)² * (1 - cos (m * a))) 0) as [->|N]; [lra|]. apply Rlt_le, exp_increasing. nra.
Qed.
Lemma between_1 (m : Z) s rho a : m <> 0%Z -> 0 < s -> 0 < rho -> between_arms (IZR m) s rho a = 1 <-> exists k, a = IZR k * (2 * PI / IZR m).
Proof.
  intros M S P. unfold between_arms.
  assert (Pq : 0 < (rho / s)²). { apply Rsqr_pos_lt. apply Rgt_not_eq. now apply Rdiv_lt_0_compat. }
  assert (Mr : IZR m <> 0) by now apply not_0_IZR.
  split.
  - intros H. apply (eq_trans (z := exp 0)) in H; [|symmetry; apply exp_0]. apply exp_inv in H. assert (C : cos (IZR m * a) = 1) by nra.
    apply cos_eq_1 in C as (k & K). exists k. apply (Rmult_eq_reg_l (IZR m)); auto. rewrite K. field. auto.
  - intros (k & ->). replace (IZR m * (IZR k * (2 * PI / IZR m))) with (0 + IZR k * (2 * PI)) by (field; auto).
    rewrite cos_turns, cos_0, Rminus_diag_eq, Rmult_0_r, exp_0; auto.
Qed.
Lemma between_turn (m : Z) s rho a k : m <> 0%Z -> between_arms (IZR m) s rho (a + IZR k * (2 * PI / IZR m)) = between_arms (IZR m) s rho a.
Proof.
  intros M. unfold between_arms. replace (IZR m * (a + IZR k * (2 * PI / IZR m))) with (IZR m * a + IZR k * (2 * PI)).
  - now rewrite cos_turns.
  - field. now apply not_0_IZR.
Qed.

(** the inner edge of LogSpiral3 *)
Lemma bell_le_1 s x : bell s x <= 1.
Proof.
  unfold bell. destruct (Req_dec s 0) as [->|N].
  - replace (- (x * x) / (2 * 0 * 0)) with (- (x * x) * / 0) by (unfold Rdiv; f_equal; f_equal; ring).
    rewrite Rinv_0, Rmult_0_r, exp_0. lra.
  - apply Rle_trans with (exp 0); [|rewrite exp_0; lra].
    assert (H : - (x * x) / (2 * s * s) <= 0).
    { unfold Rdiv. assert (0 < / (2 * s * s)) by (apply Rinv_0_lt_compat; nra). nra. }
    destruct H as [H|H]; [apply Rlt_le, exp_increasing, H|rewrite H; lra].
Qed.
Lemma spiral3_edge p : 0 < p 7%nat -> 0 < p 8%nat < p 9%nat -> 0 < p 11%nat -> 0 < p 12%nat ->
  exists delta jump, 0 < delta /\ 0 < jump /\
    forall rho, 0 < rho -> p 12%nat - delta < rho < p 12%nat -> on_arms LogSpiral3 p rho + jump < on_arms LogSpiral3 p (p 12%nat).
Proof.
  intros PI0 (Ph1 & Ph) Pa PR. set (ex := 1 / p 11%nat * (1 / p 8%nat - 1 / p 9%nat)).
  assert (Pex : 0 < ex).
  { unfold ex. apply Rmult_lt_0_compat; [apply Rdiv_lt_0_compat; lra|].
    unfold Rdiv. rewrite !Rmult_1_l. assert (/ p 9%nat < / p 8%nat); [|lra]. apply Rinv_lt_contravar; nra. }
  set (F := Rpower (1 + exp (- p 11%nat * p 10%nat)) (- ex) * Rpower (1 + exp (p 11%nat * (p 12%nat - p 10%nat))) ex).
  assert (HF : 1 < F).
  { unfold F, Rpower. rewrite <- exp_plus, <- exp_0. apply exp_increasing. rewrite exp_0.
    assert (ln (1 + exp (- p 11%nat * p 10%nat)) < ln (1 + exp (p 11%nat * (p 12%nat - p 10%nat)))); [|nra].
    apply ln_increasing; [apply exp1_pos|]. apply Rplus_lt_compat_l, exp_increasing. nra. }
  set (A := p 7%nat * exp (- p 12%nat / p 8%nat)).
  assert (PA : 0 < A). { apply Rmult_lt_0_compat; auto. apply exp_pos. }
  assert (E : on_arms LogSpiral3 p (p 12%nat) = A * F).
  { unfold on_arms. destruct (Rlt_dec (p 12%nat) (p 12%nat)) as [C|_]; [lra|]. unfold broken_exp. fold ex. unfold A, F. ring. }
  exists (p 8%nat * ln ((F + 1) / 2)), (A * (F - 1) / 2). split; [|split].
  - apply Rmult_lt_0_compat; auto. rewrite <- ln_1. apply ln_increasing; lra.
  - nra.
  - intros rho Pr (L & U). rewrite E. unfold on_arms. destruct (Rlt_dec rho (p 12%nat)) as [_|C]; [|lra].
    assert (B : p 7%nat * exp (- rho / p 8%nat) < A * ((F + 1) / 2)).
    { unfold A. rewrite Rmult_assoc. apply Rmult_lt_compat_l; auto.
      rewrite <- (exp_ln ((F + 1) / 2)) by lra. rewrite <- exp_plus. apply exp_increasing.
      set (l := ln ((F + 1) / 2)) in *. apply (Rmult_lt_reg_l (p 8%nat)); auto.
      replace (p 8%nat * (- rho / p 8%nat)) with (- rho) by (field; lra).
      replace (p 8%nat * (- p 12%nat / p 8%nat + l)) with (- p 12%nat + p 8%nat * l) by (field; lra). lra. }
    assert (G : 0 < p 7%nat * exp (- rho / p 8%nat)). { apply Rmult_lt_0_compat; auto. apply exp_pos. }
    assert (Q : 0 < rho / p 12%nat < 1).
    { split; [now apply Rdiv_lt_0_compat|]. apply (Rmult_lt_reg_r (p 12%nat)); auto. unfold Rdiv. rewrite Rmult_assoc, Rinv_l; lra. }
    pose proof (bell_le_1 (p 13%nat) (p 12%nat - rho)) as HB.
    assert (Pb : 0 < bell (p 13%nat) (p 12%nat - rho)) by apply exp_pos.
    set (g := p 7%nat * exp (- rho / p 8%nat)) in *. set (q := rho / p 12%nat) in *. set (b := bell _ _) in *.
    assert (g * q * b <= g). { assert (g * q <= g) by nra. assert (0 < g * q) by nra. nra. }
    nra.
Qed.

(** the profile of LogSpiralExp and LogSpiralGauss *)
Lemma bell_lt_1 s x : 0 < s -> x <> 0 -> bell s x < 1.
Proof.
  intros S N. unfold bell. apply Rlt_le_trans with (exp 0); [|rewrite exp_0; lra]. apply exp_increasing.
  assert (0 < / (2 * s * s)) by (apply Rinv_0_lt_compat; nra). assert (0 < x * x) by nra. unfold Rdiv. nra.
Qed.
Lemma bell_0 s : bell s 0 = 1.
Proof. unfold bell. replace (- (0 * 0) / (2 * s * s)) with 0 by (unfold Rdiv; ring). apply exp_0. Qed.

(** a multiplicity which is not a whole number *)
Definition seam_params : list R := [0; 0; 1 / 2; 45; 1; 1; 1; PI / deg]%list.
Lemma deg_pos : 0 < deg.
Proof. unfold deg. lra. Qed.
Lemma atan2_PI : Ratan2 (1 * sin PI) (1 * cos PI) = PI.
Proof.
  rewrite sin_PI, cos_PI. unfold Ratan2. destruct (Rlt_dec 0 (1 * -1)); [lra|]. destruct (Rlt_dec (1 * -1) 0); [|lra].
  destruct (Rle_dec 0 (1 * 0)); [|lra]. replace (1 * 0 / (1 * -1)) with 0 by field. rewrite atan_0. ring.
Qed.
Lemma atan2_past e : 0 < e < 1 -> Ratan2 (1 * sin (PI + e)) (1 * cos (PI + e)) = e - PI.
Proof.
  intros (P & U). pose proof PI2_1.
  assert (S : 0 < sin e) by (apply sin_gt_0; lra). assert (C : 0 < cos e) by (apply cos_gt_0; lra).
  rewrite (Rplus_comm PI e), neg_sin, neg_cos. unfold Ratan2. destruct (Rlt_dec 0 (1 * - cos e)); [lra|].
  destruct (Rlt_dec (1 * - cos e) 0); [|lra]. destruct (Rle_dec 0 (1 * - sin e)); [lra|].
  replace (1 * - sin e / (1 * - cos e)) with (tan e) by (unfold tan; field; lra). rewrite atan_tan by lra. ring.
Qed.
Lemma seam_phase phi : azimuthal NumR (1 / 2) 45 1 1 (PI / deg) 1 phi = exp (- (1 - cos (phi / 2 - PI / 2))).
Proof.
  unfold azimuthal. cbn [nadd nsub nmul ndiv nneg nexp nlog ncos nsin nofZ NumR]. rewrite deg_eq.
  replace (1 / 1) with 1 by field. rewrite ln_1, Rmult_0_r. f_equal.
  replace (1 / 2 * phi - (0 + 1 / 2 * (PI / deg) * deg)) with (phi / 2 - PI / 2) by (pose proof deg_pos; field; lra). field.
Qed.
