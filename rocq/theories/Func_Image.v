(** Components on images with a different scale, orientation and brightness (C57). *)
From Coq Require Import Reals Lra Lia List ZArith.
From Verif Require Import Func_Spec Func_Proof Func_Sym Func_Profile.
Set Implicit Arguments. Unset Strict Implicit.
Local Open Scope R_scope.

Section Cov.
Variables (d : ImageDesc R).
Let s := pixelScaling d.
Let rho := imageRotation d.
Let kap := intensityScale d.
Hypothesis Ps : 0 < s.

Lemma along_seen PA u v :
  seen_x d u v * cosPA NumR (PA - rho) + seen_y d u v * sinPA NumR (PA - rho) = s * (u * cosPA NumR (PA - 0) + v * sinPA NumR (PA - 0)).
Proof.
  unfold seen_x, seen_y, cosPA, sinPA. cbn [nadd nmul ncos nsin nofZ NumR]. rewrite deg_eq.
  fold s rho. replace ((PA - rho + 90) * deg) with ((PA - 0 + 90) * deg - rho * deg) by ring.
  rewrite cos_minus, sin_minus. pose proof (sin2_cos2 (rho * deg)) as S. unfold Rsqr in S.
  set (c := cos (rho * deg)) in *. set (z := sin (rho * deg)) in *.
  transitivity (s * (u * cos ((PA - 0 + 90) * deg) + v * sin ((PA - 0 + 90) * deg)) * (z * z + c * c)); [ring|rewrite S; ring].
Qed.
Lemma across_seen PA u v :
  - seen_x d u v * sinPA NumR (PA - rho) + seen_y d u v * cosPA NumR (PA - rho) = s * (- u * sinPA NumR (PA - 0) + v * cosPA NumR (PA - 0)).
Proof.
  unfold seen_x, seen_y, cosPA, sinPA. cbn [nadd nmul ncos nsin nofZ NumR]. rewrite deg_eq.
  fold s rho. replace ((PA - rho + 90) * deg) with ((PA - 0 + 90) * deg - rho * deg) by ring.
  rewrite cos_minus, sin_minus. pose proof (sin2_cos2 (rho * deg)) as S. unfold Rsqr in S.
  set (c := cos (rho * deg)) in *. set (z := sin (rho * deg)) in *.
  transitivity (s * (- u * sin ((PA - 0 + 90) * deg) + v * cos ((PA - 0 + 90) * deg)) * (z * z + c * c)); [ring|rewrite S; ring].
Qed.

Lemma radius_seen PA q u v :
  elliptical_radius NumR (PA - rho) q (seen_x d u v) (seen_y d u v) = s * elliptical_radius NumR (PA - 0) q u v.
Proof.
  unfold elliptical_radius. cbn [nadd nmul ndiv nneg nsqrt NumR]. rewrite along_seen, across_seen.
  set (a := u * _ + _). set (b := - u * _ + _).
  replace (s * a * (s * a) + s * b / q * (s * b / q)) with (s * s * (a * a + b / q * (b / q))) by (unfold Rdiv; ring).
  rewrite sqrt_mult_alt by nra. rewrite sqrt_square by lra. reflexivity.
Qed.

Lemma gen_radius_seen PA q e u v : e <> 0 ->
  GeneralizedRadius NumR (PA - rho) q e (1 / e) (seen_x d u v) (seen_y d u v) = s * GeneralizedRadius NumR (PA - 0) q e (1 / e) u v.
Proof.
  intros He. unfold GeneralizedRadius. cbn [nadd nmul ndiv nneg nabs npow NumR]. rewrite along_seen, across_seen.
  set (a := u * _ + _). set (b := - u * _ + _).
  replace (s * b / q) with (s * (b / q)) by (unfold Rdiv; ring). rewrite !Rabs_mult, (Rabs_pos_eq s) by lra.
  rewrite !Rpow_mult_base by (try apply Rabs_pos; lra).
  rewrite <- Rmult_plus_distr_l, Rpow_mult_base.
  - f_equal. apply Rpow_root; lra.
  - apply Rpow_nonneg.
  - pose proof (Rpow_nonneg (Rabs a) e). pose proof (Rpow_nonneg (Rabs (b / q)) e). lra.
  - now apply inv_neq.
Qed.

(** the azimuth enters as the cosine of twice the angle *)
Lemma cos2_atan2 P x y : 0 < x * x + y * y ->
  (x * x + y * y) * cos (2 * (P - Ratan2 y x)) = (x * x - y * y) * cos (2 * P) + 2 * (x * y) * sin (2 * P).
Proof.
  intros H.
  assert (A : (x * x + y * y) * cos (2 * Ratan2 y x) = x * x - y * y /\ (x * x + y * y) * sin (2 * Ratan2 y x) = 2 * (x * y)).
  { assert (K : forall t, (exists e, x = e * cos t /\ y = e * sin t) ->
       (x * x + y * y) * cos (2 * t) = x * x - y * y /\ (x * x + y * y) * sin (2 * t) = 2 * (x * y)).
    { intros t (e & Ex & Ey). rewrite Ex, Ey. rewrite cos_2a, sin_2a. pose proof (sin2_cos2 t) as S. unfold Rsqr in S.
      set (c := cos t) in *. set (z := sin t) in *. split.
      - transitivity (e * e * (c * c - z * z) * (z * z + c * c)); [ring|rewrite S; ring].
      - transitivity (2 * (e * c * (e * z)) * (z * z + c * c)); [ring|rewrite S; ring]. }
    assert (T : forall w, exists e, 0 < e /\ 1 = e * cos (atan w) /\ w = e * sin (atan w)).
    { intros w. exists (/ cos (atan w)). pose proof (atan_bound w) as B.
      assert (C : 0 < cos (atan w)) by (apply cos_gt_0; lra).
      split; [now apply Rinv_0_lt_compat|]. split; [rewrite Rinv_l; lra|].
      rewrite Rmult_comm. change (sin (atan w) * / cos (atan w)) with (tan (atan w)). now rewrite tan_atan. }
    apply K. unfold Ratan2. destruct (Rlt_dec 0 x) as [X|X].
    - destruct (T (y / x)) as (e & He & E1 & E2). exists (x * e). split.
      + transitivity (x * (e * cos (atan (y / x)))); [rewrite <- E1|]; ring.
      + transitivity (x * (e * sin (atan (y / x)))); [rewrite <- E2; field; lra|ring].
    - destruct (Rlt_dec x 0) as [X'|X'].
      + destruct (T (y / x)) as (e & He & E1 & E2). exists (- x * e).
        assert (W : forall t, cos t = - cos (atan (y / x)) -> sin t = - sin (atan (y / x)) ->
           x = - x * e * cos t /\ y = - x * e * sin t).
        { intros t Ct St. rewrite Ct, St. split.
          - transitivity (x * (e * cos (atan (y / x)))); [rewrite <- E1|]; ring.
          - transitivity (x * (e * sin (atan (y / x)))); [rewrite <- E2; field; lra|ring]. }
        destruct (Rle_dec 0 y); apply W.
        * apply neg_cos. * apply neg_sin.
        * rewrite cos_minus, cos_PI, sin_PI. ring. * rewrite sin_minus, cos_PI, sin_PI. ring.
      + assert (x = 0) by lra. subst x. destruct (Rlt_dec 0 y).
        * exists y. rewrite cos_PI2, sin_PI2. lra.
        * destruct (Rlt_dec y 0); [|exfalso; nra]. exists (- y). rewrite cos_neg, sin_neg, cos_PI2, sin_PI2. lra. }
  destruct A as (A1 & A2).
  replace (2 * (P - Ratan2 y x)) with (2 * P - 2 * Ratan2 y x) by ring. rewrite cos_minus.
  rewrite <- A1, <- A2. ring.
Qed.

Lemma azimuth_seen P u v : u <> 0 \/ v <> 0 ->
  cos (2 * (P - rho * deg - Ratan2 (seen_y d u v) (seen_x d u v))) = cos (2 * (P - Ratan2 v u)).
Proof.
  intros Hn.
  assert (Puv : 0 < u * u + v * v) by (destruct Hn; nra).
  pose proof (sin2_cos2 (rho * deg)) as S. unfold Rsqr in S.
  pose proof (@cos2_atan2 P u v Puv) as A.
  assert (N2 : seen_x d u v * seen_x d u v + seen_y d u v * seen_y d u v = s * s * (u * u + v * v)).
  { unfold seen_x, seen_y. fold s rho. set (c := cos _) in *. set (z := sin _) in *.
    transitivity (s * s * (u * u + v * v) * (z * z + c * c)); [ring|rewrite S; ring]. }
  assert (Pxy : 0 < seen_x d u v * seen_x d u v + seen_y d u v * seen_y d u v) by (rewrite N2; apply Rmult_lt_0_compat; [nra|lra]).
  pose proof (@cos2_atan2 (P - rho * deg) _ _ Pxy) as B. rewrite N2 in B.
  assert (Pss : 0 < s * s * (u * u + v * v)) by (apply Rmult_lt_0_compat; [nra|lra]).
  apply Rmult_eq_reg_l with (s * s * (u * u + v * v)); [|lra]. rewrite B.
  rewrite (Rmult_assoc (s * s) (u * u + v * v)), A. clear A B N2 Pxy.
  replace (2 * (P - rho * deg)) with (2 * P - 2 * (rho * deg)) by ring. rewrite cos_minus, sin_minus.
  rewrite (cos_2a (rho * deg)), (sin_2a (rho * deg)).
  unfold seen_x, seen_y. fold s rho. set (c := cos (rho * deg)) in *. set (z := sin (rho * deg)) in *.
  transitivity (s * s * ((u * u - v * v) * cos (2 * P) + 2 * (u * v) * sin (2 * P)) * ((z * z + c * c) * (z * z + c * c))).
  - ring.
  - rewrite S. ring.
Qed.

Lemma s_inv : s * / s = 1. Proof. apply Rinv_r. lra. Qed.
Ltac sring := unfold Rdiv; rewrite ?Rinv_mult, ?Rinv_inv, ?Rinv_1; ring [s_inv].

Lemma sc1 a h : s * a / (h * s) = a / (h * 1). Proof. sring. Qed.
Lemma sc1n a h : - (s * a) / (h * s) = - a / (h * 1). Proof. sring. Qed.
Lemma ltb_s a b : Rltb (s * a) (b * s) = Rltb a (b * 1).
Proof. unfold Rltb. destruct (Rlt_dec (s * a) (b * s)), (Rlt_dec a (b * 1)); try reflexivity; exfalso; nra. Qed.
Lemma ltb_sn a b : Rltb (s * a) (- b * s) = Rltb a (- b * 1).
Proof. apply ltb_s. Qed.

Lemma Exp_s I h r : Exp_intensity NumR (I * kap) (h * s) (s * r) = kap * Exp_intensity NumR (I * 1) (h * 1) r.
Proof. unfold Exp_intensity. cbn [nmul ndiv nneg nexp NumR]. rewrite sc1n. ring. Qed.
Lemma Gaussian_s I g r : Gaussian_intensity NumR (I * kap) (2 * (g * s) * (g * s)) (s * r) =
  kap * Gaussian_intensity NumR (I * 1) (2 * (g * 1) * (g * 1)) r.
Proof.
  unfold Gaussian_intensity. cbn [nmul ndiv nneg nexp NumR].
  replace (- (s * r * (s * r)) / (2 * (g * s) * (g * s))) with (- (r * r) / (2 * (g * 1) * (g * 1))) by (sring). ring.
Qed.
Lemma Sersic_s I bn h n r : Sersic_intensity NumR (I * kap) bn (h * s) n (s * r) = kap * Sersic_intensity NumR (I * 1) bn (h * 1) n r.
Proof. unfold Sersic_intensity. cbn [nmul ndiv nneg nexp nsub npow nofZ NumR]. rewrite sc1. ring. Qed.
Lemma Moffat_s I f k be r : Moffat_intensity NumR (I * kap) (half NumR * (f * s) / k) be (s * r) =
  kap * Moffat_intensity NumR (I * 1) (half NumR * (f * 1) / k) be r.
Proof.
  unfold Moffat_intensity. cbn [nmul ndiv nneg nexp nsub nadd npow nofZ NumR].
  replace (s * r / (half NumR * (f * s) / k)) with (r / (half NumR * (f * 1) / k)) by sring. unfold Rdiv. ring.
Qed.
Lemma King_s I w t rc ia ct al r : King_intensity NumR (I * kap * w) (t * s) (1 / (rc * s)) ia ct al (s * r) =
  kap * King_intensity NumR (I * 1 * w) (t * 1) (1 / (rc * 1)) ia ct al r.
Proof.
  unfold King_intensity. cbn [nmul ndiv nneg nexp nsub nadd npow nofZ nltb NumR]. rewrite ltb_s.
  replace (s * r * (1 / (rc * s))) with (r * (1 / (rc * 1))) by sring.
  destruct (Rltb _ _); ring.
Qed.
Lemma broken_ex al h1 h2 : 1 / (al / s) * (1 / (h1 * s) - 1 / (h2 * s)) = 1 / (al / 1) * (1 / (h1 * 1) - 1 / (h2 * 1)).
Proof. sring. Qed.
Lemma broken_de rb h1 h2 : rb * s / (h2 * s) - rb * s / (h1 * s) = rb * 1 / (h2 * 1) - rb * 1 / (h1 * 1).
Proof. sring. Qed.
Lemma broken_ab al rb : - (al / s) * (rb * s) = - (al / 1) * (rb * 1). Proof. sring. Qed.
Lemma broken_ar al rb r : al / s * (s * r - rb * s) = al / 1 * (r - rb * 1). Proof. sring. Qed.
Lemma Broken_s I S h1 h2 rb al ex de r :
  BrokenExp_intensity NumR (I * kap * S) (h1 * s) (h2 * s) (rb * s) (al / s) ex de (s * r) =
  kap * BrokenExp_intensity NumR (I * 1 * S) (h1 * 1) (h2 * 1) (rb * 1) (al / 1) ex de r.
Proof.
  unfold BrokenExp_intensity. cbn [nmul ndiv nneg nexp nsub nadd npow nofZ nltb NumR].
  rewrite broken_ar, sc1, sc1n. destruct (Rltb _ _); ring.
Qed.
Lemma ring_arg r R0 g : - (Rabs (s * r - R0 * s) * Rabs (s * r - R0 * s)) / (2 * (g * s) * (g * s)) =
  - (Rabs (r - R0 * 1) * Rabs (r - R0 * 1)) / (2 * (g * 1) * (g * 1)).
Proof.
  replace (s * r - R0 * s) with (s * (r - R0 * 1)) by ring. rewrite !Rabs_mult, (Rabs_pos_eq s) by lra. sring.
Qed.
Lemma Ring_s A R0 g r : GaussianRing_intensity NumR (A * kap) (R0 * s) (2 * (g * s) * (g * s)) (s * r) =
  kap * GaussianRing_intensity NumR (A * 1) (R0 * 1) (2 * (g * 1) * (g * 1)) r.
Proof. unfold GaussianRing_intensity. cbn [nmul ndiv nneg nexp nsub nabs NumR]. rewrite ring_arg. ring. Qed.
Lemma Ring2_s A R0 g g' r : GaussianRing2Side_intensity NumR (A * kap) (R0 * s) (2 * (g * s) * (g * s)) (2 * (g' * s) * (g' * s)) (s * r) =
  kap * GaussianRing2Side_intensity NumR (A * 1) (R0 * 1) (2 * (g * 1) * (g * 1)) (2 * (g' * 1) * (g' * 1)) r.
Proof.
  unfold GaussianRing2Side_intensity. cbn [nmul ndiv nneg nexp nsub nabs nltb NumR]. rewrite ltb_s.
  destruct (Rltb _ _); rewrite ring_arg; ring.
Qed.
Lemma Ferrers_s I a n r : Ferrers_intensity NumR (I * kap) (a * s * (a * s)) n (s * r) =
  kap * Ferrers_intensity NumR (I * 1) (a * 1 * (a * 1)) n r.
Proof.
  unfold Ferrers_intensity. cbn [nmul ndiv nneg nexp nsub nabs nltb npow nofZ NumR].
  replace (s * r * (s * r) / (a * s * (a * s))) with (r * r / (a * 1 * (a * 1))) by sring.
  destruct (Rltb _ _); ring.
Qed.
Lemma EdgeRing_s A R0 g gz r z :
  EdgeOnRing_intensity NumR (A * kap) (R0 * s) (- (R0 * s)) (2 * (g * s) * (g * s)) (2 * (gz * s) * (gz * s)) (s * r) (s * z) =
  kap * EdgeOnRing_intensity NumR (A * 1) (R0 * 1) (- (R0 * 1)) (2 * (g * 1) * (g * 1)) (2 * (gz * 1) * (gz * 1)) r z.
Proof.
  unfold EdgeOnRing_intensity. cbn [nadd nmul ndiv nneg nexp nsub nabs nltb npow nofZ NumR].
  replace (s * z * (s * z) / (2 * (gz * s) * (gz * s))) with (z * z / (2 * (gz * 1) * (gz * 1))) by sring.
  replace (- ((R0 * s - s * r) * (R0 * s - s * r)) / (2 * (g * s) * (g * s)))
     with (- ((R0 * 1 - r) * (R0 * 1 - r)) / (2 * (g * 1) * (g * 1))) by sring.
  replace (- ((- (R0 * s) - s * r) * (- (R0 * s) - s * r)) / (2 * (g * s) * (g * s)))
     with (- ((- (R0 * 1) - r) * (- (R0 * 1) - r)) / (2 * (g * 1) * (g * 1))) by sring.
  ring.
Qed.
Lemma EdgeRing2_s A R0 g g' gz r z :
  EdgeOnRing2Side_intensity NumR (A * kap) (- R0 * s) (- (- R0 * s)) (2 * (g * s) * (g * s)) (2 * (g' * s) * (g' * s)) (2 * (gz * s) * (gz * s)) (s * r) (s * z) =
  kap * EdgeOnRing2Side_intensity NumR (A * 1) (- R0 * 1) (- (- R0 * 1)) (2 * (g * 1) * (g * 1)) (2 * (g' * 1) * (g' * 1)) (2 * (gz * 1) * (gz * 1)) r z.
Proof.
  unfold EdgeOnRing2Side_intensity. cbn [nadd nmul ndiv nneg nexp nsub nabs nltb npow nofZ NumR].
  replace (s * z * (s * z) / (2 * (gz * s) * (gz * s))) with (z * z / (2 * (gz * 1) * (gz * 1))) by sring.
  rewrite ltb_s. replace (- (- R0 * s)) with (R0 * s) by ring. replace (- (- R0 * 1)) with (R0 * 1) by ring. rewrite ltb_s.
  assert (F : forall a gg, - ((s * r - a * s) * (s * r - a * s)) / (2 * (gg * s) * (gg * s)) =
                           - ((r - a * 1) * (r - a * 1)) / (2 * (gg * 1) * (gg * 1))) by (intros; sring).
  destruct (Rltb _ _); [|destruct (Rltb _ _)]; rewrite !F; ring.
Qed.
Lemma Broken2_s I S h1 h2 rb al ex de hz r z :
  BrokenExp2D_intensity NumR (I * kap * S) (h1 * s) (h2 * s) (rb * s) (al / s) ex de (hz * s) (s * r) (s * z) =
  kap * BrokenExp2D_intensity NumR (I * 1 * S) (h1 * 1) (h2 * 1) (rb * 1) (al / 1) ex de (hz * 1) r z.
Proof.
  unfold BrokenExp2D_intensity. cbn [nmul ndiv nneg nexp nsub nadd nabs npow nofZ nltb NumR].
  rewrite !Rabs_mult, (Rabs_pos_eq s) by lra.
  rewrite broken_ar, sc1, !sc1n. destruct (Rltb _ _); ring.
Qed.
Lemma RingAz_s A m R0 g r t :
  GaussianRingAz_intensity NumR (half NumR * (A * kap + m * (A * kap))) (half NumR * (A * kap - m * (A * kap)))
     (R0 * s) (2 * (g * s) * (g * s)) (s * r) t =
  kap * GaussianRingAz_intensity NumR (half NumR * (A * 1 + m * (A * 1))) (half NumR * (A * 1 - m * (A * 1)))
     (R0 * 1) (2 * (g * 1) * (g * 1)) r t.
Proof. unfold GaussianRingAz_intensity. cbn [nmul ndiv nneg nexp nsub nadd ncos nofZ nabs NumR]. rewrite ring_arg. ring. Qed.

Lemma Setup_seen K1 k ps off xc yc xc' yc' o o' u v :
  Setup NumR K1 k d ps off xc yc = Ok o -> Setup NumR K1 k (default_desc NumR) ps off xc' yc' = Ok o' ->
  follows_description k = true -> (k = GaussianRingAz -> u <> 0 \/ v <> 0) ->
  (k = GenExponential \/ k = GenSersic \/ k = FerrersBar2D -> nth (2 + off) ps 0 <> -2) ->
  ob_point o (seen_x d u v) (seen_y d u v) = kap * ob_point o' u v.
Proof.
  intros H H' Hk Hz Hc.
  destruct k; cbn [follows_description] in Hk; try discriminate Hk.
  all: cbn [Setup] in H, H'; unfold make_Exponential, make_Gaussian, make_Sersic, make_Moffat, make_ModifiedKing, make_ModifiedKing2,
    make_CoreSersic, make_NukerLaw, make_BrokenExponential, make_DoubleBrokenExponential, make_FlatExponential,
    make_GaussianRing, make_GaussianRing2Side, make_GenExponential, make_GenExponential2, make_GenSersic,
    make_FerrersBar2D, make_GaussianRingAz, make_EdgeOnRing, make_EdgeOnRing2Side, make_EdgeOnDisk,
    make_BrokenExponential2D, make_FlatSky, make_TiltedSkyPlane in H, H';
    getsE H; getsE H'; cbv zeta in H, H'; apply Ok_inj in H; apply Ok_inj in H'; subst o o'; nths;
    cbn [elliptical gen_elliptical ob_point ob_nsub fst snd default_desc imageRotation pixelScaling intensityScale nsub nadd nmul ndiv nneg nofZ nsqrt npow nexp nabs natan2 NumR Nat.add] in *;
    fold s rho kap; rewrite ?radius_seen.
  - apply Exp_s.
  - apply Gaussian_s.
  - apply Sersic_s.
  - apply Moffat_s.
  - replace (nth (S (S (S (S off)))) ps 0 * s / (nth (S (S (S off))) ps 0 * s)) with
      (nth (S (S (S (S off)))) ps 0 * 1 / (nth (S (S (S off))) ps 0 * 1)) by sring. apply King_s.
  - replace (nth (S (S (S (S off)))) ps 0 * (nth (S (S (S off))) ps 0 * s) / (nth (S (S (S off))) ps 0 * s)) with
      (nth (S (S (S (S off)))) ps 0 * (nth (S (S (S off))) ps 0 * 1) / (nth (S (S (S off))) ps 0 * 1)) by sring.
    rewrite <- !Rmult_assoc. apply King_s.
  - rewrite broken_ex, broken_de, broken_ab. apply Broken_s.
  - apply Ring_s.
  - apply Ring2_s.
  - rewrite gen_radius_seen by (specialize (Hc ltac:(auto)); lra). apply Exp_s.
  - rewrite gen_radius_seen by (specialize (Hc ltac:(auto)); lra). apply Sersic_s.
  - rewrite gen_radius_seen by (specialize (Hc ltac:(auto)); lra). apply Ferrers_s.
  - rewrite RingAz_s. f_equal. unfold GaussianRingAz_intensity. cbn [nmul ndiv nneg nexp nsub nadd ncos nofZ nabs NumR].
    rewrite deg_eq. replace ((nth off ps 0 - rho + 90) * deg) with ((nth off ps 0 - 0 + 90) * deg - rho * deg) by ring.
    rewrite azimuth_seen by auto. reflexivity.
  - rewrite along_seen, across_seen, Rabs_mult, (Rabs_pos_eq s) by lra. apply EdgeRing_s.
  - rewrite along_seen, across_seen, Rabs_mult, (Rabs_pos_eq s) by lra. apply EdgeRing2_s.
  - rewrite along_seen, across_seen, broken_ex, broken_de, broken_ab. apply Broken2_s.
  - ring.
Qed.

Lemma Disk_s K1 L h z0 al r z :
  EdgeOnDisk_intensity NumR K1 (2 * (h * s) * (L * kap)) (h * s) (z0 * s) (al * (z0 * s)) (Rpow 2 al) al (s * r) (s * z) =
  s * kap * EdgeOnDisk_intensity NumR K1 (2 * (h * 1) * (L * 1)) (h * 1) (z0 * 1) (al * (z0 * 1)) (Rpow 2 al) al r z.
Proof.
  unfold EdgeOnDisk_intensity. cbn [nmul ndiv nneg nexp nsub nadd nofZ nabs neqb nltb ncosh npow NumR].
  replace (s * z / (al * (z0 * s))) with (z / (al * (z0 * 1))) by sring.
  rewrite sc1, sc1n.
  assert (Z : Reqb (s * r) 0 = Reqb r 0).
  { unfold Reqb. destruct (Req_EM_T (s * r) 0), (Req_EM_T r 0); try reflexivity; exfalso; nra. }
  rewrite Z. destruct (Reqb r 0), (Rltb _ _); ring.
Qed.
End Cov.

Lemma value_plain K1 k d ps off xc yc o x y : Setup NumR K1 k d ps off xc yc = Ok o ->
  value_at NumR K1 k d ps off xc yc false x y = Ok (ob_point o (x - xc) (y - yc)).
Proof.
  intros E. unfold value_at. rewrite E. cbn [bind]. destruct (Setup_basic E) as (A & B & _).
  rewrite (Setup_plain E). unfold plain. now rewrite A, B.
Qed.

Lemma C57_seen_proof K1 k d ps off xc yc xc' yc' u v :
  (off + nParams k <= length ps)%nat -> 0 < pixelScaling d -> follows_description k = true ->
  (k = GaussianRingAz -> u <> 0 \/ v <> 0) ->
  (k = GenExponential \/ k = GenSersic \/ k = FerrersBar2D -> nth (2 + off) ps 0 <> -2) ->
  exists b,
    value_at NumR K1 k (default_desc NumR) ps off xc yc false (xc + u) (yc + v) = Ok b /\
    value_at NumR K1 k d ps off xc' yc' false (xc' + seen_x d u v) (yc' + seen_y d u v) = Ok (intensityScale d * b).
Proof.
  intros L Ps Hk Hz Hc. destruct (@Setup_total _ NumR K1 k (default_desc NumR) ps off xc yc L) as (o' & E').
  destruct (@Setup_total _ NumR K1 k d ps off xc' yc' L) as (o & E).
  exists (ob_point o' u v). rewrite (value_plain _ _ E), (value_plain _ _ E').
  replace (xc + u - xc) with u by ring. replace (yc + v - yc) with v by ring. split; auto.
  replace (xc' + seen_x d u v - xc') with (seen_x d u v) by ring.
  replace (yc' + seen_y d u v - yc') with (seen_y d u v) by ring.
  now rewrite (Setup_seen Ps E E').
Qed.

(** ---- AdjustParametersForImage() ---- *)

Definition adjusted_at (k : Kind) (d : ImageDesc R) (i : nat) (v w : R) : R :=
  match nth i (adjustments k) None with Some a => adjust1 NumR d a v | None => w end.

Lemma nth_upd_R (l : list R) i j v : (i < length l)%nat -> nth j (upd l i v) 0 = if Nat.eqb j i then v else nth j l 0.
Proof.
  intros H. destruct (Nat.eqb_spec j i) as [->|Hn].
  - apply nth_error_nth. rewrite nth_error_upd. rewrite Nat.eqb_refl.
    destruct (Nat.ltb_spec i (length l)); [reflexivity|lia].
  - destruct (nth_error l j) as [x|] eqn:E.
    + rewrite (nth_error_nth _ _ _ E). apply nth_error_nth. rewrite nth_error_upd.
      destruct (Nat.eqb_spec i j); [congruence|exact E].
    + rewrite !nth_overflow; auto. now apply nth_error_None. rewrite upd_length. now apply nth_error_None.
Qed.

Lemma adjust_spec k d input adj off : (off + nParams k <= length input)%nat -> (off + nParams k <= length adj)%nat ->
  exists adj', AdjustParametersForImage NumR k d input adj off = Ok adj' /\ length adj' = length adj /\
  (forall i, (i < nParams k)%nat -> nth (i + off) adj' 0 = adjusted_at k d i (nth (i + off) input 0) (nth (i + off) adj 0)) /\
  (forall j, (j < off \/ off + nParams k <= j)%nat -> nth j adj' 0 = nth j adj 0).
Proof.
  intros Li La. unfold AdjustParametersForImage.
  assert (En : length (adjustments k) = nParams k) by (destruct k; reflexivity). rewrite En.
  destruct (@for_inv (list R) (fun j a => length a = length adj /\
     (forall i, (i < j)%nat -> nth (i + off) a 0 = adjusted_at k d i (nth (i + off) input 0) (nth (i + off) adj 0)) /\
     (forall m, (m < off \/ off + j <= m)%nat -> nth m a 0 = nth m adj 0))
   (fun i adjusted =>
    match nth i (adjustments k) None with
    | Some a => do v <- get input (i + off)%nat;
                set adjusted (i + off)%nat (adjust1 NumR d a v)
    | None => Ok adjusted
    end) (nParams k) adj) as (r & Er & I).
  - split; auto. split; [intros; lia|auto].
  - intros j a Hj (L & A & B). 
    destruct (nth j (adjustments k) None) as [x|] eqn:Ea.
    + destruct (@get_lt _ input (j + off)) as (v & Ev); [lia|]. rewrite Ev. cbn [bind].
      rewrite set_lt by lia. eexists. split; [reflexivity|]. rewrite upd_length. split; auto. split.
      * intros i Hi. rewrite nth_upd_R by lia. destruct (Nat.eqb_spec (i + off) (j + off)).
        -- assert (i = j) by lia. subst i. unfold adjusted_at. rewrite Ea. now rewrite (get_nth_ok Ev).
        -- apply A. lia.
      * intros m Hm. rewrite nth_upd_R by lia. destruct (Nat.eqb_spec m (j + off)); [lia|]. apply B. lia.
    + eexists. split; [reflexivity|]. split; auto. split.
      * intros i Hi. destruct (Nat.eq_dec i j) as [->|]; [|apply A; lia]. unfold adjusted_at. rewrite Ea. apply B. lia.
      * intros m Hm. apply B. lia.
  - exists r. tauto.
Qed.

Lemma adj_PA d v : adjust1 NumR d PA_ v - 0 = v - imageRotation d. Proof. cbn. ring. Qed.
Lemma adj_len d v : adjust1 NumR d Len v * 1 = v * pixelScaling d. Proof. cbn. ring. Qed.
Lemma adj_lenn d v : - adjust1 NumR d Len v * 1 = - v * pixelScaling d. Proof. cbn. ring. Qed.
Lemma adj_inv d v : adjust1 NumR d Inv v / 1 = v / pixelScaling d. Proof. cbn. unfold Rdiv. rewrite Rinv_1. ring. Qed.
Lemma adj_int d v : adjust1 NumR d Int v * 1 = v * intensityScale d. Proof. cbn. ring. Qed.

Lemma Setup_adjusted K1 k d ps ps' off xc yc o o' :
  Setup NumR K1 k d ps off xc yc = Ok o -> Setup NumR K1 k (default_desc NumR) ps' off xc yc = Ok o' ->
  (forall i, (i < nParams k)%nat -> nth (i + off) ps' 0 = adjusted_at k d i (nth (i + off) ps 0) (nth (i + off) ps 0)) ->
  forall x y, ob_point o' x y = ob_point o x y /\ forall s, ob_nsub o' s x y = ob_nsub o s x y.
Proof.
  intros H H' A x y.
  pose proof (A 0%nat) as E0. pose proof (A 1%nat) as E1. pose proof (A 2%nat) as E2. pose proof (A 3%nat) as E3. pose proof (A 4%nat) as E4.
  pose proof (A 5%nat) as E5. pose proof (A 6%nat) as E6. pose proof (A 7%nat) as E7. pose proof (A 8%nat) as E8.
  pose proof (A 9%nat) as E9. clear A.
  destruct k; cbn [nParams adjusted_at adjustments nth repeat Nat.add] in *;
    repeat match goal with E : (?i < ?n)%nat -> _ |- _ => first [specialize (E ltac:(lia)) | clear E] end;
    cbn [Setup] in H, H'; unfold make_Exponential, make_Gaussian, make_Sersic, make_Moffat, make_ModifiedKing, make_ModifiedKing2,
    make_CoreSersic, make_NukerLaw, make_BrokenExponential, make_DoubleBrokenExponential, make_FlatExponential,
    make_GaussianRing, make_GaussianRing2Side, make_GenExponential, make_GenExponential2, make_GenSersic,
    make_FerrersBar2D, make_GaussianRingAz, make_EdgeOnRing, make_EdgeOnRing2Side, make_EdgeOnDisk,
    make_BrokenExponential2D, make_FlatSky, make_TiltedSkyPlane in H, H';
    getsE H; getsE H'; cbv zeta in H, H'; apply Ok_inj in H; apply Ok_inj in H'; subst o o'; nths;
    unfold adjusted_at in *; cbn [adjustments nth repeat] in *;
    repeat match goal with E : nth _ ps' 0 = _ |- _ => rewrite !E; clear E end;
    cbn [elliptical gen_elliptical ob_point ob_nsub fst snd default_desc imageRotation pixelScaling intensityScale nsub nadd nmul ndiv nneg nofZ NumR];
    rewrite ?adj_PA, ?adj_len, ?adj_lenn, ?adj_inv, ?adj_int.
  all: cbn [adjust1]; try (split; auto; fail).
Qed.

Lemma C57_adjust_proof K1 k d ps off xc yc : (off + nParams k <= length ps)%nat ->
  exists ps', AdjustParametersForImage NumR k d ps ps off = Ok ps' /\ length ps' = length ps /\
  (forall j, (j < off \/ off + nParams k <= j)%nat -> nth j ps' 0 = nth j ps 0) /\
  forall s x y, value_at NumR K1 k (default_desc NumR) ps' off xc yc s x y = value_at NumR K1 k d ps off xc yc s x y.
Proof.
  intros L. destruct (@adjust_spec k d ps ps off L L) as (ps' & E & Ll & A & B).
  exists ps'. repeat split; auto. intros s x y.
  destruct (@Setup_total _ NumR K1 k d ps off xc yc L) as (o & Eo).
  destruct (@Setup_total _ NumR K1 k (default_desc NumR) ps' off xc yc) as (o' & Eo'); [lia|].
  unfold value_at. rewrite Eo, Eo'. cbn [bind].
  pose proof (Setup_adjusted Eo Eo' A) as S.
  destruct (Setup_basic Eo) as (P & Q & _), (Setup_basic Eo') as (P' & Q' & _).
  apply value_ext; try congruence; intros u v; apply S.
Qed.

Lemma C57_ignored_proof K1 k d d' ps off xc yc s x y : uses_description k = false ->
  value_at NumR K1 k d ps off xc yc s x y = value_at NumR K1 k d' ps off xc yc s x y.
Proof. intros H. destruct k; discriminate H || reflexivity. Qed.

Lemma C57_disk_proof K1 d ps off xc yc xc' yc' u v :
  (off + 5 <= length ps)%nat -> 0 < pixelScaling d ->
  exists b,
    value_at NumR K1 EdgeOnDisk (default_desc NumR) ps off xc yc false (xc + u) (yc + v) = Ok b /\
    value_at NumR K1 EdgeOnDisk d ps off xc' yc' false (xc' + seen_x d u v) (yc' + seen_y d u v) =
      Ok (pixelScaling d * intensityScale d * b).
Proof.
  intros L Ps. destruct (@Setup_total _ NumR K1 EdgeOnDisk (default_desc NumR) ps off xc yc L) as (o' & E').
  destruct (@Setup_total _ NumR K1 EdgeOnDisk d ps off xc' yc' L) as (o & E).
  exists (ob_point o' u v). rewrite (value_plain _ _ E), (value_plain _ _ E').
  replace (xc + u - xc) with u by ring. replace (yc + v - yc) with v by ring. split; auto.
  replace (xc' + seen_x d u v - xc') with (seen_x d u v) by ring.
  replace (yc' + seen_y d u v - yc') with (seen_y d u v) by ring. f_equal.
  cbn [Setup] in E, E'. unfold make_EdgeOnDisk in E, E'.
  getsE E; getsE E'; cbv zeta in E, E'; apply Ok_inj in E; apply Ok_inj in E'; subst o o'; nths.
  cbn [ob_point fst snd default_desc imageRotation pixelScaling intensityScale nsub nadd nmul ndiv nneg nofZ nabs npow NumR Nat.add].
  rewrite along_seen, across_seen, !Rabs_mult, !(Rabs_pos_eq (pixelScaling d)) by lra.
  apply Disk_s; auto.
Qed.
