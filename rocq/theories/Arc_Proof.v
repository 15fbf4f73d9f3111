(** Proofs about LogSpiralArc (C93). *)
From Coq Require Import Reals Lra Lia List ZArith.
From Verif Require Import Arc_Spec Func_Proof Func_Profile Spiral_Proof.
Set Implicit Arguments. Unset Strict Implicit.
Local Open Scope R_scope.

Lemma M_PI_eq : M_PI NumR = PI.
Proof.
  unfold M_PI. cbn [natan2 nneg nofZ NumR]. unfold Ratan2. destruct (Rlt_dec 0 (- (1))); [lra|]. destruct (Rlt_dec (- (1)) 0); [|lra].
  destruct (Rle_dec 0 0); [|lra]. replace (0 / - (1)) with 0 by field. rewrite atan_0. ring.
Qed.
Lemma Ratan2_bound y x : - PI < Ratan2 y x <= PI.
Proof.
  pose proof PI_RGT_0. unfold Ratan2. pose proof (atan_bound (y / x)) as B.
  destruct (Rlt_dec 0 x); [lra|]. destruct (Rlt_dec x 0).
  - destruct (Rle_dec 0 y) as [Y|Y].
    + split; [lra|]. assert (y / x <= 0). { unfold Rdiv. assert (/ x < 0) by now apply Rinv_lt_0_compat. nra. }
      assert (atan (y / x) <= 0); [|lra]. rewrite <- atan_0. destruct H0 as [H0|H0]; [left; now apply atan_increasing|right; now rewrite H0].
    + split; [|lra]. assert (0 < y / x). { unfold Rdiv. assert (/ x < 0) by now apply Rinv_lt_0_compat. nra. }
      apply atan_increasing in H0. rewrite atan_0 in H0. lra.
  - destruct (Rlt_dec 0 y); [lra|]. destruct (Rlt_dec y 0); lra.
Qed.
Lemma std_angle rho phi : 0 < rho -> exists j, GetStdAngle NumR (rho * cos phi) (rho * sin phi) = phi + IZR j * (2 * PI) /\
  0 <= phi + IZR j * (2 * PI) < 2 * PI.
Proof.
  intros P. unfold GetStdAngle. cbn [natan2 nadd nsub nmul nleb nofZ NumR]. rewrite M_PI_eq.
  pose proof (Ratan2_bound (rho * sin phi) (rho * cos phi)) as B. destruct (@atan2_polar rho phi P) as (k & E). rewrite E in *.
  pose proof PI_RGT_0. destruct (Rleb (2 * PI) (2 * PI + (phi + IZR k * (2 * PI)))) eqn:C.
  - apply Rleb_true in C. exists k. split; lra.
  - apply Rleb_false in C. exists (k + 1)%Z. rewrite plus_IZR. split; lra.
Qed.

(** the two angles *)
Definition sp_ref (tm : R) : R := if andb (Rleb 0 tm) (Rleb tm PI) then - tm else 2 * PI - tm.
Lemma theta_both tm d j : 0 <= tm < 2 * PI -> - PI < d < PI -> 0 <= tm + d + IZR j * (2 * PI) < 2 * PI ->
  GetThetaRel NumR (sp_ref tm) (tm + d + IZR j * (2 * PI)) = d + PI /\ GetThetaDiff NumR tm (tm + d + IZR j * (2 * PI)) = d.
Proof.
  intros Tm D B. pose proof PI_RGT_0 as HP.
  assert (J : (-2 < j < 2)%Z).
  { split; apply lt_IZR; apply (Rmult_lt_reg_r (2 * PI)); lra. }
  unfold GetThetaRel, GetThetaDiff, sp_ref. cbn [nadd nsub nmul nneg nltb nofZ NumR]. rewrite M_PI_eq.
  assert (j = -1 \/ j = 0 \/ j = 1)%Z as [->|[->| ->]] by lia;
  (destruct (Rleb 0 tm) eqn:E0; [|apply Rleb_false in E0; lra]); (destruct (Rleb tm PI) eqn:E1; [apply Rleb_true in E1|apply Rleb_false in E1]);
  cbn [andb]; (split;
  [ match goal with |- context [if Rltb ?a 0 then _ else _] => destruct (Rltb a 0) eqn:E2; [apply Rltb_true in E2|apply Rltb_false in E2] end; lra
  | match goal with |- context [Rltb ?a tm] => destruct (Rltb a tm) eqn:E2; [apply Rltb_true in E2|apply Rltb_false in E2] end;
    match goal with |- context [if Rltb PI ?a then _ else _] => destruct (Rltb PI a) eqn:E3; [apply Rltb_true in E3|apply Rltb_false in E3] end; lra ]).
Qed.
Lemma theta_rel_max tm : 0 <= tm < 2 * PI -> GetThetaRel NumR (sp_ref tm) tm = PI.
Proof.
  intros H. pose proof PI_RGT_0. destruct (@theta_both tm 0 0 H ltac:(lra)) as (E & _); [lra|].
  replace (tm + 0 + 0 * (2 * PI)) with tm in E by ring. lra.
Qed.
(** a negative angle of greatest brightness *)
Lemma theta_negative tm : - (2 * PI) < tm < 0 ->
  GetThetaRel NumR (sp_ref tm) tm = PI /\ GetThetaRel NumR (sp_ref tm) (tm + 2 * PI) = 3 * PI /\ GetThetaDiff NumR tm (tm + 2 * PI) = 0.
Proof.
  intros H. pose proof PI_RGT_0 as HP. unfold GetThetaRel, GetThetaDiff, sp_ref. cbn [nadd nsub nmul nneg nltb nofZ NumR]. rewrite M_PI_eq.
  rewrite (proj2 (Rleb_false 0 tm)) by lra. cbn [andb].
  rewrite (proj2 (Rltb_false (tm - (PI - (2 * PI - tm))) 0)) by lra.
  rewrite (proj2 (Rltb_false (tm + 2 * PI - (PI - (2 * PI - tm))) 0)) by lra.
  rewrite (proj2 (Rltb_false (tm + 2 * PI) tm)) by lra. rewrite (proj2 (Rltb_true PI (tm + 2 * PI - tm))) by lra. repeat split; ring.
Qed.

Section Main.
Variable params : list R.
Variable offset : nat.
Hypothesis Len : (offset + 9 <= length params)%nat.
Let p (i : nat) : R := nth (offset + i) params 0.
Variables x0 y0 : R.
Hypothesis Face : p 1%nat = 0.

Lemma arc_value rho phi : 0 < rho -> exists t, t = GetStdAngle NumR (rho * cos phi) (rho * sin phi) /\
  LogSpiralArc_value NumR params offset x0 y0 (x0 + rho * cos phi) (y0 + rho * sin phi) =
  let tm := p 4%nat * deg in
  let tp := tan (p 3%nat * deg) in
  let d := GetThetaDiff NumR tm t in
  Ok (p 5%nat * bell ((if Rle_dec 0 d then p 7%nat else p 8%nat) * deg) d *
      bell (p 6%nat) (rho - p 2%nat * exp (tp * (GetThetaRel NumR (sp_ref tm) t - GetThetaRel NumR (sp_ref tm) tm)))).
Proof.
  intros P. eexists. split; [reflexivity|]. unfold LogSpiralArc_value. rewrite !(params_get Len) by lia. cbn [bind].
  change (fun i => nth (offset + i) params 0) with p.
  pose proof (@polar_seen x0 y0 (p 0%nat) 0 rho (phi - (p 0%nat + 90) * deg) ltac:(lra) ltac:(lra)) as PS. cbn zeta in PS.
  assert (S : seen_at x0 y0 (p 0%nat) 0 rho (phi - (p 0%nat + 90) * deg) = (x0 + rho * cos phi, y0 + rho * sin phi)).
  { unfold seen_at. set (a := (p 0%nat + 90) * deg). rewrite Rminus_0_r, !Rmult_1_l.
    assert (C : cos phi = cos (phi - a) * cos a - sin (phi - a) * sin a) by (rewrite <- cos_plus; f_equal; ring).
    assert (Z : sin phi = sin (phi - a) * cos a + cos (phi - a) * sin a) by (rewrite <- sin_plus; f_equal; ring).
    rewrite C, Z. f_equal; ring. }
  rewrite S in PS. cbn [fst snd] in PS. unfold polar in PS. apply (f_equal fst) in PS. cbn [fst] in PS.
  change (nth (offset + 0) params 0) with (p 0%nat). change (nth (offset + 1) params 0) with (p 1%nat). rewrite Face.
  cbn [nadd nsub nmul ndiv nneg nsqrt nofZ NumR] in PS |- *. rewrite PS. clear PS S.
  replace (x0 + rho * cos phi - x0) with (rho * cos phi) by ring. replace (y0 + rho * sin phi - y0) with (rho * sin phi) by ring.
  rewrite deg_eq, M_PI_eq. cbn [nsin ncos nexp nleb NumR].
  change (nth (offset + 2) params 0) with (p 2%nat). change (nth (offset + 3) params 0) with (p 3%nat). change (nth (offset + 4) params 0) with (p 4%nat).
  change (nth (offset + 5) params 0) with (p 5%nat). change (nth (offset + 6) params 0) with (p 6%nat). change (nth (offset + 7) params 0) with (p 7%nat).
  change (nth (offset + 8) params 0) with (p 8%nat).
  change (if (Rleb 0 (p 4%nat * deg) && Rleb (p 4%nat * deg) PI)%bool then - (p 4%nat * deg) else 2 * PI - p 4%nat * deg) with (sp_ref (p 4%nat * deg)).
  set (t := GetStdAngle NumR _ _). set (d := GetThetaDiff NumR _ _). fold (tan (p 3%nat * deg)). set (tp := tan _).
  set (A := GetThetaRel NumR _ t). set (B := GetThetaRel NumR _ (p 4%nat * deg)). cbn zeta. f_equal. f_equal.
  - unfold bell, Rleb. destruct (Rle_dec 0 d); reflexivity.
  - unfold bell. replace (p 2%nat * exp (tp * (A - B))) with (p 2%nat / exp (tp * B) * exp (tp * A)); [reflexivity|].
    unfold Rdiv. rewrite <- exp_Ropp, Rmult_assoc, <- exp_plus. do 2 f_equal. ring.
Qed.
End Main.
