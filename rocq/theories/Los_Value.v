(** Proofs about line-of-sight integration: what a pixel shows. *)
From Coq Require Import Reals Lra Lia List ZArith.
From Coquelicot Require Import Coquelicot.
From Verif Require Import Los_Spec Func_Proof Func_Profile Los_Proof.
Import ListNotations.
Set Implicit Arguments. Unset Strict Implicit.
Local Open Scope R_scope.

Lemma get_nth_in (ps : list R) i : (i < length ps)%nat -> get ps i = Ok (nth i ps 0).
Proof. intros H. destruct (get_lt _ H) as (v & E). now rewrite (get_nth_ok E). Qed.

Section Value.
Variable k : Kind3.
Variable d : ImageDesc R.
Variable ps : list R.
Variable off : nat.
Hypothesis Len : (off + nParams3 k <= length ps)%nat.
Notation p i := (nth (i + off) ps 0).
Let phi := direction (p 0%nat) (imageRotation d).
Let inc := p 1%nat * deg.

Lemma dot_nodes x y s : x * cos phi + y * sin phi = dot (mkvec x y s) (nodes phi).
Proof. unfold dot, nodes. cbn [vx vy vz]. ring. Qed.
Lemma dot_across x y s : (- x * sin phi + y * cos phi) * cos inc + s * sin inc = dot (mkvec x y s) (across phi inc).
Proof. unfold dot, across. cbn [vx vy vz]. ring. Qed.
Lemma dot_pole x y s : (- x * sin phi + y * cos phi) * sin inc - s * cos inc = dot (mkvec x y s) (pole phi inc).
Proof. unfold dot, pole. cbn [vx vy vz]. ring. Qed.
Lemma dot_plane v t : dot v (nodes phi) * cos t + dot v (across phi inc) * sin t = dot v (in_plane phi inc t).
Proof. unfold dot, in_plane, combine. cbn [vx vy vz]. ring. Qed.
Lemma dot_perp v t : - dot v (nodes phi) * sin t + dot v (across phi inc) * cos t = dot v (in_plane phi inc (t + PI / 2)).
Proof. unfold dot, in_plane, combine. cbn [vx vy vz]. rewrite cos_plus, sin_plus, cos_PI2, sin_PI2. ring. Qed.

(** the integrand *)
Definition integrand (xc yc x y : R) : R -> R :=
  match Setup3D NumR k d ps off xc yc with
  | Ok o =>
    let x_diff := x - xc in let y_diff := y - yc in
    let yp := - x_diff * sin phi + y_diff * cos phi in
    o3_density o (x_diff * cos phi + y_diff * sin phi) (yp * cos inc) (yp * sin inc)
  | _ => fun _ => 0
  end.

Lemma cosPA_eq PA : cosPA NumR PA = cos ((PA + 90) * deg).
Proof. unfold cosPA. rewrite deg_eq. reflexivity. Qed.
Lemma sinPA_eq PA : sinPA NumR PA = sin ((PA + 90) * deg).
Proof. unfold sinPA. rewrite deg_eq. reflexivity. Qed.

Lemma Rmax_nmax a b : nmax NumR a b = Rmax a b.
Proof. unfold nmax, Rmax. cbn [nltb NumR]. unfold Rltb. destruct (Rlt_dec a b), (Rle_dec a b); lra. Qed.
Lemma sqrt_sq_abs x y : 0 < x -> 0 < y -> sqrt (x * x * (y * y)) = x * y.
Proof. intros. replace (x * x * (y * y)) with ((x * y) * (x * y)) by ring. apply sqrt_square. nra. Qed.

Ltac gets := repeat match goal with |- context [get ps ?i] => rewrite (@get_nth_in ps i) by (cbn [nParams3] in Len; lia); cbn [bind] end.

Hypothesis Sens : sensible3 k d ps off.

Lemma value3_integrand Q xc yc x y :
  value3D NumR Q k d ps off xc yc x y = Ok (Q (integrand xc yc x y) (- reach k d ps off) (reach k d ps off)).
Proof.
  unfold value3D, integrand, reach. destruct k; cbn [Setup3D];
    unfold make_ExponentialDisk3D, make_BrokenExponentialDisk3D, make_GaussianRing3D, make_FerrersBar3D, make_DattathriPeanut3D;
    gets; unfold GetValue3D; cbn [o3_x0 o3_y0 o3_cosPA o3_sinPA o3_cosInc o3_sinInc o3_density o3_limit];
    cbn [nadd nsub nmul ndiv nneg ncos nsin nofZ NumR]; rewrite ?cosPA_eq, ?sinPA_eq, ?deg_eq, ?Rmax_nmax;
    fold inc; change ((nth (0 + off) ps 0 - imageRotation d + 90) * deg) with phi; try reflexivity.
  cbn [sensible3] in Sens. destruct Sens as (_ & H1 & H2 & _).
  cbn [nsqrt NumR ndec]. rewrite sqrt_sq_abs by auto.
  replace (101 / IZR (10 ^ 2)) with (101 / 100) by (f_equal; reflexivity). reflexivity.
Qed.

(** the coordinates of the point at depth s *)
Let P xc yc x y s := mkvec (x - xc) (y - yc) s.

Ltac open_integrand :=
  cbn [Setup3D];
  unfold make_ExponentialDisk3D, make_BrokenExponentialDisk3D, make_GaussianRing3D, make_FerrersBar3D, make_DattathriPeanut3D;
  gets; cbn [o3_density];
  unfold LuminosityDensity, LuminosityDensityBED, LuminosityDensityRing, LuminosityDensity_FerrersBar,
    LuminosityDensityDattathriPeanut3D, Compute3dObjectCoords, square;
  cbn [nadd nsub nmul ndiv nneg ncos nsin nofZ nexp npow nabs nsqrt ncosh nltb NumR];
  rewrite ?cosPA_eq, ?sinPA_eq, ?deg_eq; fold inc.

Lemma add_comm3 a b : (a + b) * deg = (b + a) * deg. Proof. now rewrite Rplus_comm. Qed.

Lemma ring_eq J a sg hz q u w z :
  J * exp (- (sqrt (u * u + w / q * (w / q)) - a) * (sqrt (u * u + w / q * (w / q)) - a) / (2 * sg * sg)) * exp (- Rabs z / hz)
  = gaussian_ring J a sg hz q u w z.
Proof.
  unfold gaussian_ring. cbv zeta. do 3 f_equal. unfold Rdiv. f_equal; [ring|]. f_equal. ring.
Qed.
Lemma ferrers_eq J Rb q qz n u w z : 0 < Rb -> 0 < q -> 0 < qz -> 0 < n ->
  (if Rltb 1 (u * u / (Rb * Rb) + w * w / (q * q * (Rb * Rb)) + Rabs z * Rabs z / (qz * qz * (Rb * Rb))) then 0
   else J * Rpow (1 - (u * u / (Rb * Rb) + w * w / (q * q * (Rb * Rb)) + Rabs z * Rabs z / (qz * qz * (Rb * Rb)))) n)
  = ferrers J Rb q qz n u (- w) z.
Proof.
  intros HR Hq Hz Hn. unfold ferrers. cbv zeta.
  assert (E : (u / Rb) ^ 2 + (- w / (q * Rb)) ^ 2 + (z / (qz * Rb)) ^ 2
    = u * u / (Rb * Rb) + w * w / (q * q * (Rb * Rb)) + Rabs z * Rabs z / (qz * qz * (Rb * Rb))).
  { replace (Rabs z * Rabs z) with (z * z) by (rewrite <- Rabs_mult; symmetry; apply Rabs_pos_eq; nra). field. repeat split; lra. }
  rewrite E. set (m := _ + _ + _). unfold Rltb. destruct (Rlt_dec 1 m), (Rlt_dec m 1); try lra; auto.
  - rewrite Rpow_eq by lra. reflexivity.
  - replace m with 1 by lra. replace (1 - 1) with 0 by ring. rewrite Rpow_0 by lra. ring.
Qed.
Lemma cosh_neg t : cosh (- t) = cosh t.
Proof. unfold cosh. rewrite Ropp_involutive. lra. Qed.
Lemma peanut_eq J Rx q qz Rp A sg c1 c2 u w z :
  (let z0 := A * exp (- ((u - Rp) * (u - Rp) / (2 * (sg * sg)) + w * w / (2 * (sg * sg))))
             + A * exp (- ((u + Rp) * (u + Rp) / (2 * (sg * sg)) + w * w / (2 * (sg * sg)))) + qz * Rx in
   let Rs := Rpow (Rpow (Rpow (Rabs u / Rx) c2 + Rpow (Rabs w / (q * Rx)) c2) (c1 / c2) + Rpow (Rabs z / z0) c1) (1 / c1) in
   J * Rpow (cosh (- Rs)) (- (2)))
  = peanut J Rx q qz Rp A sg c1 c2 u w z.
Proof.
  unfold peanut, peanut_height. cbv zeta.
  replace (((u - Rp) ^ 2 + w ^ 2) / (2 * sg ^ 2)) with ((u - Rp) * (u - Rp) / (2 * (sg * sg)) + w * w / (2 * (sg * sg)))
    by (unfold Rdiv; simpl; rewrite !Rmult_1_r; ring).
  replace (((u + Rp) ^ 2 + w ^ 2) / (2 * sg ^ 2)) with ((u + Rp) * (u + Rp) / (2 * (sg * sg)) + w * w / (2 * (sg * sg)))
    by (unfold Rdiv; simpl; rewrite !Rmult_1_r; ring).
  set (m := Rpow _ (1 / c1)). rewrite cosh_neg, Rpow_neg by apply cosh_pos. rewrite Rpow_2 by (apply Rlt_le, cosh_pos).
  unfold Rdiv. do 2 f_equal. ring.
Qed.

Lemma sum_sq x y : sqrt (x * x + y * y) = sqrt (x ^ 2 + y ^ 2). Proof. f_equal. ring. Qed.

Lemma integrand_close xc yc x y s : exists e, Rabs e <= guard_error k d ps off /\
  integrand xc yc x y s = luminosity k d ps off (actual_axis k ps off) (P xc yc x y s) * exp e.
Proof.
  unfold luminosity, guard_error, actual_axis, documented_axis, integrand. cbv zeta. fold phi. fold inc. destruct k.
  - destruct Sens as (HJ & Hh & Hn & Hz). open_integrand.
    rewrite (dot_nodes _ _ s), dot_across, dot_pole, sum_sq. fold (P xc yc x y s).
    destruct (vertical_close (dot (P xc yc x y s) (pole phi inc)) Hn Hz) as (e & He & E).
    exists e. split; [exact He|]. unfold exponential_disc.  rewrite E. ring.
  - destruct Sens as (HJ & Hh & Ha & Hn & Hz & H3). open_integrand.
    rewrite (dot_nodes _ _ s), dot_across, dot_pole, sum_sq. fold (P xc yc x y s).
    destruct (vertical_close (dot (P xc yc x y s) (pole phi inc)) Hn Hz) as (e & He & E).
    set (r := sqrt _). assert (Ha' : p 6%nat / pixelScaling d <> 0) by (lra).
    destruct (@radial_close (p 2%nat * intensityScale d) (p 3%nat * pixelScaling d) (p 4%nat * pixelScaling d)
      (p 5%nat * pixelScaling d) _ r Ha') as (e' & He' & E').
    exists (e' + e). split.
    + eapply Rle_trans; [apply Rabs_triang|]. apply Rplus_le_compat; [exact He'|exact He].
    + unfold broken_disc. rewrite exp_plus.  rewrite E.
      match type of E' with ?a = _ => match goal with |- ?b * _ = _ => change b with a end end.
      rewrite E'. ring.
  - exists 0. rewrite Rabs_R0, exp_0, Rmult_1_r. split; [lra|]. open_integrand.
    rewrite (dot_nodes _ _ s), dot_across, dot_pole, dot_plane, dot_perp. fold (P xc yc x y s).
    rewrite (add_comm3 (nth (2 + off) ps 0) 90). rewrite ring_eq. reflexivity.
  - exists 0. rewrite Rabs_R0, exp_0, Rmult_1_r. split; [lra|]. destruct Sens as (HJ & Hh & Hq & Hz & Hn). open_integrand.
    rewrite (dot_nodes _ _ s), dot_across, dot_pole, dot_plane, dot_perp. fold (P xc yc x y s).
    rewrite (add_comm3 (nth (2 + off) ps 0) 90). rewrite ferrers_eq by auto. f_equal.
    set (t := (90 + nth (2 + off) ps 0) * deg). replace (t + PI / 2 + PI / 2) with (t + PI) by field.
    unfold dot, in_plane, combine. cbn [vx vy vz]. rewrite neg_cos, neg_sin. ring.
  - exists 0. rewrite Rabs_R0, exp_0, Rmult_1_r. split; [lra|]. open_integrand.
    rewrite (dot_nodes _ _ s), dot_across, dot_pole, dot_plane, dot_perp. fold (P xc yc x y s).
    refine (eq_trans (peanut_eq _ _ _ _ _ _ _ _ _ _ _ _) _). reflexivity.
Qed.

Lemma integrand_integrable xc yc x y : integrable (integrand xc yc x y).
Proof.
  pose proof (integrand_close xc yc x y) as Close. unfold integrand in *. cbv zeta in *.
  destruct k.
  - destruct Sens as (HJ & Hh & Hn & Hz). 
    set (z0 := p 5%nat * pixelScaling d) in *. set (n := p 4%nat) in *.
    assert (H2 : 0 < 2 / n) by (apply Rdiv_lt_0_compat; lra).
    set (yp := - (x - xc) * sin phi + (y - yc) * cos phi). set (xp := (x - xc) * cos phi + (y - yc) * sin phi).
    set (pre := fun s => p 2%nat * intensityScale d * exp (- sqrt (xp * xp + (yp * cos inc + s * sin inc) * (yp * cos inc + s * sin inc)) / (p 3%nat * pixelScaling d))).
    assert (Cp : cont pre) by (unfold pre; conts).
    eapply integrable_ext with (f := fun s => if Rlt_dec (100 * (2 / n * z0)) (Rabs (yp * sin inc + - cos inc * s))
      then pre s * (Rpow 2 (2 / n) * exp (- Rabs (yp * sin inc - s * cos inc) / z0))
      else pre s * Rpow (1 / cosh (Rabs (yp * sin inc - s * cos inc) / (2 / n * z0))) (2 / n)).
    + intros s. open_integrand. unfold verticalScaling. cbn [nadd nsub nmul ndiv nneg nofZ nexp npow ncosh nltb NumR].
       fold n. fold z0. fold yp. fold xp. fold (pre s). unfold Rltb.
      replace (yp * sin inc + - cos inc * s) with (yp * sin inc - s * cos inc) by ring.
      set (z := Rabs _). assert (Hz2 : 0 < 2 / n * z0) by nra.
      assert (W : 100 * (2 / n * z0) < z <-> 100 < z / (2 / n * z0)).
      { split; intros W.
        - apply Rmult_lt_reg_r with (2 / n * z0); auto. unfold Rdiv at 2. rewrite Rmult_assoc, Rinv_l by lra. lra.
        - apply Rmult_lt_compat_r with (r := 2 / n * z0) in W; auto. unfold Rdiv at 2 in W. rewrite Rmult_assoc, Rinv_l in W by lra. lra. }
      destruct (Rlt_dec (100 * (2 / n * z0)) z), (Rlt_dec 100 (z / (2 / n * z0))); try tauto; reflexivity.
    + apply slab; apply cont_integrable; conts.
      apply cont_Rpow; auto.
      * apply cont_div; [apply cont_const|conts|]. intros s. apply Rgt_not_eq, cosh_pos.
      * intros s. apply Rlt_le, Rdiv_lt_0_compat; [lra|apply cosh_pos].
  - destruct Sens as (HJ & Hh & Ha & Hn & Hz & H3). 
    set (z0 := p 8%nat * pixelScaling d) in *. set (n := p 7%nat) in *. set (al := p 6%nat / pixelScaling d) in *.
    set (h1 := p 3%nat * pixelScaling d) in *. set (h2 := p 4%nat * pixelScaling d) in *. set (rb := p 5%nat * pixelScaling d) in *.
    assert (H2 : 0 < 2 / n) by (apply Rdiv_lt_0_compat; lra).
    set (yp := - (x - xc) * sin phi + (y - yc) * cos phi). set (xp := (x - xc) * cos phi + (y - yc) * sin phi).
    set (ex := 1 / al * (1 / h1 - 1 / h2)).
    set (I := p 2%nat * intensityScale d * Rpow (1 + exp (- al * rb)) (- ex)).
    set (r := fun s => sqrt (xp * xp + (yp * cos inc + s * sin inc) * (yp * cos inc + s * sin inc))).
    set (outer := fun s => I * exp (rb / h2 - rb / h1 - r s / h2)).
    set (inner := fun s => I * exp (- r s / h1) * Rpow (1 + exp (al * (r s - rb))) ex).
    assert (Cr : cont r) by (unfold r; conts).
    assert (Co : cont outer) by (unfold outer; conts).
    assert (Ci : cont inner).
    { unfold inner. apply cont_mult; [conts|]. apply cont_ext with (fun s => Rpower (1 + exp (al * (r s - rb))) ex).
      - intros s. rewrite Rpow_eq; auto. apply exp1_pos.
      - apply cont_Rpower; [conts|intros s; apply exp1_pos]. }
    set (far := fun s => Rpow 2 (2 / n) * exp (- Rabs (yp * sin inc - s * cos inc) / z0)).
    set (near := fun s => Rpow (1 / cosh (Rabs (yp * sin inc - s * cos inc) / (2 / n * z0))) (2 / n)).
    assert (Cf : cont far) by (unfold far; conts).
    assert (Cn : cont near).
    { unfold near. apply cont_Rpow; auto.
      * apply cont_div; [apply cont_const|conts|]. intros s. apply Rgt_not_eq, cosh_pos.
      * intros s. apply Rlt_le, Rdiv_lt_0_compat; [lra|apply cosh_pos]. }
    eapply integrable_ext with (f := fun s =>
      if Rlt_dec (rb + 100 / al) (sqrt (xp * xp + (yp * cos inc + sin inc * s) * (yp * cos inc + sin inc * s)))
      then (if Rlt_dec (100 * (2 / n * z0)) (Rabs (yp * sin inc + - cos inc * s)) then outer s * far s else outer s * near s)
      else (if Rlt_dec (100 * (2 / n * z0)) (Rabs (yp * sin inc + - cos inc * s)) then inner s * far s else inner s * near s)).
    + intros s. open_integrand. unfold verticalScaling. cbn [nadd nsub nmul ndiv nneg nofZ nexp npow ncosh nltb NumR].
       fold n. fold z0. fold h1. fold h2. fold rb. fold al. fold yp. fold xp. fold ex. fold I.
      replace (yp * sin inc + - cos inc * s) with (yp * sin inc - s * cos inc) by ring.
      rewrite (Rmult_comm (sin inc) s). fold (r s). fold (outer s). fold (inner s). fold (far s). fold (near s).
      unfold Rltb. set (z := Rabs _). assert (Hz2 : 0 < 2 / n * z0) by nra.
      assert (W : 100 * (2 / n * z0) < z <-> 100 < z / (2 / n * z0)).
      { split; intros W.
        - apply Rmult_lt_reg_r with (2 / n * z0); auto. unfold Rdiv at 2. rewrite Rmult_assoc, Rinv_l by lra. lra.
        - apply Rmult_lt_compat_r with (r := 2 / n * z0) in W; auto. unfold Rdiv at 2 in W. rewrite Rmult_assoc, Rinv_l in W by lra. lra. }
      assert (W' : rb + 100 / al < r s <-> 100 < al * (r s - rb)).
      { assert (Q : al * (100 / al) = 100) by (field; lra). split; intros V; nra. }
      destruct (Rlt_dec (rb + 100 / al) (r s)), (Rlt_dec 100 (al * (r s - rb))); try tauto;
      destruct (Rlt_dec (100 * (2 / n * z0)) z), (Rlt_dec 100 (z / (2 / n * z0))); try tauto; reflexivity.
    + apply cylinder; apply slab; apply cont_integrable; conts.
  - apply cont_integrable. apply cont_ext with (fun s => luminosity GaussianRing3D d ps off (actual_axis GaussianRing3D ps off) (P xc yc x y s)).
    + intros s. destruct (Close s) as (e & He & E). cbn [guard_error] in He.
      assert (e = 0) by (pose proof (Rabs_pos e); assert (X : Rabs e = 0) by lra; now apply Rabs_eq_0 in X).
      subst e. rewrite E, exp_0. ring.
    + unfold luminosity, gaussian_ring, P, dot. cbn [vx vy vz]. cbv zeta. conts.
  - apply cont_integrable. destruct Sens as (HJ & Hh & Hq & Hz & Hn).
    set (Rb := p 4%nat * pixelScaling d) in *.
    set (u := fun s => dot (P xc yc x y s) (in_plane phi inc (actual_axis FerrersBar3D ps off))).
    set (w := fun s => dot (P xc yc x y s) (in_plane phi inc (actual_axis FerrersBar3D ps off + PI / 2))).
    set (z := fun s => dot (P xc yc x y s) (pole phi inc)).
    set (m2 := fun s => (u s / Rb) ^ 2 + (w s / (p 5%nat * Rb)) ^ 2 + (z s / (p 6%nat * Rb)) ^ 2).
    assert (Cm : cont m2) by (unfold m2, u, w, z, P, dot; cbn [vx vy vz]; conts).
    apply cont_ext with (fun s => p 3%nat * intensityScale d * Rpow ((1 - m2 s + Rabs (1 - m2 s)) / 2) (p 7%nat)).
    + intros s. destruct (Close s) as (e & He & E). cbn [guard_error] in He.
      assert (e = 0) by (pose proof (Rabs_pos e); assert (X : Rabs e = 0) by lra; now apply Rabs_eq_0 in X).
      subst e. rewrite E, exp_0, Rmult_1_r. unfold luminosity, ferrers.  fold phi. fold inc. cbv zeta.
      fold Rb. fold (u s). fold (w s). fold (z s). fold (m2 s).
      destruct (Rlt_dec (m2 s) 1).
      * rewrite Rabs_pos_eq by lra. replace ((1 - m2 s + (1 - m2 s)) / 2) with (1 - m2 s) by lra. rewrite Rpow_eq by lra. reflexivity.
      * rewrite Rabs_left1 by lra. replace ((1 - m2 s + - (1 - m2 s)) / 2) with 0 by lra. rewrite Rpow_0 by lra. ring.
    + apply cont_mult; [apply cont_const|]. apply cont_Rpow; auto.
      * conts.
      * intros s. pose proof (Rle_abs (- (1 - m2 s))). rewrite Rabs_Ropp in H. lra.
  - apply cont_integrable. destruct Sens as (HJ & Hh & Hq & Hz & HA & H9 & H1 & H2).
    set (Rx := p 4%nat * pixelScaling d) in *. set (A := p 8%nat * pixelScaling d) in *.
    set (u := fun s => dot (P xc yc x y s) (in_plane phi inc (actual_axis DattathriPeanut3D ps off))).
    set (w := fun s => dot (P xc yc x y s) (in_plane phi inc (actual_axis DattathriPeanut3D ps off + PI / 2))).
    set (z := fun s => dot (P xc yc x y s) (pole phi inc)).
    assert (Cu : cont u) by (unfold u, P, dot; cbn [vx vy vz]; conts).
    assert (Cw : cont w) by (unfold w, P, dot; cbn [vx vy vz]; conts).
    assert (Cz : cont z) by (unfold z, P, dot; cbn [vx vy vz]; conts).
    apply cont_ext with (fun s => peanut (p 3%nat * intensityScale d) Rx (p 5%nat) (p 6%nat) (p 7%nat * pixelScaling d) A
      (p 9%nat * pixelScaling d) (p 10%nat) (p 11%nat) (u s) (w s) (z s)).
    + intros s. destruct (Close s) as (e & He & E). cbn [guard_error] in He.
      assert (e = 0) by (pose proof (Rabs_pos e); assert (X : Rabs e = 0) by lra; now apply Rabs_eq_0 in X).
      subst e. rewrite E, exp_0, Rmult_1_r. reflexivity.
    + unfold peanut.
      assert (H0 : forall a b, 0 <= Rpow a b) by (intros; apply Rpow_nonneg).
      assert (Hd : forall a b, 0 < b -> 0 <= Rabs a / b) by (intros; apply Rmult_le_pos; [apply Rabs_pos|apply Rlt_le, Rinv_0_lt_compat; auto]).
      set (hgt := fun s => peanut_height A (p 7%nat * pixelScaling d) (p 9%nat * pixelScaling d) (p 6%nat * Rx) (u s) (w s)).
      assert (Hpos : forall s, 0 < hgt s).
      { intros s. unfold hgt, peanut_height.
        match goal with |- 0 < A * exp ?a + A * exp ?b + _ => pose proof (exp_pos a); pose proof (exp_pos b) end. nra. }
      assert (Ch : cont hgt) by (unfold hgt, peanut_height; conts).
      assert (Q1 : 0 < p 10%nat / p 11%nat) by (apply Rdiv_lt_0_compat; auto).
      assert (Q2 : 0 < 1 / p 10%nat) by (apply Rdiv_lt_0_compat; lra).
      apply cont_div; [apply cont_const| |intros s; apply pow_nonzero, Rgt_not_eq, cosh_pos].
      apply cont_pow, cont_cosh. apply cont_Rpow; auto.
      * apply cont_plus.
        -- apply cont_Rpow; auto.
           ++ apply cont_plus; apply cont_Rpow; auto; try (conts; fail); intros s; apply Hd; auto. nra.
           ++ intros s. apply Rplus_le_le_0_compat; auto.
        -- apply cont_Rpow; auto.
           ++ apply cont_div; [conts|exact Ch|]. intros s. apply Rgt_not_eq, Hpos.
           ++ intros s. apply Hd, Hpos.
      * intros s. apply Rplus_le_le_0_compat; auto.
Qed.
End Value.
