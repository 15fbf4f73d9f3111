(** Model of the image functions (function_objects/): those whose value is a
    closed formula of the position. Definitions only.

    Each C++ class becomes a constructor function [make_...] standing for
    Setup(): it reads the parameters from the array, pre-computes the same
    intermediate quantities in the same order, and returns an object [Obj]
    which holds what GetValue() uses. The bodies of GetValue() are textually
    identical in all the classes below up to the call that turns the offset
    from the centre into an intensity, so GetValue() is written once. *)
From Coq Require Import ZArith List.
From Verif Require Export Base Num.

Section Func.
Variable T : Type.
Variable N : Num T.
Notation "0" := (nofZ N 0).
Notation "1" := (nofZ N 1).
Notation "2" := (nofZ N 2).
Infix "+" := (nadd N). Infix "-" := (nsub N). Infix "*" := (nmul N). Infix "/" := (ndiv N).
Notation exp := (nexp N). Notation pow := (npow N). Notation sqrt := (nsqrt N).
Notation fabs := (nabs N).
Notation "x <=? y" := (nleb N x y). Notation "x <? y" := (nltb N x y).

(** function_objects/func_exp.cpp:60 and the same line in every other file *)
Definition DEG2RAD := ndec N 17453292519943295 18.
(** func_exp.cpp:61, func_gaussian.cpp:60, func_sersic.cpp:65 *)
Definition PI_const := ndec N 314159265358979 14.
(** func_core-sersic.cpp:70, func_nuker.cpp:70 *)
Definition R_MIN := ndec N 1 3.
Definition half := ndec N 5 1.

(** The image description held by each function object. Constructor defaults:
    function_object.cpp:68-71. *)
Record ImageDesc := mkDesc { pixelScaling : T; imageRotation : T; intensityScale : T }.
Definition default_desc : ImageDesc := mkDesc 1 0 1.

(** function_object.cpp:103-108 *)
Definition SetImageParameters (pixScale imageRot intensScale : T) : ImageDesc :=
  mkDesc (1 / pixScale) imageRot intensScale.

(** What GetValue() needs: the centre, the intensity at an offset (x_diff,
    y_diff) from it, and CalculateSubsamples() there for a given value of
    doSubsampling. *)
Record Obj := mkObj {
  ob_x0 : T; ob_y0 : T;
  ob_point : T -> T -> T;
  ob_nsub : bool -> T -> T -> res Z }.

(** [(int) x]: undefined unless the truncated value fits in 32 bits *)
Definition to_int (x : T) : res Z :=
  match ntrunc N x with
  | Some z => if ((- 2 ^ 31 <=? z)%Z && (z <=? 2 ^ 31 - 1)%Z)%bool then Ok z else Undef
  | None => Undef
  end.

(** GetValue(). func_exp.cpp:134-172, and with the same text
    func_broken-exp.cpp:154-192, func_core-sersic.cpp:164-202,
    func_double-broken-exp.cpp:159-197, func_flat-exp.cpp:123-161,
    func_gaussian-ring.cpp:139-177, func_gaussian-ring2side.cpp:155-193,
    func_gaussian.cpp:141-179, func_king.cpp:147-185, func_king2.cpp:154-192,
    func_moffat.cpp:154-192, func_nuker.cpp:161-199, func_sersic.cpp:150-188;
    with CalculateRadius() in place of the inlined radius,
    func_ferrersbar2d.cpp:174-207, func_gen-exp.cpp:154-187,
    func_gen-sersic.cpp:170-203, func_gen-exp2.cpp:145-195; with (R, z) or
    (r, theta) in place of the radius, func_edge-on-ring.cpp:151-187,
    func_edge-on-ring2side.cpp:170-206, func_edge-on-disk.cpp:194-230,
    func_gaussian-ring-az.cpp:145-188, func_broken-exp2d.cpp:158-195. *)
Definition GetValue (o : Obj) (doSubsampling : bool) (x y : T) : res T :=
  let x_diff := x - ob_x0 o in
  let y_diff := y - ob_y0 o in
  do nSubsamples <- ob_nsub o doSubsampling x_diff y_diff;
  if (1 <? nSubsamples)%Z then
    let deltaSubpix := 1 / nofZ N nSubsamples in
    let x_sub_start := x - half + half * deltaSubpix in
    let y_sub_start := y - half + half * deltaSubpix in
    do theSum <- for_ (Z.to_nat nSubsamples) (fun ii theSum =>
      let x_ii := x_sub_start + nofZ N (Z.of_nat ii) * deltaSubpix in
      for_ (Z.to_nat nSubsamples) (fun jj theSum =>
        let y_ii := y_sub_start + nofZ N (Z.of_nat jj) * deltaSubpix in
        Ok (theSum + ob_point o (x_ii - ob_x0 o) (y_ii - ob_y0 o))) theSum) 0;
    Ok (theSum / nofZ N (nSubsamples * nSubsamples)%Z)
  else
    Ok (ob_point o x_diff y_diff).

(** ---- frames and radii ---- *)

(** cosPA, sinPA: func_exp.cpp:113-117 and the same lines elsewhere *)
Definition cosPA (PA : T) : T := ncos N ((PA + nofZ N 90) * DEG2RAD).
Definition sinPA (PA : T) : T := nsin N ((PA + nofZ N 90) * DEG2RAD).

(** func_exp.cpp:142-144 and the same lines elsewhere *)
Definition elliptical_radius (PA q x_diff y_diff : T) : T :=
  let xp := x_diff * cosPA PA + y_diff * sinPA PA in
  let yp_scaled := (nneg N x_diff * sinPA PA + y_diff * cosPA PA) / q in
  sqrt (xp * xp + yp_scaled * yp_scaled).

(** helper_funcs.cpp:51-62; CalculateRadius() in func_gen-exp.cpp:139-149,
    func_gen-sersic.cpp:151-161 and func_ferrersbar2d.cpp:155-165 *)
Definition GeneralizedRadius (PA q ellExp invEllExp deltaX deltaY : T) : T :=
  let xp := fabs (deltaX * cosPA PA + deltaY * sinPA PA) in
  let yp_scaled := fabs ((nneg N deltaX * sinPA PA + deltaY * cosPA PA) / q) in
  let powerSum := pow xp ellExp + pow yp_scaled ellExp in
  pow powerSum invEllExp.

(** helper_funcs.cpp:65-73 *)
Definition LinearInterp (r r1 r2 c01 c02 : T) : T :=
  if r <? r1 then c01
  else if r2 <? r then c02
  else let m := (c02 - c01) / (r2 - r1) in c01 + m * (r - r1).

(** helper_funcs.cpp:14-29 *)
Definition Calculate_bn (n : T) : T :=
  let n2 := n * n in
  if ndec N 36 2 <? n then
    2 * n - ndec N 333333333333333 15 + ndec N 9876543209876543 18 / n
    + ndec N 18028610621203215 19 / n2 + ndec N 11409410586365319 20 / (n2 * n)
    - ndec N 71510122958919723 21 / (n2 * n2)
  else
    ndec N 1945 5 + nneg N (ndec N 8902 4) * n + ndec N 1095 2 * n2
    + nneg N (ndec N 1967 2) * n2 * n + ndec N 1343 2 * n2 * n2.

(** helper_funcs.cpp:33-47 *)
Definition CalculateDBEScalingFactor (h1 h2 h3 r_brk1 r_brk2 alpha1 alpha2 : T) : T :=
  let P2a := 1 + exp (nneg N alpha1 * r_brk1) in
  let exp2 := (1 / alpha1) * (1 / h1 - 1 / h2) in
  let P2 := pow P2a exp2 in
  let P3a := 1 + exp (nneg N alpha2 * r_brk2) in
  let exp3 := (1 / alpha2) * (1 / h2 - 1 / h3) in
  let P3 := pow P3a exp3 in
  1 / (P2 * P3).

(** ---- CalculateSubsamples() ---- *)

(** The common scheme: [k] is 2*SUBSAMPLE_R or 4*SUBSAMPLE_R, [near] is 3.0 or
    4.0, [h] the scale length. func_exp.cpp:181-197 (h, 20, 3),
    func_sersic.cpp:197-213 (r_e, 20, 4), func_gaussian.cpp:188-203 (sigma,
    40, 3), func_moffat.cpp:201-217 (alpha, 40, 3), func_king.cpp:198-214 and
    func_king2.cpp:205-221 (r_c, 20, 3), func_core-sersic.cpp:211-227 and
    func_gen-sersic.cpp:212-228 (r_e, 20, 4), func_broken-exp.cpp:201-217,
    func_double-broken-exp.cpp:206-222 and func_broken-exp2d.cpp:204-220 (h1,
    20, 3), func_gen-exp.cpp:196-212 and func_gen-exp2.cpp:204-220 (h, 20, 3),
    func_ferrersbar2d.cpp:216-232 (a_bar, 20, 4). *)
Definition subsamples (k near : Z) (h : T) (doSubsampling : bool) (r : T) : res Z :=
  if (doSubsampling && (r <? nofZ N 10))%bool then
    if ((h <=? 1) && (r <=? 1))%bool then
      do n <- to_int (nofZ N k / h); Ok (Z.min 100 n)
    else if r <=? nofZ N near then Ok 20%Z
    else do n <- to_int (nofZ N 20 / r); Ok (Z.min 100 n)
  else Ok 1%Z.

(** func_nuker.cpp:208-219 *)
Definition Nuker_subsamples (doSubsampling : bool) (r : T) : res Z :=
  if (doSubsampling && (r <? nofZ N 10))%bool then
    if r <=? nofZ N 4 then Ok 20%Z
    else do n <- to_int (nofZ N 20 / r); Ok (Z.min 100 n)
  else Ok 1%Z.

(** func_flat-exp.cpp:170-187 *)
Definition FlatExp_subsamples (h r_b : T) (doSubsampling : bool) (r : T) : res Z :=
  if (doSubsampling && (half * r_b <? r) && (r <? nofZ N 10))%bool then
    if ((h <=? 1) && (r <=? 1))%bool then
      do n <- to_int (nofZ N 20 / h); Ok (Z.min 100 n)
    else if r <=? nofZ N 3 then Ok 20%Z
    else do n <- to_int (nofZ N 20 / r); Ok (Z.min 100 n)
  else Ok 1%Z.

(** func_edge-on-disk.cpp:239-264 *)
Definition EdgeOnDisk_subsamples (h z_0 : T) (doSubsampling : bool) (r z : T) : res Z :=
  let R_abs := fabs r in
  let z_abs := fabs z in
  if (doSubsampling && ((R_abs <? nofZ N 10) || (z_abs <? nofZ N 10)))%bool then
    if (((h <=? 1) && (R_abs <=? 1)) || ((z_0 <=? 1) && (z_abs <=? 1)))%bool then
      do a <- to_int (nofZ N 20 / h);
      do b <- to_int (nofZ N 20 / z_0);
      Ok (Z.max (Z.min 100 a) (Z.min 100 b))
    else if ((R_abs <=? nofZ N 3) || (z_abs <=? nofZ N 3))%bool then Ok 20%Z
    else
      do a <- to_int (nofZ N 20 / R_abs);
      do b <- to_int (nofZ N 20 / z_abs);
      Ok (Z.max (Z.min 100 a) (Z.min 100 b))
  else Ok 1%Z.

(** ---- CalculateIntensity() ---- *)

(** func_exp.cpp:126-129, func_gen-exp.cpp:129-132, func_gen-exp2.cpp:115-118 *)
Definition Exp_intensity (I_0 h r : T) : T := I_0 * exp (nneg N r / h).

(** func_sersic.cpp:135-141, func_gen-sersic.cpp:138-144 *)
Definition Sersic_intensity (I_e bn r_e invn r : T) : T :=
  I_e * exp (nneg N bn * (pow (r / r_e) invn - 1)).

(** func_gaussian.cpp:127-132 *)
Definition Gaussian_intensity (I_0 twosigma_squared r : T) : T :=
  let r_squared := r * r in I_0 * exp (nneg N r_squared / twosigma_squared).

(** func_moffat.cpp:138-145 *)
Definition Moffat_intensity (I_0 alpha beta r : T) : T :=
  let scaledR := r / alpha in
  let denominator := pow (1 + scaledR * scaledR) beta in
  I_0 / denominator.

(** func_king.cpp:131-141, func_king2.cpp:138-148 *)
Definition King_intensity (I_1 r_t one_over_rc one_over_alpha constantTerm alpha r : T) : T :=
  if r <? r_t then
    let r_over_rc := r * one_over_rc in
    let variableTerm := 1 / pow (1 + r_over_rc * r_over_rc) one_over_alpha in
    let secondPart := pow (variableTerm - constantTerm) alpha in
    I_1 * secondPart
  else 0.

(** func_core-sersic.cpp:143-154 *)
Definition CoreSersic_intensity (Iprime n bn r_e r_b alpha gamma r : T) : T :=
  let r := if r <? R_MIN then R_MIN else r in
  let powerlaw_part := pow (1 + pow (r_b / r) alpha) (gamma / alpha) in
  let exp_part := exp (nneg N bn *
    pow ((pow r alpha + pow r_b alpha) / pow r_e alpha) (1 / (alpha * n))) in
  Iprime * powerlaw_part * exp_part.

(** func_nuker.cpp:140-151 *)
Definition Nuker_intensity (Iprime r_b alpha gamma exponent r : T) : T :=
  let r := if r <? R_MIN then R_MIN else r in
  let I1 := Iprime * pow (r_b / r) gamma in
  let I2 := pow (1 + pow (r / r_b) alpha) (nneg N exponent) in
  I1 * I2.

(** func_broken-exp.cpp:136-149 *)
Definition BrokenExp_intensity (I_0_times_S h1 h2 r_b alpha exponent delta_Rb_scaled r : T) : T :=
  if nofZ N 100 <? alpha * (r - r_b) then
    I_0_times_S * exp (delta_Rb_scaled - r / h2)
  else
    I_0_times_S * exp (nneg N r / h1) * pow (1 + exp (alpha * (r - r_b))) exponent.

(** func_double-broken-exp.cpp:128-154 *)
Definition DoubleBrokenExp_intensity (I_0_times_S h1 h2 h3 r_b1 r_b2 alpha1 alpha2 exponent2 exponent3
    delta_Rb1_scaled delta_Rb2_scaled r : T) : T :=
  let P1 := I_0_times_S * exp (nneg N r / h1) in
  let scaledR1 := alpha1 * (r - r_b1) in
  let P2 := if nofZ N 100 <? scaledR1 then exp (r / h1 - r / h2 + delta_Rb1_scaled)
            else pow (1 + exp scaledR1) exponent2 in
  let scaledR2 := alpha2 * (r - r_b2) in
  let P3 := if nofZ N 100 <? scaledR2 then exp (r / h2 - r / h3 + delta_Rb2_scaled)
            else pow (1 + exp scaledR2) exponent3 in
  P1 * P2 * P3.

(** func_flat-exp.cpp:105-118 *)
Definition FlatExp_intensity (I_0_times_S h r_b alpha exponent r : T) : T :=
  if nofZ N 100 <? alpha * (r - r_b) then
    I_0_times_S * exp (nneg N r / h)
  else
    I_0_times_S * pow (1 + exp (alpha * (r - r_b))) (nneg N exponent).

(** func_gaussian-ring.cpp:126-133 *)
Definition GaussianRing_intensity (A R_ring twosigma_squared r : T) : T :=
  let r_diff := fabs (r - R_ring) in
  A * exp (nneg N (r_diff * r_diff) / twosigma_squared).

(** func_gaussian-ring2side.cpp:133-149 *)
Definition GaussianRing2Side_intensity (A R_ring twosigma_rin_squared twosigma_rout_squared r : T) : T :=
  let r_diff := fabs (r - R_ring) in
  let twosigma_r_squared := if r <? R_ring then twosigma_rin_squared else twosigma_rout_squared in
  A * exp (nneg N (r_diff * r_diff) / twosigma_r_squared).

(** func_gaussian-ring-az.cpp:131-139 *)
Definition GaussianRingAz_intensity (A_mid deltaA R_ring twosigma_squared r theta : T) : T :=
  let r_diff := fabs (r - R_ring) in
  let A := A_mid + deltaA * ncos N (2 * theta) in
  A * exp (nneg N (r_diff * r_diff) / twosigma_squared).

(** func_ferrersbar2d.cpp:135-148 *)
Definition Ferrers_intensity (I_0 a_bar2 n r : T) : T :=
  let m2 := r * r / a_bar2 in
  if 1 <? m2 then 0 else I_0 * pow (1 - m2) n.

(** func_edge-on-ring.cpp:132-142 *)
Definition EdgeOnRing_intensity (A r1 r2 twosigma_r_squared twosigma_z_squared r z : T) : T :=
  let r1_diff := r1 - r in
  let r2_diff := r2 - r in
  let z_diff_ratio := z * z / twosigma_z_squared in
  let I1 := A * exp (nneg N (r1_diff * r1_diff) / twosigma_r_squared - z_diff_ratio) in
  let I2 := A * exp (nneg N (r2_diff * r2_diff) / twosigma_r_squared - z_diff_ratio) in
  I1 + I2.

(** func_edge-on-ring2side.cpp:133-161 *)
Definition EdgeOnRing2Side_intensity (A r1 r2 twosigma_rin_squared twosigma_rout_squared
    twosigma_z_squared r z : T) : T :=
  let r1_diff := r - r1 in
  let r2_diff := r - r2 in
  let z_diff_ratio := z * z / twosigma_z_squared in
  let '(s1, s2) :=
    if r <? r1 then (twosigma_rout_squared, twosigma_rin_squared)
    else if r <? r2 then (twosigma_rin_squared, twosigma_rin_squared)
    else (twosigma_rin_squared, twosigma_rout_squared) in
  let I1 := A * exp (nneg N (r1_diff * r1_diff) / s1 - z_diff_ratio) in
  let I2 := A * exp (nneg N (r2_diff * r2_diff) / s2 - z_diff_ratio) in
  I1 + I2.

(** func_edge-on-disk.cpp:164-185. [K1] stands for gsl_sf_bessel_K1();
    COSH_LIMIT = 100.0 (line 93) *)
Definition EdgeOnDisk_intensity (K1 : T -> T) (Sigma_00 h z_0 scaledZ0 two_to_alpha alpha r z : T) : T :=
  let I_radial := if neqb N r 0 then Sigma_00
                  else let scaledR := r / h in Sigma_00 * scaledR * K1 scaledR in
  let verticalScaling :=
    if nofZ N 100 <? z / scaledZ0 then two_to_alpha * exp (nneg N z / z_0)
    else let sech := 1 / ncosh N (z / scaledZ0) in pow sech alpha in
  I_radial * verticalScaling.

(** func_broken-exp2d.cpp:139-153 *)
Definition BrokenExp2D_intensity (I_0_times_S h1 h2 r_b alpha exponent delta_Rb_scaled h_z r z : T) : T :=
  let rr := fabs r in
  let I := if nofZ N 100 <? alpha * (rr - r_b) then
             I_0_times_S * exp (delta_Rb_scaled - rr / h2)
           else
             I_0_times_S * exp (nneg N rr / h1) * pow (1 + exp (alpha * (rr - r_b))) exponent in
  I * exp (nneg N (fabs z) / h_z).

(** ---- Setup(), TotalFlux() ---- *)

(** an object whose value depends on the position through the elliptical radius *)
Definition elliptical (x0 y0 PA ell : T) (intensity : T -> T) (nsub : bool -> T -> res Z) : Obj :=
  let q := 1 - ell in
  mkObj x0 y0
    (fun dx dy => intensity (elliptical_radius PA q dx dy))
    (fun s dx dy => nsub s (elliptical_radius PA q dx dy)).

(** ... or through the radius of a generalised ellipse *)
Definition gen_elliptical (x0 y0 PA ell c0 : T) (intensity : T -> T) (nsub : bool -> T -> res Z) : Obj :=
  let q := 1 - ell in
  let ellExp := c0 + 2 in
  let invEllExp := 1 / ellExp in
  mkObj x0 y0
    (fun dx dy => intensity (GeneralizedRadius PA q ellExp invEllExp dx dy))
    (fun s dx dy => nsub s (GeneralizedRadius PA q ellExp invEllExp dx dy)).

Section Setup.
Variable d : ImageDesc.
Variable params : list T.
Variable offsetIndex : nat.
Variables xc yc : T.
Let p (i : nat) : res T := get params (i + offsetIndex)%nat.

(** func_exp.cpp:104-118 *)
Definition make_Exponential : res Obj :=
  do p0 <- p 0; do p1 <- p 1; do p2 <- p 2; do p3 <- p 3;
  let PA := p0 - imageRotation d in
  let ell := p1 in
  let I_0 := p2 * intensityScale d in
  let h := p3 * pixelScaling d in
  Ok (elliptical xc yc PA ell (Exp_intensity I_0 h) (subsamples 20 3 h)).

(** func_exp.cpp:210-213, after Setup() *)
Definition TotalFlux_Exponential : res T :=
  do p1 <- p 1; do p2 <- p 2; do p3 <- p 3;
  let ell := p1 in
  let I_0 := p2 * intensityScale d in
  let h := p3 * pixelScaling d in
  Ok ((1 - ell) * 2 * PI_const * I_0 * h * h).

(** func_gaussian.cpp:104-120 *)
Definition make_Gaussian : res Obj :=
  do p0 <- p 0; do p1 <- p 1; do p2 <- p 2; do p3 <- p 3;
  let PA := p0 - imageRotation d in
  let ell := p1 in
  let I_0 := p2 * intensityScale d in
  let sigma := p3 * pixelScaling d in
  let twosigma_squared := 2 * sigma * sigma in
  Ok (elliptical xc yc PA ell (Gaussian_intensity I_0 twosigma_squared) (subsamples 40 3 sigma)).

(** func_gaussian.cpp:216-219, after Setup() *)
Definition TotalFlux_Gaussian : res T :=
  do p1 <- p 1; do p2 <- p 2; do p3 <- p 3;
  let ell := p1 in
  let I_0 := p2 * intensityScale d in
  let sigma := p3 * pixelScaling d in
  Ok ((1 - ell) * 2 * PI_const * I_0 * sigma * sigma).

(** func_sersic.cpp:109-127 *)
Definition make_Sersic : res Obj :=
  do p0 <- p 0; do p1 <- p 1; do p2 <- p 2; do p3 <- p 3; do p4 <- p 4;
  let PA := p0 - imageRotation d in
  let ell := p1 in
  let n := p2 in
  let I_e := p3 * intensityScale d in
  let r_e := p4 * pixelScaling d in
  let bn := Calculate_bn n in
  let invn := 1 / n in
  Ok (elliptical xc yc PA ell (Sersic_intensity I_e bn r_e invn) (subsamples 20 4 r_e)).

(** func_sersic.cpp:246-251, after Setup(); [gamma] stands for gsl_sf_gamma() *)
Definition TotalFlux_Sersic (gamma : T -> T) : res T :=
  do p1 <- p 1; do p2 <- p 2; do p3 <- p 3; do p4 <- p 4;
  let ell := p1 in
  let q := 1 - ell in
  let n := p2 in
  let I_e := p3 * intensityScale d in
  let r_e := p4 * pixelScaling d in
  let bn := Calculate_bn n in
  let bn2n := pow bn (2 * n) in
  let L := 2 * PI_const * n * exp bn * I_e * (r_e * r_e) in
  Ok (q * L * gamma (2 * n) / bn2n).

(** func_moffat.cpp:111-130 *)
Definition make_Moffat : res Obj :=
  do p0 <- p 0; do p1 <- p 1; do p2 <- p 2; do p3 <- p 3; do p4 <- p 4;
  let PA := p0 - imageRotation d in
  let ell := p1 in
  let I_0 := p2 * intensityScale d in
  let fwhm := p3 * pixelScaling d in
  let beta := p4 in
  let exponent := pow 2 (1 / beta) in
  let alpha := half * fwhm / sqrt (exponent - 1) in
  Ok (elliptical xc yc PA ell (Moffat_intensity I_0 alpha beta) (subsamples 40 3 alpha)).

(** func_king.cpp:103-125 *)
Definition make_ModifiedKing : res Obj :=
  do p0 <- p 0; do p1 <- p 1; do p2 <- p 2; do p3 <- p 3; do p4 <- p 4; do p5 <- p 5;
  let PA := p0 - imageRotation d in
  let ell := p1 in
  let I_0 := p2 * intensityScale d in
  let r_c := p3 * pixelScaling d in
  let r_t := p4 * pixelScaling d in
  let alpha := p5 in
  let one_over_alpha := 1 / alpha in
  let one_over_rc := 1 / r_c in
  let constantTerm := 1 / pow (1 + (r_t / r_c) * (r_t / r_c)) one_over_alpha in
  let I_1 := I_0 * pow (1 - constantTerm) (nneg N alpha) in
  Ok (elliptical xc yc PA ell
        (King_intensity I_1 r_t one_over_rc one_over_alpha constantTerm alpha) (subsamples 20 3 r_c)).

(** func_king2.cpp:107-132 *)
Definition make_ModifiedKing2 : res Obj :=
  do p0 <- p 0; do p1 <- p 1; do p2 <- p 2; do p3 <- p 3; do p4 <- p 4; do p5 <- p 5;
  let PA := p0 - imageRotation d in
  let ell := p1 in
  let I_0 := p2 * intensityScale d in
  let r_c := p3 * pixelScaling d in
  let c := p4 in
  let alpha := p5 in
  let r_t := c * r_c in
  let one_over_alpha := 1 / alpha in
  let one_over_rc := 1 / r_c in
  let constantTerm := 1 / pow (1 + (r_t / r_c) * (r_t / r_c)) one_over_alpha in
  let I_1 := I_0 * pow (1 - constantTerm) (nneg N alpha) in
  Ok (elliptical xc yc PA ell
        (King_intensity I_1 r_t one_over_rc one_over_alpha constantTerm alpha) (subsamples 20 3 r_c)).

(** func_core-sersic.cpp:113-135 *)
Definition make_CoreSersic : res Obj :=
  do p0 <- p 0; do p1 <- p 1; do p2 <- p 2; do p3 <- p 3; do p4 <- p 4; do p5 <- p 5;
  do p6 <- p 6; do p7 <- p 7;
  let PA := p0 - imageRotation d in
  let ell := p1 in
  let n := p2 in
  let I_b := p3 * intensityScale d in
  let r_e := p4 * pixelScaling d in
  let r_b := p5 * pixelScaling d in
  let alpha := p6 in
  let gamma := p7 in
  let bn := Calculate_bn n in
  let Iprime := I_b * pow 2 (nneg N gamma / alpha)
                * exp (bn * pow (pow 2 (1 / alpha) * r_b / r_e) (1 / n)) in
  Ok (elliptical xc yc PA ell (CoreSersic_intensity Iprime n bn r_e r_b alpha gamma) (subsamples 20 4 r_e)).

(** func_nuker.cpp:112-133 *)
Definition make_NukerLaw : res Obj :=
  do p0 <- p 0; do p1 <- p 1; do p2 <- p 2; do p3 <- p 3; do p4 <- p 4; do p5 <- p 5; do p6 <- p 6;
  let PA := p0 - imageRotation d in
  let ell := p1 in
  let I_b := p2 * intensityScale d in
  let r_b := p3 * pixelScaling d in
  let alpha := p4 in
  let beta := p5 in
  let gamma := p6 in
  let exponent := (beta - gamma) / alpha in
  let Iprime := I_b * pow 2 exponent in
  Ok (elliptical xc yc PA ell (Nuker_intensity Iprime r_b alpha gamma exponent) Nuker_subsamples).

(** func_broken-exp.cpp:103-127 *)
Definition make_BrokenExponential : res Obj :=
  do p0 <- p 0; do p1 <- p 1; do p2 <- p 2; do p3 <- p 3; do p4 <- p 4; do p5 <- p 5; do p6 <- p 6;
  let PA := p0 - imageRotation d in
  let ell := p1 in
  let I_0 := p2 * intensityScale d in
  let h1 := p3 * pixelScaling d in
  let h2 := p4 * pixelScaling d in
  let r_b := p5 * pixelScaling d in
  let alpha := p6 / pixelScaling d in
  let exponent := (1 / alpha) * (1 / h1 - 1 / h2) in
  let S := pow (1 + exp (nneg N alpha * r_b)) (nneg N exponent) in
  let I_0_times_S := I_0 * S in
  let delta_Rb_scaled := r_b / h2 - r_b / h1 in
  Ok (elliptical xc yc PA ell
        (BrokenExp_intensity I_0_times_S h1 h2 r_b alpha exponent delta_Rb_scaled) (subsamples 20 3 h1)).

(** func_double-broken-exp.cpp:90-119; ignores the image description *)
Definition make_DoubleBrokenExponential : res Obj :=
  do PA <- p 0; do ell <- p 1; do I_0 <- p 2; do h1 <- p 3; do h2 <- p 4; do h3 <- p 5;
  do r_b1 <- p 6; do r_b2 <- p 7; do alpha1 <- p 8; do alpha2 <- p 9;
  let exponent2 := (1 / alpha1) * (1 / h1 - 1 / h2) in
  let exponent3 := (1 / alpha2) * (1 / h2 - 1 / h3) in
  let S := CalculateDBEScalingFactor h1 h2 h3 r_b1 r_b2 alpha1 alpha2 in
  let I_0_times_S := I_0 * S in
  let delta_Rb1_scaled := r_b1 / h2 - r_b1 / h1 in
  let delta_Rb2_scaled := r_b2 / h3 - r_b2 / h2 in
  Ok (elliptical xc yc PA ell
        (DoubleBrokenExp_intensity I_0_times_S h1 h2 h3 r_b1 r_b2 alpha1 alpha2 exponent2 exponent3
           delta_Rb1_scaled delta_Rb2_scaled) (subsamples 20 3 h1)).

(** func_flat-exp.cpp:75-96; ignores the image description *)
Definition make_FlatExponential : res Obj :=
  do PA <- p 0; do ell <- p 1; do I_0 <- p 2; do h <- p 3; do r_b <- p 4; do alpha <- p 5;
  let exponent := 1 / (alpha * h) in
  let S := pow (1 + exp (nneg N alpha * r_b)) exponent in
  let I_0_times_S := I_0 * S in
  Ok (elliptical xc yc PA ell (FlatExp_intensity I_0_times_S h r_b alpha exponent) (FlatExp_subsamples h r_b)).

(** func_gaussian-ring.cpp:102-120; CalculateSubsamples (186-190) always answers 1 *)
Definition make_GaussianRing : res Obj :=
  do p0 <- p 0; do p1 <- p 1; do p2 <- p 2; do p3 <- p 3; do p4 <- p 4;
  let PA := p0 - imageRotation d in
  let ell := p1 in
  let A := p2 * intensityScale d in
  let R_ring := p3 * pixelScaling d in
  let sigma_r := p4 * pixelScaling d in
  let twosigma_squared := 2 * sigma_r * sigma_r in
  Ok (elliptical xc yc PA ell (GaussianRing_intensity A R_ring twosigma_squared) (fun _ _ => Ok 1%Z)).

(** func_gaussian-ring2side.cpp:104-124; CalculateSubsamples (202-206) always answers 1 *)
Definition make_GaussianRing2Side : res Obj :=
  do p0 <- p 0; do p1 <- p 1; do p2 <- p 2; do p3 <- p 3; do p4 <- p 4; do p5 <- p 5;
  let PA := p0 - imageRotation d in
  let ell := p1 in
  let A := p2 * intensityScale d in
  let R_ring := p3 * pixelScaling d in
  let sigma_r_inner := p4 * pixelScaling d in
  let sigma_r_outer := p5 * pixelScaling d in
  let twosigma_rin_squared := 2 * sigma_r_inner * sigma_r_inner in
  let twosigma_rout_squared := 2 * sigma_r_outer * sigma_r_outer in
  Ok (elliptical xc yc PA ell
        (GaussianRing2Side_intensity A R_ring twosigma_rin_squared twosigma_rout_squared) (fun _ _ => Ok 1%Z)).

(** func_gen-exp.cpp:103-121 *)
Definition make_GenExponential : res Obj :=
  do p0 <- p 0; do p1 <- p 1; do p2 <- p 2; do p3 <- p 3; do p4 <- p 4;
  let PA := p0 - imageRotation d in
  let ell := p1 in
  let c0 := p2 in
  let I_0 := p3 * intensityScale d in
  let h := p4 * pixelScaling d in
  Ok (gen_elliptical xc yc PA ell c0 (Exp_intensity I_0 h) (subsamples 20 3 h)).

(** func_gen-sersic.cpp:107-130 *)
Definition make_GenSersic : res Obj :=
  do p0 <- p 0; do p1 <- p 1; do p2 <- p 2; do p3 <- p 3; do p4 <- p 4; do p5 <- p 5;
  let PA := p0 - imageRotation d in
  let ell := p1 in
  let c0 := p2 in
  let n := p3 in
  let I_e := p4 * intensityScale d in
  let r_e := p5 * pixelScaling d in
  let bn := Calculate_bn n in
  let invn := 1 / n in
  Ok (gen_elliptical xc yc PA ell c0 (Sersic_intensity I_e bn r_e invn) (subsamples 20 4 r_e)).

(** CalculateRadius(): func_gen-exp2.cpp:125-140 *)
Definition GenExp2_radius (PA q c0_1 c0_2 r1 r2 deltaX deltaY : T) : T :=
  let xp := fabs (deltaX * cosPA PA + deltaY * sinPA PA) in
  let yp_scaled := fabs ((nneg N deltaX * sinPA PA + deltaY * cosPA PA) / q) in
  let r_ell := sqrt (xp * xp + yp_scaled * yp_scaled) in
  let c0 := LinearInterp r_ell r1 r2 c0_1 c0_2 in
  let ellExp := c0 + 2 in
  let invEllExp := 1 / ellExp in
  let powerSum := pow xp ellExp + pow yp_scaled ellExp in
  pow powerSum invEllExp.

(** func_gen-exp2.cpp:89-107; ignores the image description *)
Definition make_GenExponential2 : res Obj :=
  do PA <- p 0; do ell <- p 1; do c0_1 <- p 2; do c0_2 <- p 3; do r1 <- p 4; do r2 <- p 5;
  do I_0 <- p 6; do h <- p 7;
  let q := 1 - ell in
  Ok (mkObj xc yc
        (fun dx dy => Exp_intensity I_0 h (GenExp2_radius PA q c0_1 c0_2 r1 r2 dx dy))
        (fun s dx dy => subsamples 20 3 h s (GenExp2_radius PA q c0_1 c0_2 r1 r2 dx dy))).

(** func_ferrersbar2d.cpp:105-127 *)
Definition make_FerrersBar2D : res Obj :=
  do p0 <- p 0; do p1 <- p 1; do p2 <- p 2; do p3 <- p 3; do p4 <- p 4; do p5 <- p 5;
  let PA := p0 - imageRotation d in
  let ell := p1 in
  let c0 := p2 in
  let n := p3 in
  let I_0 := p4 * intensityScale d in
  let a_bar := p5 * pixelScaling d in
  let a_bar2 := a_bar * a_bar in
  Ok (gen_elliptical xc yc PA ell c0 (Ferrers_intensity I_0 a_bar2 n) (subsamples 20 4 a_bar)).

(** func_gaussian-ring-az.cpp:103-125, 155-159; CalculateSubsamples (197-201) always answers 1 *)
Definition make_GaussianRingAz : res Obj :=
  do p0 <- p 0; do p1 <- p 1; do p2 <- p 2; do p3 <- p 3; do p4 <- p 4; do p5 <- p 5;
  let PA := p0 - imageRotation d in
  let ell := p1 in
  let A_maj := p2 * intensityScale d in
  let A_min_rel := p3 in
  let R_ring := p4 * pixelScaling d in
  let sigma_r := p5 * pixelScaling d in
  let A_min := A_min_rel * A_maj in
  let q := 1 - ell in
  let PA_rad := (PA + nofZ N 90) * DEG2RAD in
  let A_mid := half * (A_maj + A_min) in
  let deltaA := half * (A_maj - A_min) in
  let twosigma_squared := 2 * sigma_r * sigma_r in
  Ok (mkObj xc yc
        (fun x_diff y_diff =>
           let theta_image := natan2 N y_diff x_diff in
           let theta_ellipse := PA_rad - theta_image in
           GaussianRingAz_intensity A_mid deltaA R_ring twosigma_squared
             (elliptical_radius PA q x_diff y_diff) theta_ellipse)
        (fun _ _ _ => Ok 1%Z)).

(** func_edge-on-ring.cpp:105-124, 159-160; CalculateSubsamples (196-200) always answers 1 *)
Definition make_EdgeOnRing : res Obj :=
  do p0 <- p 0; do p1 <- p 1; do p2 <- p 2; do p3 <- p 3; do p4 <- p 4;
  let PA := p0 - imageRotation d in
  let A := p1 * intensityScale d in
  let r1 := p2 * pixelScaling d in
  let r2 := nneg N r1 in
  let sigma_r := p3 * pixelScaling d in
  let sigma_z := p4 * pixelScaling d in
  let twosigma_r_squared := 2 * sigma_r * sigma_r in
  let twosigma_z_squared := 2 * sigma_z * sigma_z in
  Ok (mkObj xc yc
        (fun x_diff y_diff =>
           EdgeOnRing_intensity A r1 r2 twosigma_r_squared twosigma_z_squared
             (x_diff * cosPA PA + y_diff * sinPA PA)
             (fabs (nneg N x_diff * sinPA PA + y_diff * cosPA PA)))
        (fun _ _ _ => Ok 1%Z)).

(** func_edge-on-ring2side.cpp:104-125, 178-179; CalculateSubsamples (215-219) always answers 1 *)
Definition make_EdgeOnRing2Side : res Obj :=
  do p0 <- p 0; do p1 <- p 1; do p2 <- p 2; do p3 <- p 3; do p4 <- p 4; do p5 <- p 5;
  let PA := p0 - imageRotation d in
  let A := p1 * intensityScale d in
  let r1 := nneg N p2 * pixelScaling d in
  let r2 := nneg N r1 in
  let sigma_r_inner := p3 * pixelScaling d in
  let sigma_r_outer := p4 * pixelScaling d in
  let sigma_z := p5 * pixelScaling d in
  let twosigma_rin_squared := 2 * sigma_r_inner * sigma_r_inner in
  let twosigma_rout_squared := 2 * sigma_r_outer * sigma_r_outer in
  let twosigma_z_squared := 2 * sigma_z * sigma_z in
  Ok (mkObj xc yc
        (fun x_diff y_diff =>
           EdgeOnRing2Side_intensity A r1 r2 twosigma_rin_squared twosigma_rout_squared twosigma_z_squared
             (x_diff * cosPA PA + y_diff * sinPA PA)
             (fabs (nneg N x_diff * sinPA PA + y_diff * cosPA PA)))
        (fun _ _ _ => Ok 1%Z)).

(** func_edge-on-disk.cpp:136-156, 202-203 *)
Definition make_EdgeOnDisk (K1 : T -> T) : res Obj :=
  do p0 <- p 0; do p1 <- p 1; do p2 <- p 2; do p3 <- p 3; do p4 <- p 4;
  let PA := p0 - imageRotation d in
  let L_0 := p1 * intensityScale d in
  let h := p2 * pixelScaling d in
  let n := p3 in
  let z_0 := p4 * pixelScaling d in
  let alpha := 2 / n in
  let scaledZ0 := alpha * z_0 in
  let Sigma_00 := 2 * h * L_0 in
  let two_to_alpha := pow 2 alpha in
  let Rz x_diff y_diff :=
    (fabs (x_diff * cosPA PA + y_diff * sinPA PA),
     fabs (nneg N x_diff * sinPA PA + y_diff * cosPA PA)) in
  Ok (mkObj xc yc
        (fun x_diff y_diff =>
           EdgeOnDisk_intensity K1 Sigma_00 h z_0 scaledZ0 two_to_alpha alpha
             (fst (Rz x_diff y_diff)) (snd (Rz x_diff y_diff)))
        (fun s x_diff y_diff =>
           EdgeOnDisk_subsamples h z_0 s (fst (Rz x_diff y_diff)) (snd (Rz x_diff y_diff)))).

(** func_broken-exp2d.cpp:108-131, 166-170 *)
Definition make_BrokenExponential2D : res Obj :=
  do p0 <- p 0; do p1 <- p 1; do p2 <- p 2; do p3 <- p 3; do p4 <- p 4; do p5 <- p 5; do p6 <- p 6;
  let PA := p0 - imageRotation d in
  let I_0 := p1 * intensityScale d in
  let h1 := p2 * pixelScaling d in
  let h2 := p3 * pixelScaling d in
  let r_b := p4 * pixelScaling d in
  let alpha := p5 / pixelScaling d in
  let h_z := p6 * pixelScaling d in
  let exponent := (1 / alpha) * (1 / h1 - 1 / h2) in
  let S := pow (1 + exp (nneg N alpha * r_b)) (nneg N exponent) in
  let I_0_times_S := I_0 * S in
  let delta_Rb_scaled := r_b / h2 - r_b / h1 in
  Ok (mkObj xc yc
        (fun x_diff y_diff =>
           BrokenExp2D_intensity I_0_times_S h1 h2 r_b alpha exponent delta_Rb_scaled h_z
             (x_diff * cosPA PA + y_diff * sinPA PA)
             (nneg N x_diff * sinPA PA + y_diff * cosPA PA))
        (fun s x_diff y_diff =>
           let xp := x_diff * cosPA PA + y_diff * sinPA PA in
           let z_perp := nneg N x_diff * sinPA PA + y_diff * cosPA PA in
           subsamples 20 3 h1 s (sqrt (xp * xp + z_perp * z_perp)))).

(** func_flatsky.cpp:85-98; GetValue() takes no sub-samples *)
Definition make_FlatSky : res Obj :=
  do p0 <- p 0;
  let I_sky := p0 * intensityScale d in
  Ok (mkObj xc yc (fun _ _ => I_sky) (fun _ _ _ => Ok 1%Z)).

(** func_tilted-sky-plane.cpp:85-104; GetValue() takes no sub-samples *)
Definition make_TiltedSkyPlane : res Obj :=
  do p0 <- p 0; do m_x <- p 1; do m_y <- p 2;
  let I_0 := p0 * intensityScale d in
  Ok (mkObj xc yc (fun x_diff y_diff => I_0 + m_x * x_diff + m_y * y_diff) (fun _ _ _ => Ok 1%Z)).

End Setup.

(** The modelled classes, by the name used in configuration files *)
Inductive Kind :=
| Exponential | Gaussian | Sersic | Moffat | ModifiedKing | ModifiedKing2 | CoreSersic | NukerLaw
| BrokenExponential | DoubleBrokenExponential | FlatExponential | GaussianRing | GaussianRing2Side
| GenExponential | GenExponential2 | GenSersic | FerrersBar2D
| GaussianRingAz | EdgeOnRing | EdgeOnRing2Side | EdgeOnDisk | BrokenExponential2D
| FlatSky | TiltedSkyPlane.

(** N_PARAMS of each class *)
Definition nParams (k : Kind) : nat :=
  match k with
  | Exponential => 4 | Gaussian => 4 | Sersic => 5 | Moffat => 5 | ModifiedKing => 6
  | ModifiedKing2 => 6 | CoreSersic => 8 | NukerLaw => 7 | BrokenExponential => 7
  | DoubleBrokenExponential => 10 | FlatExponential => 6 | GaussianRing => 5
  | GaussianRing2Side => 6 | GenExponential => 5 | GenExponential2 => 8 | GenSersic => 6 | FerrersBar2D => 6
  | GaussianRingAz => 6 | EdgeOnRing => 5 | EdgeOnRing2Side => 6 | EdgeOnDisk => 5
  | BrokenExponential2D => 7 | FlatSky => 1 | TiltedSkyPlane => 3
  end%nat.

(** the virtual call Setup(params, offsetIndex, xc, yc) *)
Definition Setup (K1 : T -> T) (k : Kind) (d : ImageDesc) (params : list T) (offsetIndex : nat)
    (xc yc : T) : res Obj :=
  match k with
  | Exponential => make_Exponential d params offsetIndex xc yc
  | Gaussian => make_Gaussian d params offsetIndex xc yc
  | Sersic => make_Sersic d params offsetIndex xc yc
  | Moffat => make_Moffat d params offsetIndex xc yc
  | ModifiedKing => make_ModifiedKing d params offsetIndex xc yc
  | ModifiedKing2 => make_ModifiedKing2 d params offsetIndex xc yc
  | CoreSersic => make_CoreSersic d params offsetIndex xc yc
  | NukerLaw => make_NukerLaw d params offsetIndex xc yc
  | BrokenExponential => make_BrokenExponential d params offsetIndex xc yc
  | DoubleBrokenExponential => make_DoubleBrokenExponential params offsetIndex xc yc
  | FlatExponential => make_FlatExponential params offsetIndex xc yc
  | GaussianRing => make_GaussianRing d params offsetIndex xc yc
  | GaussianRing2Side => make_GaussianRing2Side d params offsetIndex xc yc
  | GenExponential => make_GenExponential d params offsetIndex xc yc
  | GenExponential2 => make_GenExponential2 params offsetIndex xc yc
  | GenSersic => make_GenSersic d params offsetIndex xc yc
  | FerrersBar2D => make_FerrersBar2D d params offsetIndex xc yc
  | GaussianRingAz => make_GaussianRingAz d params offsetIndex xc yc
  | EdgeOnRing => make_EdgeOnRing d params offsetIndex xc yc
  | EdgeOnRing2Side => make_EdgeOnRing2Side d params offsetIndex xc yc
  | EdgeOnDisk => make_EdgeOnDisk d params offsetIndex xc yc K1
  | BrokenExponential2D => make_BrokenExponential2D d params offsetIndex xc yc
  | FlatSky => make_FlatSky d params offsetIndex xc yc
  | TiltedSkyPlane => make_TiltedSkyPlane d params offsetIndex xc yc
  end.

(** Setup() followed by GetValue(): the value of a component at (x, y) *)
Definition value_at (K1 : T -> T) (k : Kind) (d : ImageDesc) (params : list T) (offsetIndex : nat)
    (xc yc : T) (doSubsampling : bool) (x y : T) : res T :=
  do o <- Setup K1 k d params offsetIndex xc yc;
  GetValue o doSubsampling x y.

(** How AdjustParametersForImage() changes each parameter: a position angle
    (PA), a length (Len), an inverse length (Inv), an intensity (Int), or left
    as it is (Keep). *)
Inductive Adj := PA_ | Len | Inv | Int | Keep.

Definition adjust1 (d : ImageDesc) (a : Adj) (v : T) : T :=
  match a with
  | PA_ => v - imageRotation d
  | Len => pixelScaling d * v
  | Inv => (1 / pixelScaling d) * v
  | Int => intensityScale d * v
  | Keep => v
  end.

(** The assignments made by AdjustParametersForImage(), by class: func_exp.cpp:91-99,
    func_gaussian.cpp:91-99, func_sersic.cpp:95-104, func_moffat.cpp:97-106,
    func_king.cpp:88-98, func_king2.cpp:92-102, func_core-sersic.cpp:96-108,
    func_nuker.cpp:96-107, func_broken-exp.cpp:87-98,
    func_gaussian-ring.cpp:88-97, func_gaussian-ring2side.cpp:89-99,
    func_gen-exp.cpp:89-98, func_gen-sersic.cpp:92-102,
    func_ferrersbar2d.cpp:92-102, func_gaussian-ring-az.cpp:88-98,
    func_edge-on-ring.cpp:91-100, func_edge-on-ring2side.cpp:89-99,
    func_edge-on-disk.cpp:122-131, func_broken-exp2d.cpp:92-103,
    func_flatsky.cpp:75-80, func_tilted-sky-plane.cpp:74-80 (which assigns only
    the first of three parameters: [None] for those not assigned);
    FlatExponential, GenExponential2 and DoubleBrokenExponential use the base class's copy,
    function_object.cpp:113-118. *)
Definition adjustments (k : Kind) : list (option Adj) :=
  match k with
  | Exponential | Gaussian => [Some PA_; Some Keep; Some Int; Some Len]
  | Sersic | GenExponential => [Some PA_; Some Keep; Some Keep; Some Int; Some Len]
  | Moffat => [Some PA_; Some Keep; Some Int; Some Len; Some Keep]
  | ModifiedKing => [Some PA_; Some Keep; Some Int; Some Len; Some Len; Some Keep]
  | ModifiedKing2 => [Some PA_; Some Keep; Some Int; Some Len; Some Keep; Some Keep]
  | CoreSersic => [Some PA_; Some Keep; Some Keep; Some Int; Some Len; Some Len; Some Keep; Some Keep]
  | NukerLaw => [Some PA_; Some Keep; Some Int; Some Len; Some Keep; Some Keep; Some Keep]
  | BrokenExponential => [Some PA_; Some Keep; Some Int; Some Len; Some Len; Some Len; Some Inv]
  | DoubleBrokenExponential => repeat (Some Keep) 10
  | GenExponential2 => repeat (Some Keep) 8
  | FlatExponential => repeat (Some Keep) 6
  | GaussianRing => [Some PA_; Some Keep; Some Int; Some Len; Some Len]
  | GaussianRing2Side => [Some PA_; Some Keep; Some Int; Some Len; Some Len; Some Len]
  | GenSersic | FerrersBar2D => [Some PA_; Some Keep; Some Keep; Some Keep; Some Int; Some Len]
  | GaussianRingAz => [Some PA_; Some Keep; Some Int; Some Keep; Some Len; Some Len]
  | EdgeOnRing => [Some PA_; Some Int; Some Len; Some Len; Some Len]
  | EdgeOnRing2Side => [Some PA_; Some Int; Some Len; Some Len; Some Len; Some Len]
  | EdgeOnDisk => [Some PA_; Some Int; Some Len; Some Keep; Some Len]
  | BrokenExponential2D => [Some PA_; Some Int; Some Len; Some Len; Some Len; Some Inv; Some Len]
  | FlatSky => [Some Int]
  | TiltedSkyPlane => [Some Int; None; None]
  end.

(** AdjustParametersForImage(input, adjusted, offsetIndex) for one component:
    [adjusted] is the caller's array, changed at the assigned indices only. *)
Definition AdjustParametersForImage (k : Kind) (d : ImageDesc) (input adjusted : list T)
    (offsetIndex : nat) : res (list T) :=
  for_ (length (adjustments k)) (fun i adjusted =>
    match nth i (adjustments k) None with
    | Some a => do v <- get input (i + offsetIndex)%nat;
                set adjusted (i + offsetIndex)%nat (adjust1 d a v)
    | None => Ok adjusted
    end) adjusted.

End Func.

Arguments mkDesc {T}. Arguments pixelScaling {T}. Arguments imageRotation {T}. Arguments intensityScale {T}.
Arguments mkObj {T}. Arguments ob_x0 {T}. Arguments ob_y0 {T}. Arguments ob_point {T}. Arguments ob_nsub {T}.
Arguments DEG2RAD {T}. Arguments PI_const {T}. Arguments R_MIN {T}. Arguments half {T}.
Arguments default_desc {T}. Arguments SetImageParameters {T}. Arguments to_int {T}. Arguments GetValue {T}.
Arguments cosPA {T}. Arguments sinPA {T}. Arguments elliptical_radius {T}. Arguments GeneralizedRadius {T}.
Arguments LinearInterp {T}. Arguments Calculate_bn {T}. Arguments CalculateDBEScalingFactor {T}.
Arguments subsamples {T}. Arguments Nuker_subsamples {T}. Arguments FlatExp_subsamples {T}.
Arguments EdgeOnDisk_subsamples {T}.
Arguments Exp_intensity {T}. Arguments Sersic_intensity {T}. Arguments Gaussian_intensity {T}.
Arguments Moffat_intensity {T}. Arguments King_intensity {T}. Arguments CoreSersic_intensity {T}.
Arguments Nuker_intensity {T}. Arguments BrokenExp_intensity {T}. Arguments DoubleBrokenExp_intensity {T}.
Arguments FlatExp_intensity {T}. Arguments GaussianRing_intensity {T}. Arguments GaussianRing2Side_intensity {T}.
Arguments GaussianRingAz_intensity {T}. Arguments Ferrers_intensity {T}. Arguments EdgeOnRing_intensity {T}.
Arguments EdgeOnRing2Side_intensity {T}. Arguments EdgeOnDisk_intensity {T}. Arguments BrokenExp2D_intensity {T}.
Arguments elliptical {T}. Arguments gen_elliptical {T}.
Arguments make_Exponential {T}. Arguments make_Gaussian {T}. Arguments make_Sersic {T}. Arguments make_Moffat {T}.
Arguments make_ModifiedKing {T}. Arguments make_ModifiedKing2 {T}. Arguments make_CoreSersic {T}.
Arguments make_NukerLaw {T}. Arguments make_BrokenExponential {T}. Arguments make_DoubleBrokenExponential {T}.
Arguments make_FlatExponential {T}. Arguments make_GaussianRing {T}. Arguments make_GaussianRing2Side {T}.
Arguments make_GenExponential {T}. Arguments make_GenSersic {T}. Arguments GenExp2_radius {T}. Arguments make_GenExponential2 {T}. Arguments make_FerrersBar2D {T}.
Arguments make_GaussianRingAz {T}. Arguments make_EdgeOnRing {T}. Arguments make_EdgeOnRing2Side {T}.
Arguments make_EdgeOnDisk {T}. Arguments make_BrokenExponential2D {T}. Arguments make_FlatSky {T}.
Arguments make_TiltedSkyPlane {T}.
Arguments TotalFlux_Exponential {T}. Arguments TotalFlux_Gaussian {T}. Arguments TotalFlux_Sersic {T}.
Arguments Setup {T}. Arguments value_at {T}. Arguments adjust1 {T}. Arguments AdjustParametersForImage {T}.
