(** Model of the image functions that integrate a luminosity density along the line of
    sight (function_objects/func_expdisk3d.cpp, func_brokenexpdisk3d.cpp,
    func_gaussianring3d.cpp, func_ferrersbar3d.cpp, func_peanut_dattathri.cpp,
    helper_funcs_3d.cpp). Definitions only.

    Integrate() (integrator.cpp:42-56, GSL's QAGS with relative tolerance 1e-6) is the
    argument [Integrate]: given the integrand and the two limits it answers a number. The
    array xyParameters and the pointer F.params through which GetValue() hands the
    parameters to the integrand are replaced by a closure; what two threads do to that
    pointer is modelled in Par_Model.v. *)
From Coq Require Import ZArith List.
From Verif Require Export Base Num Func_Model.
Import ListNotations.

Section Los.
Variable T : Type.
Variable N : Num T.
Notation "0" := (nofZ N 0).
Notation "1" := (nofZ N 1).
Notation "2" := (nofZ N 2).
Infix "+" := (nadd N). Infix "-" := (nsub N). Infix "*" := (nmul N). Infix "/" := (ndiv N).
Notation exp := (nexp N). Notation pow := (npow N). Notation sqrt := (nsqrt N).
Notation fabs := (nabs N).
Notation "x <? y" := (nltb N x y).

(** std::max() and fmax() for numbers *)
Definition nmax (a b : T) : T := if a <? b then b else a.
(** pow(x, 2.0), whose base may be negative *)
Definition square (x : T) : T := x * x.

(** ---- the position along the ray ---- *)

(** helper_funcs_3d.cpp:65-82. Answers (x_obj, y_obj, z_obj). *)
Definition Compute3dObjectCoords (s x_d0 y_d0 z_d0 sinInc cosInc cosObjPA sinObjPA : T) : T * T * T :=
  let y_d := y_d0 + s * sinInc in
  let z_d := z_d0 - s * cosInc in
  let x_obj := x_d0 * cosObjPA + y_d * sinObjPA in
  let y_obj := nneg N x_d0 * sinObjPA + y_d * cosObjPA in
  let z_obj := fabs z_d in
  (x_obj, y_obj, z_obj).

(** ---- luminosity densities ---- *)

(** vertical part, func_expdisk3d.cpp:257-264, func_brokenexpdisk3d.cpp:270-277;
    COSH_LIMIT = 100.0 *)
Definition verticalScaling (z z_0 scaledZ0 two_to_alpha alpha : T) : T :=
  if nofZ N 100 <? z / scaledZ0 then two_to_alpha * exp (nneg N z / z_0)
  else let sech := 1 / ncosh N (z / scaledZ0) in pow sech alpha.

(** func_expdisk3d.cpp:232-268 *)
Definition LuminosityDensity (x_d0 y_d0 z_d0 cosInc sinInc J_0 h z_0 scaledZ0 two_to_alpha alpha s : T) : T :=
  let y_d := y_d0 + s * sinInc in
  let z_d := z_d0 - s * cosInc in
  let R := sqrt (x_d0 * x_d0 + y_d * y_d) in
  let z := fabs z_d in
  J_0 * exp (nneg N R / h) * verticalScaling z z_0 scaledZ0 two_to_alpha alpha.

(** func_brokenexpdisk3d.cpp:230-281 *)
Definition LuminosityDensityBED (x_d0 y_d0 z_d0 cosInc sinInc h1 h2 r_b alpha J_0_times_S delta_Rb_scaled
    exponent z_0 scaledZ0 two_to_alpha alphaVert s : T) : T :=
  let y_d := y_d0 + s * sinInc in
  let z_d := z_d0 - s * cosInc in
  let R := sqrt (x_d0 * x_d0 + y_d * y_d) in
  let z := fabs z_d in
  let J_rad :=
    if nofZ N 100 <? alpha * (R - r_b) then J_0_times_S * exp (delta_Rb_scaled - R / h2)
    else J_0_times_S * exp (nneg N R / h1) * pow (1 + exp (alpha * (R - r_b))) exponent in
  J_rad * verticalScaling z z_0 scaledZ0 two_to_alpha alphaVert.

(** func_gaussianring3d.cpp:222-255 *)
Definition LuminosityDensityRing (x_d0 y_d0 z_d0 cosInc sinInc cosRingPA sinRingPA q J_0 a_ring h_z
    twosigma_squared s : T) : T :=
  let '(x_ring, y_ring, z_ring) := Compute3dObjectCoords s x_d0 y_d0 z_d0 sinInc cosInc cosRingPA sinRingPA in
  let y_ring_scaled := y_ring / q in
  let R := sqrt (x_ring * x_ring + y_ring_scaled * y_ring_scaled) in
  let deltaR := R - a_ring in
  J_0 * exp (nneg N deltaR * deltaR / twosigma_squared) * exp (nneg N z_ring / h_z).

(** func_ferrersbar3d.cpp:230-261 *)
Definition LuminosityDensity_FerrersBar (x_d0 y_d0 z_d0 cosInc sinInc cosBarPA sinBarPA J_0 a2 b2 c2 n s : T) : T :=
  let '(x_bar, y_bar, z_bar) := Compute3dObjectCoords s x_d0 y_d0 z_d0 sinInc cosInc cosBarPA sinBarPA in
  let m2 := y_bar * y_bar / a2 + x_bar * x_bar / b2 + z_bar * z_bar / c2 in
  if 1 <? m2 then 0 else J_0 * pow (1 - m2) n.

(** func_peanut_dattathri.cpp:222-270 *)
Definition LuminosityDensityDattathriPeanut3D (x_d0 y_d0 z_d0 J0_bar R_bar_x R_bar_y R_bar_z R_peanut A_peanut
    sigma_peanut c_bar_par c_bar_perp cosInc sinInc cosPsi sinPsi s : T) : T :=
  let y_d := y_d0 + s * sinInc in
  let z_d := z_d0 - s * cosInc in
  let xbar := x_d0 * cosPsi + y_d * sinPsi in
  let ybar := nneg N x_d0 * sinPsi + y_d * cosPsi in
  let zbar := z_d in
  let z0 := A_peanut * exp (nneg N (square (xbar - R_peanut) / (2 * square sigma_peanut)
                                    + square ybar / (2 * square sigma_peanut)))
            + A_peanut * exp (nneg N (square (xbar + R_peanut) / (2 * square sigma_peanut)
                                    + square ybar / (2 * square sigma_peanut)))
            + R_bar_z in
  let Rs := pow (pow (fabs xbar / R_bar_x) c_bar_perp + pow (fabs ybar / R_bar_y) c_bar_perp) (c_bar_par / c_bar_perp)
            + pow (fabs zbar / z0) c_bar_par in
  let Rs := pow Rs (1 / c_bar_par) in
  J0_bar * pow (ncosh N (nneg N Rs)) (nneg N 2).

(** ---- Setup() and GetValue() ---- *)

(** What GetValue() uses: the centre, the two angles, the integrand as a function of the
    start point (x_d0, y_d0, z_d0) and of s, and the limit of integration *)
Record Obj3 := mkObj3 {
  o3_x0 : T; o3_y0 : T;
  o3_cosPA : T; o3_sinPA : T; o3_cosInc : T; o3_sinInc : T;
  o3_density : T -> T -> T -> T -> T;
  o3_limit : T }.

(** GetValue(): func_expdisk3d.cpp:177-219, and with the same text up to the parameters
    handed to the integrand and the limit, func_brokenexpdisk3d.cpp:168-215,
    func_gaussianring3d.cpp:169-209, func_ferrersbar3d.cpp:171-214,
    func_peanut_dattathri.cpp:162-209 *)
Definition GetValue3D (Integrate : (T -> T) -> T -> T -> T) (o : Obj3) (x y : T) : T :=
  let x_diff := x - o3_x0 o in
  let y_diff := y - o3_y0 o in
  let xp := x_diff * o3_cosPA o + y_diff * o3_sinPA o in
  let yp := nneg N x_diff * o3_sinPA o + y_diff * o3_cosPA o in
  let x_d0 := xp in
  let y_d0 := yp * o3_cosInc o in
  let z_d0 := yp * o3_sinInc o in
  Integrate (o3_density o x_d0 y_d0 z_d0) (nneg N (o3_limit o)) (o3_limit o).

Section Setup.
Variable d : ImageDesc T.
Variable params : list T.
Variable offsetIndex : nat.
Variables xc yc : T.
Let p (i : nat) : res T := get params (i + offsetIndex)%nat.
Notation DEG2RAD := (DEG2RAD N).

(** func_expdisk3d.cpp:149-172, limit 215 *)
Definition make_ExponentialDisk3D : res Obj3 :=
  do p0 <- p 0%nat; do p1 <- p 1%nat; do p2 <- p 2%nat; do p3 <- p 3%nat; do p4 <- p 4%nat; do p5 <- p 5%nat;
  let PA := p0 - imageRotation d in
  let inclination := p1 in
  let J_0 := p2 * intensityScale d in
  let h := p3 * pixelScaling d in
  let n := p4 in
  let z_0 := p5 * pixelScaling d in
  let inc_rad := inclination * DEG2RAD in
  let cosInc := ncos N inc_rad in
  let sinInc := nsin N inc_rad in
  let alpha := 2 / n in
  let scaledZ0 := alpha * z_0 in
  let two_to_alpha := pow 2 alpha in
  Ok (mkObj3 xc yc (cosPA N PA) (sinPA N PA) cosInc sinInc
        (fun x_d0 y_d0 z_d0 => LuminosityDensity x_d0 y_d0 z_d0 cosInc sinInc J_0 h z_0 scaledZ0 two_to_alpha alpha)
        (nofZ N 20 * h)).

(** func_brokenexpdisk3d.cpp:129-163, limit 211 *)
Definition make_BrokenExponentialDisk3D : res Obj3 :=
  do p0 <- p 0%nat; do p1 <- p 1%nat; do p2 <- p 2%nat; do p3 <- p 3%nat; do p4 <- p 4%nat; do p5 <- p 5%nat;
  do p6 <- p 6%nat; do p7 <- p 7%nat; do p8 <- p 8%nat;
  let PA := p0 - imageRotation d in
  let inclination := p1 in
  let J_0 := p2 * intensityScale d in
  let h1 := p3 * pixelScaling d in
  let h2 := p4 * pixelScaling d in
  let r_b := p5 * pixelScaling d in
  let alpha := p6 / pixelScaling d in
  let n := p7 in
  let z_0 := p8 * pixelScaling d in
  let inc_rad := inclination * DEG2RAD in
  let cosInc := ncos N inc_rad in
  let sinInc := nsin N inc_rad in
  let exponent := (1 / alpha) * (1 / h1 - 1 / h2) in
  let S := pow (1 + exp (nneg N alpha * r_b)) (nneg N exponent) in
  let J_0_times_S := J_0 * S in
  let delta_Rb_scaled := r_b / h2 - r_b / h1 in
  let alphaVert := 2 / n in
  let scaledZ0 := alphaVert * z_0 in
  let two_to_alpha := pow 2 alphaVert in
  Ok (mkObj3 xc yc (cosPA N PA) (sinPA N PA) cosInc sinInc
        (fun x_d0 y_d0 z_d0 => LuminosityDensityBED x_d0 y_d0 z_d0 cosInc sinInc h1 h2 r_b alpha J_0_times_S
           delta_Rb_scaled exponent z_0 scaledZ0 two_to_alpha alphaVert)
        (nmax (nofZ N 20 * r_b) (nofZ N 20 * h2))).

(** func_gaussianring3d.cpp:128-164, limit 205 *)
Definition make_GaussianRing3D : res Obj3 :=
  do p0 <- p 0%nat; do p1 <- p 1%nat; do p2 <- p 2%nat; do p3 <- p 3%nat; do p4 <- p 4%nat; do p5 <- p 5%nat;
  do p6 <- p 6%nat; do p7 <- p 7%nat;
  let PA := p0 - imageRotation d in
  let inclination := p1 in
  let ringPA := p2 in
  let ell := p3 in
  let J_0 := p4 * intensityScale d in
  let a_ring := p5 * pixelScaling d in
  let sigma := p6 * pixelScaling d in
  let h_z := p7 * pixelScaling d in
  let q := 1 - ell in
  let inc_rad := inclination * DEG2RAD in
  let cosInc := ncos N inc_rad in
  let sinInc := nsin N inc_rad in
  let twosigma_squared := 2 * sigma * sigma in
  Ok (mkObj3 xc yc (cosPA N PA) (sinPA N PA) cosInc sinInc
        (fun x_d0 y_d0 z_d0 => LuminosityDensityRing x_d0 y_d0 z_d0 cosInc sinInc (cosPA N ringPA) (sinPA N ringPA)
           q J_0 a_ring h_z twosigma_squared)
        (2 * a_ring)).

(** func_ferrersbar3d.cpp:125-166 *)
Definition make_FerrersBar3D : res Obj3 :=
  do p0 <- p 0%nat; do p1 <- p 1%nat; do p2 <- p 2%nat; do p3 <- p 3%nat; do p4 <- p 4%nat; do p5 <- p 5%nat;
  do p6 <- p 6%nat; do p7 <- p 7%nat;
  let PA := p0 - imageRotation d in
  let inclination := p1 in
  let barPA := p2 in
  let J_0 := p3 * intensityScale d in
  let R_bar := p4 * pixelScaling d in
  let q := p5 in
  let q_z := p6 in
  let n := p7 in
  let inc_rad := inclination * DEG2RAD in
  let cosInc := ncos N inc_rad in
  let sinInc := nsin N inc_rad in
  let a2 := R_bar * R_bar in
  let b2 := q * q * a2 in
  let c2 := q_z * q_z * a2 in
  Ok (mkObj3 xc yc (cosPA N PA) (sinPA N PA) cosInc sinInc
        (fun x_d0 y_d0 z_d0 => LuminosityDensity_FerrersBar x_d0 y_d0 z_d0 cosInc sinInc (cosPA N barPA) (sinPA N barPA)
           J_0 a2 b2 c2 n)
        (ndec N 101 2 * nmax (sqrt b2 * sinInc) R_bar)).

(** func_peanut_dattathri.cpp:125-157, limit 205 *)
Definition make_DattathriPeanut3D : res Obj3 :=
  do p0 <- p 0%nat; do p1 <- p 1%nat; do p2 <- p 2%nat; do p3 <- p 3%nat; do p4 <- p 4%nat; do p5 <- p 5%nat;
  do p6 <- p 6%nat; do p7 <- p 7%nat; do p8 <- p 8%nat; do p9 <- p 9%nat; do p10 <- p 10%nat; do p11 <- p 11%nat;
  let PA := p0 - imageRotation d in
  let inc := p1 in
  let psi_bar := p2 in
  let J0_bar := p3 * intensityScale d in
  let R_bar_x := p4 * pixelScaling d in
  let q := p5 in
  let q_z := p6 in
  let R_peanut := p7 * pixelScaling d in
  let A_peanut := p8 * pixelScaling d in
  let sigma_peanut := p9 * pixelScaling d in
  let c_bar_par := p10 in
  let c_bar_perp := p11 in
  let inc_rad := inc * DEG2RAD in
  let barPA_rad := psi_bar * DEG2RAD in
  let cosInc := ncos N inc_rad in
  let sinInc := nsin N inc_rad in
  let cosPsi := ncos N barPA_rad in
  let sinPsi := nsin N barPA_rad in
  let R_bar_y := q * R_bar_x in
  let R_bar_z := q_z * R_bar_x in
  Ok (mkObj3 xc yc (cosPA N PA) (sinPA N PA) cosInc sinInc
        (fun x_d0 y_d0 z_d0 => LuminosityDensityDattathriPeanut3D x_d0 y_d0 z_d0 J0_bar R_bar_x R_bar_y R_bar_z
           R_peanut A_peanut sigma_peanut c_bar_par c_bar_perp cosInc sinInc cosPsi sinPsi)
        (nofZ N 10 * R_bar_x)).

End Setup.

(** The classes, by the name used in configuration files *)
Inductive Kind3 := ExponentialDisk3D | BrokenExponentialDisk3D | GaussianRing3D | FerrersBar3D | DattathriPeanut3D.

(** N_PARAMS: func_expdisk3d.cpp:83, func_brokenexpdisk3d.cpp:61, func_gaussianring3d.cpp:64,
    func_ferrersbar3d.cpp:60, func_peanut_dattathri.cpp:55 *)
Definition nParams3 (k : Kind3) : nat :=
  match k with
  | ExponentialDisk3D => 6 | BrokenExponentialDisk3D => 9 | GaussianRing3D => 8 | FerrersBar3D => 8
  | DattathriPeanut3D => 12
  end%nat.

(** the virtual call Setup(params, offsetIndex, xc, yc) *)
Definition Setup3D (k : Kind3) (d : ImageDesc T) (params : list T) (offsetIndex : nat) (xc yc : T) : res Obj3 :=
  match k with
  | ExponentialDisk3D => make_ExponentialDisk3D d params offsetIndex xc yc
  | BrokenExponentialDisk3D => make_BrokenExponentialDisk3D d params offsetIndex xc yc
  | GaussianRing3D => make_GaussianRing3D d params offsetIndex xc yc
  | FerrersBar3D => make_FerrersBar3D d params offsetIndex xc yc
  | DattathriPeanut3D => make_DattathriPeanut3D d params offsetIndex xc yc
  end.

(** Setup() followed by GetValue(): the value of a component at (x, y). doSubsampling is
    false in all these classes, and GetValue() takes no sub-samples. *)
Definition value3D (Integrate : (T -> T) -> T -> T -> T) (k : Kind3) (d : ImageDesc T) (params : list T)
    (offsetIndex : nat) (xc yc x y : T) : res T :=
  do o <- Setup3D k d params offsetIndex xc yc;
  Ok (GetValue3D Integrate o x y).

(** AdjustParametersForImage(): func_expdisk3d.cpp:134-144, func_brokenexpdisk3d.cpp:111-124,
    func_gaussianring3d.cpp:111-123, func_ferrersbar3d.cpp:108-120,
    func_peanut_dattathri.cpp:104-120 *)
Definition adjustments3 (k : Kind3) : list Adj :=
  match k with
  | ExponentialDisk3D => [PA_; Keep; Int; Len; Keep; Len]
  | BrokenExponentialDisk3D => [PA_; Keep; Int; Len; Len; Len; Inv; Keep; Len]
  | GaussianRing3D => [PA_; Keep; Keep; Keep; Int; Len; Len; Len]
  | FerrersBar3D => [PA_; Keep; Keep; Int; Len; Keep; Keep; Keep]
  | DattathriPeanut3D => [PA_; Keep; Keep; Int; Len; Keep; Keep; Len; Len; Len; Keep; Keep]
  end.
Definition AdjustParametersForImage3D (k : Kind3) (d : ImageDesc T) (input adjusted : list T) (offsetIndex : nat)
  : res (list T) :=
  for_ (length (adjustments3 k)) (fun i adjusted =>
    do a <- get (adjustments3 k) i;
    do v <- get input (Nat.add i offsetIndex);
    set adjusted (Nat.add i offsetIndex) (adjust1 N d a v)) adjusted.

(** ---- FlatBar (func_flatbar.cpp) ---- *)

(** func_flatbar.cpp:258-268 *)
Definition ParabolicInterpolation (x x1 x2 y1 y2 : T) : T :=
  if x <? x1 then y1
  else if x2 <? x then y2
  else
    let x21diff := x2 - x1 in
    let b := (y2 - y1) / (x21diff * x21diff) in
    let xDiff := x - x1 in
    y1 + b * xDiff * xDiff.

(** fabs(atan(yp/xp)), func_flatbar.cpp:216, 279: the angle between the line through the point
    and the major axis. Written with atan2(), which needs no division by zero; the two
    agree in exact arithmetic except at the centre, where the quotient is NaN and every
    comparison with it false: see [FlatBar_plain]. *)
Definition deltaPA (xp yp : T) : T := fabs (natan2 N yp (fabs xp)).

(** func_flatbar.cpp:272-287. Answers (r_b_new, h2_new). *)
Definition GetAdjustedRbh2 (r_b h1 h2 deltaPA_max_rad xp yp r r_circ : T) : T * T :=
  if ((0 <? r_circ) && (0 <? r))%bool then
    ((r / r_circ) * r_b, ParabolicInterpolation (deltaPA xp yp) 0 deltaPA_max_rad h2 h1)
  else (r_b, h2).

(** func_flatbar.cpp:140-159 *)
Definition FlatBar_intensity (I_0 h1 alpha r h2_adj r_b_adj : T) : T :=
  let exponent := (1 / alpha) * (1 / h1 - 1 / h2_adj) in
  let S := pow (1 + exp (nneg N alpha * r_b_adj)) (nneg N exponent) in
  let I_0_times_S := I_0 * S in
  let delta_Rb_scaled := r_b_adj / h2_adj - r_b_adj / h1 in
  if nofZ N 100 <? alpha * (r - r_b_adj) then I_0_times_S * exp (delta_Rb_scaled - r / h2_adj)
  else I_0_times_S * exp (nneg N r / h1) * pow (1 + exp (alpha * (r - r_b_adj))) exponent.

(** the offset from the centre in the frame of the bar: (xp, yp, r, r_circ).
    func_flatbar.cpp:174-178 and 192-197 *)
Definition FlatBar_frame (PA q x_diff y_diff : T) : T * T * T * T :=
  let xp := x_diff * cosPA N PA + y_diff * sinPA N PA in
  let yp := nneg N x_diff * sinPA N PA + y_diff * cosPA N PA in
  let yp_scaled := yp / q in
  (xp, yp, sqrt (xp * xp + yp_scaled * yp_scaled), sqrt (xp * xp + yp * yp)).

(** the summand of the sub-sampling loop, func_flatbar.cpp:190-200 *)
Definition FlatBar_sub (I_0 PA q h1 h2 r_b alpha deltaPA_max_rad x_diff y_diff : T) : T :=
  let '(xp, yp, r, r_circ) := FlatBar_frame PA q x_diff y_diff in
  let '(r_b_current, h2_current) := GetAdjustedRbh2 r_b h1 h2 deltaPA_max_rad xp yp r r_circ in
  FlatBar_intensity I_0 h1 alpha r h2_current r_b_current.

(** without sub-sampling, func_flatbar.cpp:214-222: here h2 is replaced by h1 a second time
    beyond deltaPA_max; at the centre the comparison is with NaN, so false *)
Definition FlatBar_plain (I_0 PA q h1 h2 r_b alpha deltaPA_max_rad x_diff y_diff : T) : T :=
  let '(xp, yp, r, r_circ) := FlatBar_frame PA q x_diff y_diff in
  let '(r_b_current, h2_current) := GetAdjustedRbh2 r_b h1 h2 deltaPA_max_rad xp yp r r_circ in
  let centre := (neqb N xp 0 && neqb N yp 0)%bool in
  let h2_current := if (negb centre && (deltaPA_max_rad <? deltaPA xp yp))%bool then h1 else h2_current in
  FlatBar_intensity I_0 h1 alpha r h2_current r_b_current.

(** func_flatbar.cpp:110-130 and 164-225; CalculateSubsamples() (234-250) is the common
    scheme with the scale length h1. Note that I_0 is multiplied by pixelScaling (line 117). *)
Definition value_FlatBar (d : ImageDesc T) (params : list T) (offsetIndex : nat) (xc yc : T)
    (doSubsampling : bool) (x y : T) : res T :=
  let p i := get params (Nat.add i offsetIndex) in
  do p0 <- p 0%nat; do p1 <- p 1%nat; do p2 <- p 2%nat; do p3 <- p 3%nat; do p4 <- p 4%nat; do p5 <- p 5%nat;
  do p6 <- p 6%nat; do p7 <- p 7%nat;
  let PA := p0 - imageRotation d in
  let ell := p1 in
  let deltaPA_max := p2 in
  let I_0 := p3 * pixelScaling d in
  let h1 := p4 * pixelScaling d in
  let h2 := p5 * pixelScaling d in
  let r_b := p6 * pixelScaling d in
  let alpha := p7 / pixelScaling d in
  let q := 1 - ell in
  let deltaPA_max_rad := deltaPA_max * DEG2RAD N in
  let x_diff := x - xc in
  let y_diff := y - yc in
  let '(xp, yp, r, r_circ) := FlatBar_frame PA q x_diff y_diff in
  do nSubsamples <- subsamples N 20 3 h1 doSubsampling r;
  if (1 <? nSubsamples)%Z then
    let deltaSubpix := 1 / nofZ N nSubsamples in
    let x_sub_start := x - half N + half N * deltaSubpix in
    let y_sub_start := y - half N + half N * deltaSubpix in
    do theSum <- for_ (Z.to_nat nSubsamples) (fun ii theSum =>
      let x_ii := x_sub_start + nofZ N (Z.of_nat ii) * deltaSubpix in
      for_ (Z.to_nat nSubsamples) (fun jj theSum =>
        let y_ii := y_sub_start + nofZ N (Z.of_nat jj) * deltaSubpix in
        Ok (theSum + FlatBar_sub I_0 PA q h1 h2 r_b alpha deltaPA_max_rad (x_ii - xc) (y_ii - yc))) theSum) 0;
    Ok (theSum / nofZ N (nSubsamples * nSubsamples)%Z)
  else
    Ok (FlatBar_plain I_0 PA q h1 h2 r_b alpha deltaPA_max_rad x_diff y_diff).

(** AdjustParametersForImage(): func_flatbar.cpp:93-105 *)
Definition adjustments_FlatBar : list Adj := [PA_; Keep; Keep; Int; Len; Len; Len; Inv].
Definition AdjustParameters_FlatBar (d : ImageDesc T) (input adjusted : list T) (offsetIndex : nat) : res (list T) :=
  for_ (length adjustments_FlatBar) (fun i adjusted =>
    do a <- get adjustments_FlatBar i;
    do v <- get input (Nat.add i offsetIndex);
    set adjusted (Nat.add i offsetIndex) (adjust1 N d a v)) adjusted.
End Los.

Arguments nmax {T}. Arguments square {T}. Arguments Compute3dObjectCoords {T}. Arguments verticalScaling {T}.
Arguments LuminosityDensity {T}. Arguments LuminosityDensityBED {T}. Arguments LuminosityDensityRing {T}.
Arguments LuminosityDensity_FerrersBar {T}. Arguments LuminosityDensityDattathriPeanut3D {T}.
Arguments mkObj3 {T}. Arguments o3_x0 {T}. Arguments o3_y0 {T}. Arguments o3_cosPA {T}. Arguments o3_sinPA {T}.
Arguments o3_cosInc {T}. Arguments o3_sinInc {T}. Arguments o3_density {T}. Arguments o3_limit {T}.
Arguments GetValue3D {T}. Arguments make_ExponentialDisk3D {T}. Arguments make_BrokenExponentialDisk3D {T}.
Arguments make_GaussianRing3D {T}. Arguments make_FerrersBar3D {T}. Arguments make_DattathriPeanut3D {T}.
Arguments Setup3D {T}. Arguments value3D {T}. Arguments AdjustParametersForImage3D {T}.
Arguments ParabolicInterpolation {T}. Arguments deltaPA {T}. Arguments GetAdjustedRbh2 {T}.
Arguments FlatBar_intensity {T}. Arguments FlatBar_frame {T}. Arguments FlatBar_sub {T}. Arguments FlatBar_plain {T}.
Arguments value_FlatBar {T}. Arguments AdjustParameters_FlatBar {T}.
