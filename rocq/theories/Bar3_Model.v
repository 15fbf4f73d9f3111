(** Model of func_triaxbar3d.cpp and func_bpbar3d.cpp in function_objects/: two more functions with line-of-sight
    integration. GetValue is that of [Los_Model] (func_triaxbar3d.cpp:135-179, func_bpbar3d.cpp:204-255).
    Definitions only. *)
From Coq Require Import ZArith List String.
From Verif Require Import Base Num Func_Model Los_Model.
Import ListNotations.

Section Bar3.
Variable T : Type.
Variable N : Num T.
Notation "0" := (nofZ N 0).
Notation "1" := (nofZ N 1).
Notation "2" := (nofZ N 2).
Infix "+" := (nadd N). Infix "-" := (nsub N). Infix "*" := (nmul N). Infix "/" := (ndiv N).
Notation exp := (nexp N). Notation pow := (npow N). Notation sqrt := (nsqrt N).
Notation fabs := (nabs N).
Notation "x <? y" := (nltb N x y).

Variable params : list T.
Variable offsetIndex : nat.
Variable xc yc : T.
Let p (i : nat) : res T := get params (i + offsetIndex)%nat.

(** func_triaxbar3d.cpp:185-196 *)
Definition CalculateTriaxRadiusSquared_simple (xp yp zp q q_z : T) : T :=
  let xx := fabs xp in
  let yy_scaled := fabs (yp / q) in
  let zz_scaled := fabs (zp / q_z) in
  xx * xx + yy_scaled * yy_scaled + zz_scaled * zz_scaled.

(** LuminosityDensity_TriaxBar, func_triaxbar3d.cpp:227-253, with LumDensity_Gaussian, helper_funcs_3d.cpp:106-109 *)
Definition LuminosityDensity_TriaxBar (x_d0 y_d0 z_d0 cosInc sinInc cosBarPA sinBarPA J_0 q q_z twosigma_squared s : T) : T :=
  let '(x_bar, y_bar, z_bar) := Compute3dObjectCoords N s x_d0 y_d0 z_d0 sinInc cosInc cosBarPA sinBarPA in
  let r2 := CalculateTriaxRadiusSquared_simple x_bar y_bar z_bar q q_z in
  J_0 * exp (nneg N r2 / twosigma_squared).

(** TriaxBar3D::Setup, func_triaxbar3d.cpp:104-130; limit of integration 175 *)
Definition make_TriaxBar3D : res (Obj3 T) :=
  do PA <- p 0; do inclination <- p 1; do barPA <- p 2; do J_0 <- p 3; do sigma <- p 4; do q <- p 5; do q_z <- p 6;
  let inc_rad := inclination * DEG2RAD N in
  let cosInc := ncos N inc_rad in
  let sinInc := nsin N inc_rad in
  let twosigma_squared := 2 * sigma * sigma in
  Ok (mkObj3 xc yc (cosPA N PA) (sinPA N PA) cosInc sinInc
        (fun x_d0 y_d0 z_d0 => LuminosityDensity_TriaxBar x_d0 y_d0 z_d0 cosInc sinInc (cosPA N barPA) (sinPA N barPA)
           J_0 q q_z twosigma_squared)
        (2 * twosigma_squared)).

(** PARAM_LABELS, func_bpbar3d.cpp:86-88: the names of the parameters in the order of configuration files *)
Definition BPBar3D_labels : list string :=
  ["PA"; "inclination"; "barPA"; "z_0"; "ell_outer"; "J_0_outer"; "h1"; "h2"; "r_break"; "alpha"; "ell_bp";
   "J_0_bp"; "h_bp"; "r_bp_max"; "z_bp_max"; "sigma_bp"]%string.

(** CalculateIntensity_BrokenExp, func_bpbar3d.cpp:261-279 *)
Definition CalculateIntensity_BrokenExp (r h1 h2_adj r_b_adj alpha : T) : T :=
  let exponent := (1 / alpha) * (1 / h1 - 1 / h2_adj) in
  let S := pow (1 + exp (nneg N alpha * r_b_adj)) (nneg N exponent) in
  let delta_Rb_scaled := r_b_adj / h2_adj - r_b_adj / h1 in
  if nofZ N 100 <? alpha * (r - r_b_adj) then
    S * exp (delta_Rb_scaled - r / h2_adj)
  else
    S * exp (nneg N r / h1) * pow (1 + exp (alpha * (r - r_b_adj))) exponent.

(** DoubleGaussian2D, func_bpbar3d.cpp:282-292 *)
Definition DoubleGaussian2D (x y R_max twosigma_squared : T) : T :=
  let x_diff_right2 := (x - R_max) * (x - R_max) in
  let x_diff_left2 := (x + R_max) * (x + R_max) in
  let y_diff2 := y * y in
  let right_part := exp (nneg N x_diff_right2 / twosigma_squared - y_diff2 / twosigma_squared) in
  let left_part := exp (nneg N x_diff_left2 / twosigma_squared - y_diff2 / twosigma_squared) in
  right_part + left_part.

(** LuminosityDensity_BPBar3D, func_bpbar3d.cpp:301-349 *)
Definition LuminosityDensity_BPBar3D (x_d0 y_d0 z_d0 cosInc sinInc cosBarPA sinBarPA z_0 q_outer J_0_outer h1 h2 r_b alpha
    q_bp J_0_bp r_bp_max z_bp_max h_bp twosigma_squared s : T) : T :=
  let '(x_bar, y_bar, z_bar) := Compute3dObjectCoords N s x_d0 y_d0 z_d0 sinInc cosInc cosBarPA sinBarPA in
  let y_bar_scaled := y_bar / q_outer in
  let R_outer := sqrt (x_bar * x_bar + y_bar_scaled * y_bar_scaled) in
  let lumDensity_outer := CalculateIntensity_BrokenExp R_outer h1 h2 r_b alpha in
  let lumDensity_outer := J_0_outer * lumDensity_outer * exp (nneg N z_bar / z_0) in
  let y_bp_scaled := y_bar / q_bp in
  let bp_z_scaling := z_bp_max * DoubleGaussian2D x_bar y_bp_scaled r_bp_max twosigma_squared in
  let z_h_bp := bp_z_scaling * z_0 in
  let R_bp := sqrt (x_bar * x_bar + y_bp_scaled * y_bp_scaled) in
  let lumDensity_bp := (J_0_bp / bp_z_scaling) * exp (nneg N R_bp / h_bp) * exp (nneg N z_bar / z_h_bp) in
  lumDensity_outer + lumDensity_bp.

(** BPBar3D::Setup, func_bpbar3d.cpp:160-199 *)
Definition make_BPBar3D (d : ImageDesc T) : res (Obj3 T) :=
  do p0 <- p 0; do p1 <- p 1; do p2 <- p 2; do p3 <- p 3; do p4 <- p 4; do p5 <- p 5; do p6 <- p 6; do p7 <- p 7;
  do p8 <- p 8; do p9 <- p 9; do p10 <- p 10; do p11 <- p 11; do p12 <- p 12; do p13 <- p 13; do p14 <- p 14; do p15 <- p 15;
  let PA := p0 - imageRotation d in
  let inclination := p1 in
  let barPA := p2 in
  let z_0 := p3 * pixelScaling d in
  let ell_outer := p4 in
  let J_0_outer := p5 * intensityScale d in
  let h1 := p6 * pixelScaling d in
  let h2 := p7 * pixelScaling d in
  let r_b := p8 * pixelScaling d in
  let alpha := p9 in
  let ell_bp := p10 in
  let J_0_bp := p11 * intensityScale d in
  let r_bp_max := p12 * pixelScaling d in
  let z_bp_max := p13 * pixelScaling d in
  let h_bp := p14 * pixelScaling d in
  let sigma_bp := p15 * pixelScaling d in
  let inc_rad := inclination * DEG2RAD N in
  let cosInc := ncos N inc_rad in
  let sinInc := nsin N inc_rad in
  let q_outer := 1 - ell_outer in
  let q_bp := 1 - ell_bp in
  let twosigma_squared := 2 * sigma_bp * sigma_bp in
  let integrationLimit := nofZ N 5 * r_b in
  Ok (mkObj3 xc yc (cosPA N PA) (sinPA N PA) cosInc sinInc
        (fun x_d0 y_d0 z_d0 => LuminosityDensity_BPBar3D x_d0 y_d0 z_d0 cosInc sinInc (cosPA N barPA) (sinPA N barPA)
           z_0 q_outer J_0_outer h1 h2 r_b alpha q_bp J_0_bp r_bp_max z_bp_max h_bp twosigma_squared)
        integrationLimit).
End Bar3.
Arguments CalculateTriaxRadiusSquared_simple {T}. Arguments LuminosityDensity_TriaxBar {T}. Arguments make_TriaxBar3D {T}.
Arguments CalculateIntensity_BrokenExp {T}. Arguments DoubleGaussian2D {T}. Arguments LuminosityDensity_BPBar3D {T}. Arguments make_BPBar3D {T}.
