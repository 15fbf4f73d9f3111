(** Model of func_logspiral_arc.cpp in function_objects/ (one arc of a logarithmic spiral).
    Definitions only. Setup() and GetValue() are taken together. CalculateSubsamples()
    returns 1 (func_logspiral_arc.cpp:203-207), so the loop over sub-pixels is left out. tan
    is written sin/cos, M_PI is written atan2(0, -1). *)
From Coq Require Import ZArith List.
From Verif Require Import Base Num Func_Model.

Section Arc.
Variable T : Type.
Variable N : Num T.
Notation "0" := (nofZ N 0).
Notation "1" := (nofZ N 1).
Notation "2" := (nofZ N 2).
Infix "+" := (nadd N). Infix "-" := (nsub N). Infix "*" := (nmul N). Infix "/" := (ndiv N).
Notation exp := (nexp N). Notation sqrt := (nsqrt N).
Notation "- x" := (nneg N x).
Notation "x <=? y" := (nleb N x y). Notation "x <? y" := (nltb N x y).
Notation DEG2RAD := (DEG2RAD N).

Definition M_PI : T := natan2 N 0 (- (1)).

(** GetStdAngle, func_logspiral_arc.cpp:214-219. The argument of fmod() is between M_PI and
    3 M_PI, where fmod() subtracts 2 M_PI at most once. *)
Definition GetStdAngle (x_diff y_diff : T) : T :=
  let theta_atan2 := natan2 N y_diff x_diff in
  let t := 2 * M_PI + theta_atan2 in
  if 2 * M_PI <=? t then t - 2 * M_PI else t.

(** GetThetaRel, func_logspiral_arc.cpp:223-229 *)
Definition GetThetaRel (theta_sp_ref theta_std : T) : T :=
  let theta_rel := theta_std - (M_PI - theta_sp_ref) in
  if theta_rel <? 0 then theta_rel + 2 * M_PI else theta_rel.

(** GetThetaDiff, func_logspiral_arc.cpp:246-257 *)
Definition GetThetaDiff (theta_max_rad theta_std : T) : T :=
  let theta := if theta_std <? theta_max_rad then theta_std + 2 * M_PI else theta_std in
  let theta_diff := theta - theta_max_rad in
  if M_PI <? theta_diff then - (2 * M_PI - theta_diff) else theta_diff.

(** Setup, CalculateIntensity, GetValue: func_logspiral_arc.cpp:76-197 *)
Definition LogSpiralArc_value (params : list T) (offsetIndex : nat) (xc yc x y : T) : res T :=
  let p i := get params (i + offsetIndex)%nat in
  do PA <- p 0%nat; do ell <- p 1%nat; do r_scale <- p 2%nat; do i_pitch <- p 3%nat; do theta_max <- p 4%nat; do I_max <- p 5%nat;
  do sigma_r <- p 6%nat; do sigma_theta_ccw <- p 7%nat; do sigma_theta_cw <- p 8%nat;
  let q := 1 - ell in
  let tan_i_pitch := nsin N (i_pitch * DEG2RAD) / ncos N (i_pitch * DEG2RAD) in
  let twosigma_r_squared := 2 * sigma_r * sigma_r in
  let theta_max_rad := theta_max * DEG2RAD in
  let theta_sp_ref := if andb (0 <=? theta_max_rad) (theta_max_rad <=? M_PI) then - theta_max_rad else 2 * M_PI - theta_max_rad in
  let sigma_theta_ccw_rad := sigma_theta_ccw * DEG2RAD in
  let sigma_theta_cw_rad := sigma_theta_cw * DEG2RAD in
  let twosigma_theta_ccw_squared := 2 * sigma_theta_ccw_rad * sigma_theta_ccw_rad in
  let twosigma_theta_cw_squared := 2 * sigma_theta_cw_rad * sigma_theta_cw_rad in
  let theta_rel_max := GetThetaRel theta_sp_ref theta_max_rad in
  let R0 := r_scale / exp (tan_i_pitch * theta_rel_max) in
  let x_diff := x - xc in
  let y_diff := y - yc in
  let xp := x_diff * cosPA N PA + y_diff * sinPA N PA in
  let yp_scaled := (- x_diff * sinPA N PA + y_diff * cosPA N PA) / q in
  let r := sqrt (xp * xp + yp_scaled * yp_scaled) in
  let theta_std := GetStdAngle x_diff y_diff in
  let theta_rel := GetThetaRel theta_sp_ref theta_std in
  let R_arm := R0 * exp (tan_i_pitch * theta_rel) in
  let r_diff := r - R_arm in
  let r_squared := r_diff * r_diff in
  let theta_diff := GetThetaDiff theta_max_rad theta_std in
  let theta_diff_squared := theta_diff * theta_diff in
  let I_theta :=
    if 0 <=? theta_diff then I_max * exp (- theta_diff_squared / twosigma_theta_ccw_squared)
    else I_max * exp (- theta_diff_squared / twosigma_theta_cw_squared) in
  Ok (I_theta * exp (- r_squared / twosigma_r_squared)).
End Arc.
Arguments M_PI {T}. Arguments GetStdAngle {T}. Arguments GetThetaRel {T}. Arguments GetThetaDiff {T}. Arguments LogSpiralArc_value {T}.
