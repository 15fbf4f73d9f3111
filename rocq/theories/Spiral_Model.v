(** Model of the spiral functions: func_logspiral.cpp, func_logspiral2.cpp,
    func_logspiral3.cpp, func_logspiral_exp.cpp, func_logspiral_gauss.cpp in
    function_objects/. Definitions only. Setup() and GetValue() are taken together: the
    value at a pixel, given the parameters. CalculateSubsamples() returns 1 in all of
    them (e.g. func_logspiral_exp.cpp:226-230), so the loop over sub-pixels is never
    entered and is left out. tan is written sin/cos. These functions are known to imfit
    only when it is built with the extra functions (core/add_functions.cpp:263-316).
    LogSpiralArc is in Arc_Model; LogSpiralBrokenExp, named there too, is not in the repository. *)
From Coq Require Import ZArith List.
From Verif Require Import Base Num Func_Model.

Section Spiral.
Variable T : Type.
Variable N : Num T.
Notation "0" := (nofZ N 0).
Notation "1" := (nofZ N 1).
Notation "2" := (nofZ N 2).
Infix "+" := (nadd N). Infix "-" := (nsub N). Infix "*" := (nmul N). Infix "/" := (ndiv N).
Notation exp := (nexp N). Notation pow := (npow N). Notation sqrt := (nsqrt N).
Notation fabs := (nabs N). Notation log := (nlog N).
Notation "- x" := (nneg N x).
Notation "x <=? y" := (nleb N x y). Notation "x <? y" := (nltb N x y).
Notation DEG2RAD := (DEG2RAD N).

(** func_logspiral_exp.cpp:76 and the same line in the others *)
Definition MIN_RADIUS := ndec N 1 3.

(** GetValue, func_logspiral_exp.cpp:177-193, and the same lines in the others: radius and
    azimuth in the frame of the component *)
Definition polar (xc yc PA ell x y : T) : T * T :=
  let q := 1 - ell in
  let x_diff := x - xc in
  let y_diff := y - yc in
  let xp := x_diff * cosPA N PA + y_diff * sinPA N PA in
  let yp_scaled := (- x_diff * sinPA N PA + y_diff * cosPA N PA) / q in
  (sqrt (xp * xp + yp_scaled * yp_scaled), natan2 N yp_scaled xp).

(** "if (r <= 0.0) r = MIN_RADIUS", func_logspiral_exp.cpp:146-148 and the same lines in
    the others *)
Definition off_centre (r : T) : T := if r <=? 0 then MIN_RADIUS else r.

(** the azimuthal factor, func_logspiral_exp.cpp:149-151 with 128-131; the same in
    func_logspiral.cpp:135-137, func_logspiral2.cpp:150-152, func_logspiral3.cpp:160-162,
    func_logspiral_gauss.cpp:148-150 *)
Definition azimuthal (m i_pitch R_i sigma gamma r phi : T) : T :=
  let gamma_true := m * gamma * DEG2RAD in
  let m_over_tani := m / (nsin N (i_pitch * DEG2RAD) / ncos N (i_pitch * DEG2RAD)) in
  let logSpiralFn := m_over_tani * log (r / R_i) + gamma_true in
  let phi_term := 1 - ncos N (m * phi - logSpiralFn) in
  exp ((- r * r / (sigma * sigma)) * phi_term).

Section At.
Variable params : list T.
Variable offsetIndex : nat.
Variables xc yc x y : T.
Let p (i : nat) : res T := get params (i + offsetIndex)%nat.

(** func_logspiral.cpp:96-140 *)
Definition LogSpiral_value : res T :=
  do PA <- p 0; do ell <- p 1; do m <- p 2; do i_pitch <- p 3; do I_0 <- p 4; do R_i <- p 5; do sigma <- p 6; do gamma <- p 7;
  let '(r, phi) := polar xc yc PA ell x y in
  let r := off_centre r in
  Ok (I_0 * azimuthal m i_pitch R_i sigma gamma r phi).

(** func_logspiral2.cpp:103-167 *)
Definition LogSpiral2_value : res T :=
  do PA <- p 0; do ell <- p 1; do m <- p 2; do i_pitch <- p 3; do R_i <- p 4; do sigma_az <- p 5; do gamma <- p 6;
  do I_0 <- p 7; do h <- p 8; do R_max <- p 9; do sigma_trunc <- p 10;
  let '(r, phi) := polar xc yc PA ell x y in
  let r := off_centre r in
  let twosigma_trunc_squared := 2 * sigma_trunc * sigma_trunc in
  let truncationScaling :=
    if r <? R_max then
      let r_diff := R_max - r in
      (r / R_max) * exp (- (r_diff * r_diff) / twosigma_trunc_squared)
    else 1 in
  let I_rad := truncationScaling * I_0 * exp (- r / h) in
  Ok (I_rad * azimuthal m i_pitch R_i sigma_az gamma r phi).

(** func_logspiral3.cpp:104-181 *)
Definition LogSpiral3_value : res T :=
  do PA <- p 0; do ell <- p 1; do m <- p 2; do i_pitch <- p 3; do R_i <- p 4; do sigma_az <- p 5; do gamma <- p 6;
  do I_0 <- p 7; do h1 <- p 8; do h2 <- p 9; do r_b <- p 10; do alpha <- p 11; do R_max <- p 12; do sigma_trunc <- p 13;
  let '(r, phi) := polar xc yc PA ell x y in
  let r := off_centre r in
  let twosigma_trunc_squared := 2 * sigma_trunc * sigma_trunc in
  let exponent := (1 / alpha) * (1 / h1 - 1 / h2) in
  let S := pow (1 + exp (- alpha * r_b)) (- exponent) in
  let I_0_times_S := I_0 * S in
  let delta_Rb_scaled := r_b / h2 - r_b / h1 in
  let I_rad :=
    if r <? R_max then
      let r_diff := R_max - r in
      let truncationScaling := (r / R_max) * exp (- (r_diff * r_diff) / twosigma_trunc_squared) in
      truncationScaling * I_0 * exp (- r / h1)
    else if nofZ N 100 <? alpha * (r - r_b) then I_0_times_S * exp (delta_Rb_scaled - r / h2)
    else I_0_times_S * exp (- r / h1) * pow (1 + exp (alpha * (r - r_b))) exponent in
  Ok (I_rad * azimuthal m i_pitch R_i sigma_az gamma r phi).

(** func_logspiral_exp.cpp:103-171 *)
Definition LogSpiralExp_value : res T :=
  do PA <- p 0; do ell <- p 1; do m <- p 2; do i_pitch <- p 3; do R_i <- p 4; do sigma_az <- p 5; do gamma <- p 6;
  do I_max <- p 7; do h <- p 8; do R_max <- p 9; do sigma_trunc <- p 10;
  let '(r, phi) := polar xc yc PA ell x y in
  let r := off_centre r in
  let twosigma_trunc_squared := 2 * sigma_trunc * sigma_trunc in
  let I_0 := I_max / exp (- R_max / h) in
  let I_rad :=
    if r <? R_max then
      let r_diff := R_max - r in
      I_max * exp (- (r_diff * r_diff) / twosigma_trunc_squared)
    else I_0 * exp (- r / h) in
  Ok (I_rad * azimuthal m i_pitch R_i sigma_az gamma r phi).

(** func_logspiral_gauss.cpp:102-162; r_diff is taken before r is replaced *)
Definition LogSpiralGauss_value : res T :=
  do PA <- p 0; do ell <- p 1; do m <- p 2; do i_pitch <- p 3; do I_0 <- p 4; do R_i <- p 5; do sigma <- p 6; do gamma <- p 7;
  do R_max <- p 8; do sigma_max_in <- p 9; do sigma_max_out <- p 10;
  let '(r, phi) := polar xc yc PA ell x y in
  let r_diff := fabs (r - R_max) in
  let r := off_centre r in
  let twosigma_r_squared := if r <? R_max then 2 * sigma_max_in * sigma_max_in else 2 * sigma_max_out * sigma_max_out in
  let I := I_0 * exp (- (r_diff * r_diff) / twosigma_r_squared) in
  Ok (I * azimuthal m i_pitch R_i sigma gamma r phi).
End At.
End Spiral.
Arguments polar {T}. Arguments off_centre {T}. Arguments azimuthal {T}. Arguments LogSpiral_value {T}. Arguments LogSpiral2_value {T}.
Arguments LogSpiral3_value {T}. Arguments LogSpiralExp_value {T}. Arguments LogSpiralGauss_value {T}.
