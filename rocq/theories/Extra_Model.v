(** Model of further extra functions in function_objects/: func_broken-exp-bar.cpp, func_gauss_extraparams.cpp
    (without SetExtraParams), func_edge-on-disk_n4762.cpp and func_edge-on-disk_n4762v2.cpp. The last two are in the
    repository but commented out in core/add_functions.cpp:85-86, 283-287. Definitions only. *)
From Coq Require Import ZArith List.
From Verif Require Import Base Num Func_Model.

Section Extra.
Variable T : Type.
Variable N : Num T.
Notation "0" := (nofZ N 0).
Notation "1" := (nofZ N 1).
Notation "2" := (nofZ N 2).
Infix "+" := (nadd N). Infix "-" := (nsub N). Infix "*" := (nmul N). Infix "/" := (ndiv N).
Notation exp := (nexp N). Notation pow := (npow N). Notation sqrt := (nsqrt N).
Notation fabs := (nabs N).
Notation "x <=? y" := (nleb N x y). Notation "x <? y" := (nltb N x y).

Variable params : list T.
Variable offsetIndex : nat.
Variable xc yc : T.
Let p (i : nat) : res T := get params (i + offsetIndex)%nat.

(** the position in the frame of the component: func_broken-exp-bar.cpp:148-149 and 166-167,
    func_edge-on-disk_n4762.cpp:144-145 and 162-163 *)
Definition along (PA x_diff y_diff : T) : T := x_diff * cosPA N PA + y_diff * sinPA N PA.
Definition across (PA x_diff y_diff : T) : T := nneg N x_diff * sinPA N PA + y_diff * cosPA N PA.

(** BrokenExponentialBar::CalculateIntensity, func_broken-exp-bar.cpp:118-135 *)
Definition Bar_intensity (I_0_times_S h1 h2 r_b alpha exponent delta_Rb_scaled twosigma_squared x_in y_in : T) : T :=
  let x := fabs x_in in
  let y_squared := y_in * y_in in
  let I := if nofZ N 100 <? alpha * (x - r_b) then
             I_0_times_S * exp (delta_Rb_scaled - x / h2)
           else
             I_0_times_S * exp (nneg N x / h1) * pow (1 + exp (alpha * (x - r_b))) exponent in
  I * exp (nneg N y_squared / twosigma_squared).

(** BrokenExponentialBar::Setup, func_broken-exp-bar.cpp:86-110; CalculateSubsamples (187-203) is that of
    BrokenExponential, called with r = sqrt(xp*xp + yp*yp) (150); GetValue (140-178) is [Func_Model.GetValue] *)
Definition make_BrokenExponentialBar : res (Obj T) :=
  do PA <- p 0; do I_0 <- p 1; do h1 <- p 2; do h2 <- p 3; do r_b <- p 4; do alpha <- p 5; do sigma <- p 6;
  let exponent := (1 / alpha) * (1 / h1 - 1 / h2) in
  let S := pow (1 + exp (nneg N alpha * r_b)) (nneg N exponent) in
  let I_0_times_S := I_0 * S in
  let delta_Rb_scaled := r_b / h2 - r_b / h1 in
  let twosigma_squared := 2 * sigma * sigma in
  Ok (mkObj xc yc
        (fun dx dy => Bar_intensity I_0_times_S h1 h2 r_b alpha exponent delta_Rb_scaled twosigma_squared
                        (along PA dx dy) (across PA dx dy))
        (fun s dx dy =>
           let xp := along PA dx dy in
           let yp := across PA dx dy in
           subsamples N 20 3 h1 s (sqrt (xp * xp + yp * yp)))).

(** GaussianExtraParams::CalculateIntensity, func_gauss_extraparams.cpp:157-162 *)
Definition GaussianExtraParams_intensity (I_0 twosigma_squared floorValue r : T) : T :=
  let r_squared := r * r in
  I_0 * exp (nneg N r_squared / twosigma_squared) + floorValue.

(** GaussianExtraParams::Setup, func_gauss_extraparams.cpp:134-150; CalculateSubsamples (218-233) is that of Gaussian;
    GetValue (171-209) is [Func_Model.GetValue] *)
Definition make_GaussianExtraParams (floorValue : T) : res (Obj T) :=
  do PA <- p 0; do ell <- p 1; do I_0 <- p 2; do sigma <- p 3;
  let twosigma_squared := 2 * sigma * sigma in
  Ok (elliptical N xc yc PA ell (GaussianExtraParams_intensity I_0 twosigma_squared floorValue) (subsamples N 40 3 sigma)).

(** CalculateSubsamples, func_edge-on-disk_n4762.cpp:183-202 and func_edge-on-disk_n4762v2.cpp:187-206 *)
Definition N4762_subsamples (h_z : T) (doSubsampling : bool) (z : T) : res Z :=
  let z_abs := fabs z in
  if (doSubsampling && (z_abs <? nofZ N 10))%bool then
    if ((h_z <=? 1) && (z_abs <=? 1))%bool then
      do n <- to_int N (nofZ N 20 / h_z); Ok (Z.min 100 n)
    else if z_abs <=? nofZ N 3 then Ok 20%Z
    else do n <- to_int N (nofZ N 20 / z_abs); Ok (Z.min 100 n)
  else Ok 1%Z.

(** EdgeOnDiskN4762::CalculateIntensity, func_edge-on-disk_n4762.cpp:115-131 *)
Definition N4762_intensity (I_0_times_S h2 r_b alpha exponent delta_Rb_scaled h_z r z : T) : T :=
  let rr := fabs r in
  let I_radial := if nofZ N 100 <? alpha * (rr - r_b) then
                    I_0_times_S * exp (delta_Rb_scaled - rr / h2)
                  else
                    I_0_times_S * pow (1 + exp (alpha * (rr - r_b))) (nneg N exponent) in
  let verticalScaling := exp (nneg N (fabs z) / h_z) in
  I_radial * verticalScaling.

(** EdgeOnDiskN4762::Setup, func_edge-on-disk_n4762.cpp:89-110; GetValue (136-172) is [Func_Model.GetValue] *)
Definition make_EdgeOnDiskN4762 : res (Obj T) :=
  do PA <- p 0; do I_0 <- p 1; do h2 <- p 2; do r_b <- p 3; do alpha <- p 4; do h_z <- p 5;
  let exponent := 1 / (alpha * h2) in
  let S := pow (1 + exp (nneg N alpha * r_b)) exponent in
  let I_0_times_S := I_0 * S in
  let delta_Rb_scaled := r_b / h2 in
  Ok (mkObj xc yc
        (fun dx dy => N4762_intensity I_0_times_S h2 r_b alpha exponent delta_Rb_scaled h_z (along PA dx dy) (across PA dx dy))
        (fun s dx dy => N4762_subsamples h_z s (across PA dx dy))).

(** The members of an EdgeOnDiskN4762v2 that Setup writes. The member r_b, which CalculateIntensity writes, is passed
    around separately; it is [Undef] in a new object. *)
Record V2 := mkV2 { v2_PA : T; v2_h2 : T; v2_a_rb : T; v2_b_rb : T; v2_alpha : T; v2_h_z : T; v2_exponent : T; v2_I_0_times_S : T }.

(** EdgeOnDiskN4762v2::Setup, func_edge-on-disk_n4762v2.cpp:89-110 *)
Definition V2_Setup (member_r_b : res T) : res V2 :=
  do PA <- p 0; do I_0 <- p 1; do h2 <- p 2; do a_rb <- p 3; do b_rb <- p 4; do alpha <- p 5; do h_z <- p 6;
  let exponent := 1 / (alpha * h2) in
  do r_b <- member_r_b;
  let S := pow (1 + exp (nneg N alpha * r_b)) exponent in
  let I_0_times_S := I_0 * S in
  Ok (mkV2 PA h2 a_rb b_rb alpha h_z exponent I_0_times_S).

(** EdgeOnDiskN4762v2::CalculateIntensity, func_edge-on-disk_n4762v2.cpp:115-134: the intensity, and r_b after the call *)
Definition V2_CalculateIntensity (o : V2) (r z : T) : T * T :=
  let r_b := v2_a_rb o + v2_b_rb o * z in
  let delta_Rb_scaled := r_b / v2_h2 o in
  let I_radial := if nofZ N 100 <? v2_alpha o * (r - r_b) then
                    v2_I_0_times_S o * exp (delta_Rb_scaled - r / v2_h2 o)
                  else
                    v2_I_0_times_S o * pow (1 + exp (v2_alpha o * (r - r_b))) (nneg N (v2_exponent o)) in
  let verticalScaling := exp (nneg N z / v2_h_z o) in
  (I_radial * verticalScaling, r_b).

(** EdgeOnDiskN4762v2::GetValue, func_edge-on-disk_n4762v2.cpp:140-176: the value, and r_b after the call
    (the second 0 that the loop starts with is overwritten in its first step) *)
Definition V2_GetValue (o : V2) (doSubsampling : bool) (x y : T) : res (T * T) :=
  let R_ dx dy := fabs (along (v2_PA o) dx dy) in
  let z_ dx dy := fabs (across (v2_PA o) dx dy) in
  let x_diff := x - xc in
  let y_diff := y - yc in
  do nSubsamples <- N4762_subsamples (v2_h_z o) doSubsampling (z_ x_diff y_diff);
  if (1 <? nSubsamples)%Z then
    let deltaSubpix := 1 / nofZ N nSubsamples in
    let x_sub_start := x - half N + half N * deltaSubpix in
    let y_sub_start := y - half N + half N * deltaSubpix in
    do st <- for_ (Z.to_nat nSubsamples) (fun ii st =>
      let x_ii := x_sub_start + nofZ N (Z.of_nat ii) * deltaSubpix in
      for_ (Z.to_nat nSubsamples) (fun jj st =>
        let y_ii := y_sub_start + nofZ N (Z.of_nat jj) * deltaSubpix in
        let c := V2_CalculateIntensity o (R_ (x_ii - xc) (y_ii - yc)) (z_ (x_ii - xc) (y_ii - yc)) in
        Ok (fst st + fst c, snd c)) st) (0, 0);
    Ok (fst st / nofZ N (nSubsamples * nSubsamples)%Z, snd st)
  else
    Ok (V2_CalculateIntensity o (R_ x_diff y_diff) (z_ x_diff y_diff)).
End Extra.
Arguments along {T}. Arguments across {T}. Arguments Bar_intensity {T}. Arguments make_BrokenExponentialBar {T}.
Arguments GaussianExtraParams_intensity {T}. Arguments make_GaussianExtraParams {T}. Arguments N4762_subsamples {T}.
Arguments N4762_intensity {T}. Arguments make_EdgeOnDiskN4762 {T}. Arguments V2_Setup {T}. Arguments V2_CalculateIntensity {T}.
Arguments V2_GetValue {T}. Arguments mkV2 {T}.
