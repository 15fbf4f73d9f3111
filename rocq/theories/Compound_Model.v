(** Model of func_n4608disk.cpp in function_objects/: a function made of two others.
    Definitions only. *)
From Coq Require Import ZArith List.
From Verif Require Import Base Num Func_Model.
Import ListNotations.

Section Compound.
Variable T : Type.
Variable N : Num T.

(** Setup (func_n4608disk.cpp:99-135) and GetValue (140-146), with SetSubsampling (88-94). The two functions inside
    know nothing of the description of the image. *)
Definition N4608Disk_value (params : list T) (offsetIndex : nat) (xc yc : T) (doSubsampling : bool) (x y : T) : res T :=
  let p i := get params (i + offsetIndex) in
  do I_0 <- p 2;
  do PA_ring <- p 7; do ell_ring <- p 8; do A_maj_rel <- p 9; do A_min_rel <- p 10; do R_ring <- p 11; do sigma_r <- p 12;
  do funcBrokenExp <- make_BrokenExponential N (default_desc N) params offsetIndex xc yc;
  let A_maj := nmul N A_maj_rel I_0 in
  let A_min := nmul N A_min_rel I_0 in
  let ringParams := [PA_ring; ell_ring; A_maj; A_min; R_ring; sigma_r] in
  do funcGaussianRingAz <- make_GaussianRingAz N (default_desc N) ringParams 0 xc yc;
  do I_BrokenExp <- GetValue N funcBrokenExp doSubsampling x y;
  do I_GaussianRingAz <- GetValue N funcGaussianRingAz doSubsampling x y;
  Ok (nadd N I_BrokenExp I_GaussianRingAz).
End Compound.
Arguments N4608Disk_value {T}.
