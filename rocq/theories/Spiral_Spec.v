(** What the spiral functions are supposed to draw, stated without the model's helpers. *)
From Coq Require Import Reals List ZArith.
From Verif Require Export Base Num Spiral_Model Func_Spec.
Import ListNotations.
Open Scope R_scope.

(** The plane of the spiral is a disc seen at an angle: its line of nodes has position angle
    [PA], and distances across the line of nodes are shortened by 1 - [ell]. The point of
    the image where the point of the disc with radius [rho] and azimuth [theta] (from the
    line of nodes) is seen. *)
Definition seen_at (x0 y0 PA ell rho theta : R) : R * R :=
  let phi := (PA + 90) * deg in
  (x0 + rho * cos theta * cos phi - (1 - ell) * (rho * sin theta) * sin phi,
   y0 + rho * cos theta * sin phi + (1 - ell) * (rho * sin theta) * cos phi).

(** The azimuth at radius [rho] of one of the logarithmic spirals with pitch angle [i]
    (degrees), which crosses the radius [R_i] at the azimuth [gamma] (degrees) *)
Definition spiral_azimuth (i R_i gamma rho : R) : R := gamma * deg + ln (rho / R_i) / tan (i * deg).
(** There are [m] such arms, evenly spaced: the point (rho, theta) is on one of them *)
Definition on_arm (m : Z) (i R_i gamma rho theta : R) : Prop :=
  exists k : Z, theta = spiral_azimuth i R_i gamma rho + IZR k * (2 * PI / IZR m).

(** The fall of the brightness between the arms *)
Definition between_arms (m sigma rho away : R) : R := exp (- (rho / sigma)² * (1 - cos (m * away))).
Definition bell (s x : R) : R := exp (- (x * x) / (2 * s * s)).

(** The five functions, their parameters, and their brightness on the arms as a function of the radius *)
Inductive spiral := LogSpiral | LogSpiral2 | LogSpiral3 | LogSpiralExp | LogSpiralGauss.

Definition nparams (f : spiral) : nat :=
  match f with LogSpiral => 8 | LogSpiral2 => 11 | LogSpiral3 => 14 | LogSpiralExp => 11 | LogSpiralGauss => 11 end.
Definition value (f : spiral) (params : list R) (offset : nat) (x0 y0 x y : R) : res R :=
  match f with
  | LogSpiral => LogSpiral_value NumR params offset x0 y0 x y
  | LogSpiral2 => LogSpiral2_value NumR params offset x0 y0 x y
  | LogSpiral3 => LogSpiral3_value NumR params offset x0 y0 x y
  | LogSpiralExp => LogSpiralExp_value NumR params offset x0 y0 x y
  | LogSpiralGauss => LogSpiralGauss_value NumR params offset x0 y0 x y
  end.

Section Par.
Variable f : spiral.
Variable p : nat -> R.
Definition m_of : R := p 2%nat.
Definition pitch : R := p 3%nat.
Definition R_i : R := match f with LogSpiral | LogSpiralGauss => p 5%nat | _ => p 4%nat end.
Definition sigma : R := match f with LogSpiral | LogSpiralGauss => p 6%nat | _ => p 5%nat end.
Definition gamma : R := match f with LogSpiral | LogSpiralGauss => p 7%nat | _ => p 6%nat end.
Definition on_arms (rho : R) : R :=
  match f with
  | LogSpiral => p 4%nat
  | LogSpiral2 =>   (* I_0 h R_max sigma_trunc *)
      p 7%nat * exp (- rho / p 8%nat) * (if Rlt_dec rho (p 9%nat) then rho / p 9%nat * bell (p 10%nat) (p 9%nat - rho) else 1)
  | LogSpiral3 =>   (* I_0 h1 h2 r_b alpha R_max sigma_trunc *)
      if Rlt_dec rho (p 12%nat) then p 7%nat * exp (- rho / p 8%nat) * (rho / p 12%nat) * bell (p 13%nat) (p 12%nat - rho)
      else broken_exp (p 7%nat) (p 8%nat) (p 9%nat) (p 10%nat) (p 11%nat) rho
  | LogSpiralExp =>   (* I_max h R_max sigma_trunc *)
      p 7%nat * (if Rlt_dec rho (p 9%nat) then bell (p 10%nat) (rho - p 9%nat) else exp (- (rho - p 9%nat) / p 8%nat))
  | LogSpiralGauss =>   (* R_max sigma_in sigma_out *)
      p 4%nat * bell (if Rlt_dec rho (p 8%nat) then p 9%nat else p 10%nat) (rho - p 8%nat)
  end.
(** LogSpiral3 leaves out the inner part of the profile when alpha (rho - r_b) is over 100 *)
Definition exact_profile (rho : R) : Prop :=
  match f with LogSpiral3 => p 11%nat * (rho - p 10%nat) <= 100 | _ => True end.
End Par.
