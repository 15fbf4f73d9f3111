(** What LogSpiralArc is supposed to draw, stated without the model's helpers. *)
From Coq Require Import Reals List.
From Verif Require Export Arc_Model Spiral_Spec.
Open Scope R_scope.

(** The arc, as a function of the radius and of the angle [d] (counterclockwise, in (-pi, pi))
    from the angle of greatest brightness: the radius of the arm grows exponentially with
    the angle and is [r_scale] at [d] = 0; the brightness falls off as a Gaussian across the arm, and
    along it as a Gaussian with different widths on the two sides. *)
Definition arc (r_scale pitch I_max sigma_r s_ccw s_cw rho d : R) : R :=
  I_max * bell ((if Rle_dec 0 d then s_ccw else s_cw) * deg) d * bell sigma_r (rho - r_scale * exp (tan (pitch * deg) * d)).
