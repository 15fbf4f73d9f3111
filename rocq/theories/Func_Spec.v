(** What the image functions are supposed to compute, stated without the
    model's helpers. *)
From Coq Require Import Reals List.
From Coquelicot Require Import Coquelicot.
From Verif Require Export Func_Model Sums.
Import ListNotations.
Open Scope R_scope.

(** Degrees to radians, as the program rounds it *)
Definition deg : R := 17453292519943295 / 10 ^ 18.

(** The direction of the major axis, as an angle from the +x axis, of a
    component with position angle [PA] (from the +y axis) on an image rotated
    by [rot]. *)
Definition direction (PA rot : R) : R := (PA - rot + 90) * deg.

(** The point with parameter [t] on the ellipse with centre (x0, y0),
    semi-major axis [a] in direction [phi] and axis ratio [q] *)
Definition ellipse_x (x0 phi q a t : R) : R := x0 + (a * cos t) * cos phi - (q * a * sin t) * sin phi.
Definition ellipse_y (y0 phi q a t : R) : R := y0 + (a * cos t) * sin phi + (q * a * sin t) * cos phi.

(** Centre of the i-th of [n] equal slices of the unit interval around [c] *)
Definition slice_centre (n : nat) (c : R) (i : nat) : R := c - 1 / 2 + (INR i + 1 / 2) / INR n.

(** Mean of [f] over the centres of the n x n sub-pixels of the pixel (x, y) *)
Definition mean_over_pixel (n : nat) (f : R -> R -> R) (x y : R) : R :=
  rsum n (fun i => rsum n (fun j => f (slice_centre n x i) (slice_centre n y j))) / (INR n * INR n).

(** [f] is what a component shows when sub-sampling is off *)
Definition plain_image (value : bool -> R -> R -> res R) (f : R -> R -> R) : Prop :=
  forall x y, value false x y = Ok (f x y).

(** Classes whose isophotes are ellipses *)
Definition has_ellipses (k : Kind) : bool :=
  match k with
  | Exponential | Gaussian | Sersic | Moffat | ModifiedKing | ModifiedKing2 | CoreSersic | NukerLaw
  | BrokenExponential | DoubleBrokenExponential | FlatExponential | GaussianRing | GaussianRing2Side => true
  | _ => false
  end.

(** Classes that read the image description (rotation, scales) in Setup() *)
Definition uses_description (k : Kind) : bool :=
  match k with
  | DoubleBrokenExponential | FlatExponential | GenExponential2 => false
  | _ => true
  end.

(** Direction and axis ratio of an elliptical component, from its parameters *)
Definition component_direction (k : Kind) (d : ImageDesc R) (ps : list R) (off : nat) : R :=
  direction (nth off ps 0) (if uses_description k then imageRotation d else 0).
Definition component_axis_ratio (ps : list R) (off : nat) : R := 1 - nth (1 + off) ps 0.

(** The length that controls sub-sampling *)
Definition scale_length (k : Kind) (d : ImageDesc R) (ps : list R) (off : nat) : R :=
  let p i := nth (i + off) ps 0 in
  match k with
  | Exponential | Gaussian | ModifiedKing | ModifiedKing2 | BrokenExponential => p 3%nat * pixelScaling d
  | DoubleBrokenExponential | FlatExponential => p 3%nat
  | Sersic | CoreSersic | GenExponential => p 4%nat * pixelScaling d
  | GenSersic | FerrersBar2D => p 5%nat * pixelScaling d
  | GenExponential2 => p 7%nat
  | BrokenExponential2D | EdgeOnDisk => p 2%nat * pixelScaling d
  | Moffat => p 3%nat * pixelScaling d / 2 / sqrt (Rpow 2 (1 / p 4%nat) - 1)
  | _ => 1
  end.

(** The vertical scale of an edge-on disk *)
Definition vertical_scale (k : Kind) (d : ImageDesc R) (ps : list R) (off : nat) : R :=
  match k with EdgeOnDisk => nth (4 + off) ps 0 * pixelScaling d | _ => 1 end.

(** What an elliptical component shows (sub-sampling off) at the point [t] of
    its ellipse with semi-major axis [a] *)
Definition on_ellipse K1 k d (ps : list R) off xc yc (a t : R) : res R :=
  value_at NumR K1 k d ps off xc yc false
    (ellipse_x xc (component_direction k d ps off) (component_axis_ratio ps off) a t)
    (ellipse_y yc (component_direction k d ps off) (component_axis_ratio ps off) a t).

(** Ordinary parameter values of the classes whose profile falls with radius:
    amplitude >= 0, positive lengths and indices *)
Definition ordinary_params (k : Kind) (d : ImageDesc R) (ps : list R) (off : nat) : Prop :=
  let p i := nth (i + off) ps 0 in
  let length_ i := 0 < p i * pixelScaling d in
  let brightness i := 0 <= p i * intensityScale d in
  match k with
  | Exponential | Gaussian => brightness 2%nat /\ length_ 3%nat
  | Sersic => 6 / 100 <= p 2%nat /\ brightness 3%nat /\ length_ 4%nat
  | Moffat => brightness 2%nat /\ length_ 3%nat /\ 0 < p 4%nat
  | ModifiedKing => brightness 2%nat /\ length_ 3%nat /\ length_ 4%nat /\ 0 < p 5%nat
  | ModifiedKing2 => brightness 2%nat /\ length_ 3%nat /\ 0 < p 4%nat /\ 0 < p 5%nat
  | CoreSersic => 6 / 100 <= p 2%nat /\ brightness 3%nat /\ length_ 4%nat /\ length_ 5%nat /\ 0 < p 6%nat /\ 0 <= p 7%nat
  | NukerLaw => brightness 2%nat /\ length_ 3%nat /\ 0 < p 4%nat /\ 0 <= p 6%nat <= p 5%nat
  | _ => False
  end.

(** The brightness each elliptical class advertises at particular radii: pairs
    of semi-major axis and brightness *)
Definition advertised (k : Kind) (d : ImageDesc R) (ps : list R) (off : nat) : list (R * R) :=
  let p i := nth (i + off) ps 0 in
  let len i := p i * pixelScaling d in
  let int i := p i * intensityScale d in
  match k with
  | Exponential => [(0, int 2%nat); (len 3%nat, int 2%nat * exp (-1))]
  | Gaussian => [(0, int 2%nat); (len 3%nat, int 2%nat * exp (- (1 / 2)))]
  | Sersic => [(len 4%nat, int 3%nat)]
  | Moffat => [(0, int 2%nat); (len 3%nat / 2, int 2%nat / 2)]
  | ModifiedKing => [(0, int 2%nat); (len 4%nat, 0)]
  | ModifiedKing2 => [(0, int 2%nat); (p 4%nat * len 3%nat, 0)]
  | CoreSersic => [(len 5%nat, int 3%nat)]
  | NukerLaw => [(len 3%nat, int 2%nat)]
  | BrokenExponential => [(0, int 2%nat)]
  | DoubleBrokenExponential => [(0, p 2%nat)]
  | FlatExponential => [(0, p 2%nat)]
  | GaussianRing => [(len 3%nat, int 2%nat)]
  | GaussianRing2Side => [(len 3%nat, int 2%nat)]
  | _ => []
  end.

(** The parameter values for which it does *)
Definition scales_make_sense (k : Kind) (d : ImageDesc R) (ps : list R) (off : nat) : Prop :=
  let p i := nth (i + off) ps 0 in
  let len i := p i * pixelScaling d in
  match k with
  | Exponential | Gaussian => 0 < len 3%nat
  | Sersic => 0 < len 4%nat
  | Moffat => 0 < len 3%nat /\ 0 < p 4%nat
  | ModifiedKing => 0 < len 3%nat /\ 0 < len 4%nat /\ 0 < p 5%nat
  | ModifiedKing2 => 0 < len 3%nat /\ 0 < p 4%nat /\ 0 < p 5%nat
  | CoreSersic => 0 < len 4%nat /\ 1 / 1000 <= len 5%nat /\ 0 < p 6%nat /\ 0 < p 2%nat
  | NukerLaw => 1 / 1000 <= len 3%nat
  | BrokenExponential => -100 <= p 6%nat / pixelScaling d * len 5%nat
  | DoubleBrokenExponential => -100 <= p 8%nat * p 6%nat /\ -100 <= p 9%nat * p 7%nat
  | FlatExponential => -100 <= p 5%nat * p 4%nat
  | GaussianRing | GaussianRing2Side => 0 <= len 3%nat
  | _ => True
  end.

(** Classes that follow the image description faithfully: seen on another
    image they are rotated, enlarged and brightened as a whole *)
Definition follows_description (k : Kind) : bool :=
  match k with
  | Exponential | Gaussian | Sersic | Moffat | ModifiedKing | ModifiedKing2 | BrokenExponential
  | GaussianRing | GaussianRing2Side | GenExponential | GenSersic | FerrersBar2D | GaussianRingAz
  | EdgeOnRing | EdgeOnRing2Side | BrokenExponential2D | FlatSky => true
  | _ => false
  end.

(** The vector (u, v) of the reference image, as it appears on an image with
    description [d] *)
Definition seen_x (d : ImageDesc R) (u v : R) : R :=
  pixelScaling d * (u * cos (imageRotation d * deg) + v * sin (imageRotation d * deg)).
Definition seen_y (d : ImageDesc R) (u v : R) : R :=
  pixelScaling d * (- u * sin (imageRotation d * deg) + v * cos (imageRotation d * deg)).

(** Components with a half-turn symmetry: all except the tilted sky plane; the
    two-sided edge-on ring needs a ring radius >= 0. *)
Definition half_turn_kind (k : Kind) (d : ImageDesc R) (ps : list R) (off : nat) : Prop :=
  match k with
  | TiltedSkyPlane => False
  | EdgeOnRing2Side => 0 <= nth (2 + off) ps 0 * pixelScaling d
  | _ => True
  end.

(** Classes with a position angle (their first parameter) *)
Definition has_PA (k : Kind) : bool := match k with FlatSky | TiltedSkyPlane => false | _ => true end.

(** The radius of a generalised ellipse ("superellipse") with exponent c0 + 2:
    [u] along the major axis, [v] along the minor axis *)
Definition superellipse_radius (c0 q u v : R) : R :=
  Rpow (Rpow (Rabs u) (c0 + 2) + Rpow (Rabs (v / q)) (c0 + 2)) (1 / (c0 + 2)).

(** The documented broken-exponential profile *)
Definition broken_exp (I0 h1 h2 rb alpha r : R) : R :=
  let ex := 1 / alpha * (1 / h1 - 1 / h2) in
  I0 * (Rpower (1 + exp (- alpha * rb)) (- ex) * exp (- r / h1) * Rpower (1 + exp (alpha * (r - rb))) ex).
(** ... with two breaks *)
Definition double_broken_exp (I0 h1 h2 h3 rb1 rb2 alpha1 alpha2 r : R) : R :=
  let ex2 := 1 / alpha1 * (1 / h1 - 1 / h2) in
  let ex3 := 1 / alpha2 * (1 / h2 - 1 / h3) in
  I0 * (Rpower (1 + exp (- alpha1 * rb1)) (- ex2) * Rpower (1 + exp (- alpha2 * rb2)) (- ex3)
        * exp (- r / h1)
        * Rpower (1 + exp (alpha1 * (r - rb1))) ex2 * Rpower (1 + exp (alpha2 * (r - rb2))) ex3).
(** ... with a flat inner part *)
Definition flat_exp (I0 h rb alpha r : R) : R :=
  let ex := 1 / (alpha * h) in
  I0 * (Rpower (1 + exp (- alpha * rb)) ex * Rpower (1 + exp (alpha * (r - rb))) (- ex)).

(** The documented edge-on disk: radius [r] along the disk, height [z] *)
Definition edge_on_disk (K1 : R -> R) (L0 h n z0 r z : R) : R :=
  (2 * h * L0 * if Req_EM_T r 0 then 1 else r / h * K1 (r / h)) * Rpower (1 / cosh (n * z / (2 * z0))) (2 / n).

(** [v] and [w] agree to a relative accuracy of exp(e) - 1 *)
Definition relatively_close (e v w : R) : Prop := Rabs (v - w) <= Rabs w * (exp e - 1).

(** Integral over the plane, in polar coordinates about (x0, y0): first along
    each ray (improper, weight r), then over all directions. *)
Definition plane_integral (f : R -> R -> R) (x0 y0 total : R) : Prop :=
  exists ray : R -> R,
    (forall theta, is_RInt_gen (fun r => f (x0 + r * cos theta) (y0 + r * sin theta) * r)
                     (at_point 0) (Rbar_locally p_infty) (ray theta)) /\
    is_RInt ray 0 (2 * PI) total.
