(** What the image functions with line-of-sight integration are supposed to compute,
    after the manual's chapter on 3D functions, stated without the model's helpers. *)
From Coq Require Import Reals List.
From Coquelicot Require Import Coquelicot.
From Verif Require Export Los_Model Func_Spec.
Import ListNotations.
Open Scope R_scope.

(** ---- geometry ---- *)

(** Vectors from the centre of a component: two coordinates on the image, and the depth
    along the line of sight *)
Record vec := mkvec { vx : R; vy : R; vz : R }.
Definition dot (u v : vec) : R := vx u * vx v + vy u * vy v + vz u * vz v.
Definition combine (a : R) (u : vec) (b : R) (v : vec) : vec :=
  mkvec (a * vx u + b * vx v) (a * vy u + b * vy v) (a * vz u + b * vz v).

(** The primary plane with line of nodes in the direction [phi] (an angle from the +x axis
    of the image) and inclination [i]: the line of nodes lies in the image plane, [across]
    is perpendicular to it in the primary plane, [pole] is perpendicular to the plane. *)
Definition nodes (phi : R) : vec := mkvec (cos phi) (sin phi) 0.
Definition across (phi i : R) : vec := mkvec (- sin phi * cos i) (cos phi * cos i) (sin i).
Definition pole (phi i : R) : vec := mkvec (- sin phi * sin i) (cos phi * sin i) (- cos i).
(** the direction in the primary plane at angle [t] from the line of nodes *)
Definition in_plane (phi i t : R) : vec := combine (cos t) (nodes phi) (sin t) (across phi i).

(** the offset with coordinate [a] in the direction [phi] and [b] perpendicular to it on the image *)
Definition along_x (phi a b : R) : R := a * cos phi - b * sin phi.
Definition along_y (phi a b : R) : R := a * sin phi + b * cos phi.

(** ---- luminosity densities ---- *)

(** cosh to a negative power: the vertical profile of discs *)
Definition sech_profile (n z0 z : R) : R := Rpower (1 / cosh (n * z / (2 * z0))) (2 / n).

(** a broken-exponential or exponential disc: in-plane radius [r], height [z] *)
Definition exponential_disc (J h n z0 r z : R) : R := J * exp (- r / h) * sech_profile n z0 z.
Definition broken_disc (J h1 h2 rb alpha n z0 r z : R) : R := broken_exp J h1 h2 rb alpha r * sech_profile n z0 z.
(** an elliptical ring; [u] along its major axis, [w] along its minor axis *)
Definition gaussian_ring (J a sigma hz q u w z : R) : R :=
  let r := sqrt (u * u + (w / q) * (w / q)) in
  J * exp (- ((r - a) * (r - a)) / (2 * (sigma * sigma))) * exp (- Rabs z / hz).
(** a Ferrers ellipsoid *)
Definition ferrers (J R_bar q qz n u w z : R) : R :=
  let m2 := (u / R_bar) ^ 2 + (w / (q * R_bar)) ^ 2 + (z / (qz * R_bar)) ^ 2 in
  if Rlt_dec m2 1 then J * Rpower (1 - m2) n else 0.
(** a bar with a peanut bulge: its height has two bumps at distance [Rp] along the bar *)
Definition peanut_height (A Rp sigma Rz u w : R) : R :=
  A * exp (- (((u - Rp) ^ 2 + w ^ 2) / (2 * sigma ^ 2))) + A * exp (- (((u + Rp) ^ 2 + w ^ 2) / (2 * sigma ^ 2))) + Rz.
Definition peanut (J Rx q qz Rp A sigma c1 c2 u w z : R) : R :=
  let m := Rpow (Rpow (Rpow (Rabs u / Rx) c2 + Rpow (Rabs w / (q * Rx)) c2) (c1 / c2)
                 + Rpow (Rabs z / peanut_height A Rp sigma (qz * Rx) u w) c1) (1 / c1) in
  J / cosh m ^ 2.

(** ---- components ---- *)

(** Luminosity density of a component at the vector [v] from its centre, if its major axis
    is at the angle [t] from the line of nodes. *)
Definition luminosity (k : Kind3) (d : ImageDesc R) (ps : list R) (off : nat) (t : R) (v : vec) : R :=
  let p i := nth (i + off) ps 0 in
  let len i := p i * pixelScaling d in
  let J i := p i * intensityScale d in
  let phi := direction (p 0%nat) (imageRotation d) in
  let i := p 1%nat * deg in
  let r := sqrt (dot v (nodes phi) ^ 2 + dot v (across phi i) ^ 2) in
  let z := dot v (pole phi i) in
  let u := dot v (in_plane phi i t) in
  let w := dot v (in_plane phi i (t + PI / 2)) in
  match k with
  | ExponentialDisk3D => exponential_disc (J 2%nat) (len 3%nat) (p 4%nat) (len 5%nat) r z
  | BrokenExponentialDisk3D =>
      broken_disc (J 2%nat) (len 3%nat) (len 4%nat) (len 5%nat) (p 6%nat / pixelScaling d) (p 7%nat) (len 8%nat) r z
  | GaussianRing3D => gaussian_ring (J 4%nat) (len 5%nat) (len 6%nat) (len 7%nat) (1 - p 3%nat) u w z
  | FerrersBar3D => ferrers (J 3%nat) (len 4%nat) (p 5%nat) (p 6%nat) (p 7%nat) u w z
  | DattathriPeanut3D =>
      peanut (J 3%nat) (len 4%nat) (p 5%nat) (p 6%nat) (len 7%nat) (len 8%nat) (len 9%nat) (p 10%nat) (p 11%nat) u w z
  end.

(** The angle of the major axis from the line of nodes, by the manual: 90 degrees plus
    the parameter PA_ring or barPA. (Discs have none.) *)
Definition documented_axis (ps : list R) (off : nat) : R := (90 + nth (2 + off) ps 0) * deg.
(** The angle at which the code has it. The major axes of the two bars are at the parameter
    barPA from the line of nodes (for the Ferrers bar half a turn more, which is the same
    line): so say the header file and the unit test of FerrersBar3D, but not the manual. *)
Definition actual_axis (k : Kind3) (ps : list R) (off : nat) : R :=
  match k with
  | FerrersBar3D => documented_axis ps off + PI / 2
  | DattathriPeanut3D => nth (2 + off) ps 0 * deg
  | _ => documented_axis ps off
  end.

Definition is_bar (k : Kind3) : bool := match k with FerrersBar3D | DattathriPeanut3D => true | _ => false end.
Definition is_disc (k : Kind3) : bool := match k with ExponentialDisk3D | BrokenExponentialDisk3D => true | _ => false end.

(** How far in front of and behind the plane of the sky the integral extends *)
Definition reach (k : Kind3) (d : ImageDesc R) (ps : list R) (off : nat) : R :=
  let p i := nth (i + off) ps 0 in
  let len i := p i * pixelScaling d in
  match k with
  | ExponentialDisk3D => 20 * len 3%nat
  | BrokenExponentialDisk3D => Rmax (20 * len 5%nat) (20 * len 4%nat)
  | GaussianRing3D => 2 * len 5%nat
  | FerrersBar3D => 101 / 100 * Rmax (p 5%nat * len 4%nat * sin (p 1%nat * deg)) (len 4%nat)
  | DattathriPeanut3D => 10 * len 4%nat
  end.

(** Surface brightness at the offset (x, y) from the centre: the integral of the luminosity
    density along the line of sight *)
Definition column (k : Kind3) (d : ImageDesc R) (ps : list R) (off : nat) (t x y : R) : R :=
  RInt (fun s => luminosity k d ps off t (mkvec x y s)) (- reach k d ps off) (reach k d ps off).

(** Parameters for which the luminosity density is meant to be used *)
Definition sensible3 (k : Kind3) (d : ImageDesc R) (ps : list R) (off : nat) : Prop :=
  let p i := nth (i + off) ps 0 in
  let len i := p i * pixelScaling d in
  let J i := p i * intensityScale d in
  match k with
  | ExponentialDisk3D => 0 <= J 2%nat /\ 0 < len 3%nat /\ 0 < p 4%nat /\ 0 < len 5%nat
  | BrokenExponentialDisk3D =>
      0 <= J 2%nat /\ 0 < len 4%nat /\ 0 < p 6%nat / pixelScaling d /\ 0 < p 7%nat /\ 0 < len 8%nat /\ 0 < len 3%nat
  | GaussianRing3D => 0 <= J 4%nat /\ 0 <= len 5%nat /\ 0 < len 6%nat /\ 0 < len 7%nat /\ p 3%nat <> 1
  | FerrersBar3D => 0 <= J 3%nat /\ 0 < len 4%nat /\ 0 < p 5%nat /\ 0 < p 6%nat /\ 0 < p 7%nat
  | DattathriPeanut3D =>
      0 <= J 3%nat /\ 0 < len 4%nat /\ 0 < p 5%nat /\ 0 < p 6%nat /\ 0 <= len 8%nat /\ 0 < len 9%nat /\
      0 < p 10%nat /\ 0 < p 11%nat
  end.

(** Size of the approximation made far from the plane and far outside the break radius *)
Definition guard_error (k : Kind3) (d : ImageDesc R) (ps : list R) (off : nat) : R :=
  let p i := nth (i + off) ps 0 in
  let len i := p i * pixelScaling d in
  match k with
  | ExponentialDisk3D => 2 / p 4%nat * exp (-200)
  | BrokenExponentialDisk3D =>
      Rabs (1 / (p 6%nat / pixelScaling d) * (1 / len 3%nat - 1 / len 4%nat)) * exp (-100) + 2 / p 7%nat * exp (-200)
  | _ => 0
  end.

(** The integrator is accurate to the relative tolerance [tol] *)
Definition accurate (tol : R) (Q : (R -> R) -> R -> R -> R) : Prop :=
  forall f a b, a <= b -> ex_RInt f a b -> (forall s, a <= s <= b -> 0 <= f s) ->
    Rabs (Q f a b - RInt f a b) <= tol * RInt f a b.

(** The relative accuracy of a pixel value that follows *)
Definition accuracy3 (tol : R) (k : Kind3) (d : ImageDesc R) (ps : list R) (off : nat) : R :=
  (1 + tol) * exp (guard_error k d ps off) - 1.

(** ---- FlatBar ---- *)

(** the transition of the outer scale length from [h2] on the major axis to [h1] at the
    angle [tmax] from it *)
Definition blended_scale (h1 h2 tmax t : R) : R :=
  if Rlt_dec tmax t then h1 else h2 + (h1 - h2) * (t / tmax) ^ 2.

(** brightness of a flat bar: [u] along its major axis, [w] perpendicular to it. The break is
    at the distance [rb] from the centre in every direction; [angle] is the angle from
    the major axis. *)
Definition flat_bar (I0 q h1 h2 rb alpha tmax u w : R) : R :=
  let r := sqrt (u ^ 2 + (w / q) ^ 2) in
  let rho := sqrt (u ^ 2 + w ^ 2) in
  if Req_EM_T rho 0 then broken_exp I0 h1 h2 rb alpha 0
  else broken_exp I0 h1 (blended_scale h1 h2 tmax (acos (Rabs u / rho))) (r / rho * rb) alpha r.
