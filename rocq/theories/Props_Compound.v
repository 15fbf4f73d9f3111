(** C95: N4608Disk, a disc with a ring whose amplitudes are relative to the disc. *)
From Coq Require Import Reals Lra Lia List ZArith.
From Verif Require Import Func_Spec Func_Proof Func_Profile Spiral_Proof Compound_Model.
Import ListNotations.
Open Scope R_scope.
Set Implicit Arguments.
Unset Strict Implicit.

(** The parameters of the function, from position [offset] on:
    PA ell I_0 h1 h2 r_break alpha PA_ring ell_ring A_maj A_min R_ring sigma_r *)
Definition param (params : list R) (offset : nat) : nat -> R := fun i => nth (offset + i) params 0.

(** What a component BrokenExponential with the first seven parameters draws at a point *)
Definition disc_draws (params : list R) (offset : nat) (x0 y0 : R) (sub : bool) (x y v : R) : Prop :=
  exists o, make_BrokenExponential NumR (default_desc NumR) params offset x0 y0 = Ok o /\ GetValue NumR o sub x y = Ok v.

(** The point at the parametric angle [t] from the major axis of the ellipse of the shape of the ring
    with semi-major axis [a]; the crest of the ring is the one with [a] equal to R_ring *)
Definition ring_point (p : nat -> R) (x0 y0 a t : R) : R * R :=
  let phi := (p 7%nat + 90) * deg in
  (ellipse_x x0 phi (1 - p 8%nat) a t, ellipse_y y0 phi (1 - p 8%nat) a t).

(** The fall of the ring on both sides of its crest: 1 on the crest *)
Definition fall (p : nat -> R) (a : R) : R := exp (- (a - p 11%nat)² / (2 * (p 12%nat)²)).
Lemma fall_crest p : fall p (p 11%nat) = 1.
Proof. unfold fall. rewrite Rminus_diag_eq by reflexivity. rewrite Rsqr_0. unfold Rdiv. rewrite Ropp_0, Rmult_0_l. apply exp_0. Qed.

Lemma get_param params offset i : (offset + 13 <= length params)%nat -> (i < 13)%nat -> get params (i + offset) = Ok (param params offset i).
Proof. intros H I. unfold param. rewrite (Nat.add_comm i). apply get_nth. lia. Qed.

(** at any point: the disc, and the ring with both amplitudes *)
Lemma disk_value params offset x0 y0 sub x y v : (offset + 13 <= length params)%nat -> disc_draws params offset x0 y0 sub x y v ->
  let p := param params offset in
  let A_maj := p 9%nat * p 2%nat in
  let A_min := p 10%nat * p 2%nat * A_maj in
  N4608Disk_value NumR params offset x0 y0 sub x y =
  Ok (v + ((A_maj + A_min) / 2 + (A_maj - A_min) / 2 * cos (2 * ((p 7%nat + 90) * deg - Ratan2 (y - y0) (x - x0))))
          * exp (- (Rabs (elliptical_radius NumR (p 7%nat) (1 - p 8%nat) (x - x0) (y - y0) - p 11%nat)
                    * Rabs (elliptical_radius NumR (p 7%nat) (1 - p 8%nat) (x - x0) (y - y0) - p 11%nat)) / (2 * p 12%nat * p 12%nat))).
Proof.
  intros L (o & E & V) p A_maj A_min. unfold N4608Disk_value. rewrite !get_param by (auto; lia). fold p. cbn [bind]. rewrite E. cbn [bind].
  unfold make_GaussianRingAz. cbn [get nth_error Nat.add bind]. rewrite V. cbn [bind].
  unfold GetValue. cbn [ob_nsub ob_x0 ob_y0 ob_point bind]. cbn [Z.ltb Z.compare Pos.compare Pos.compare_cont bind].
  f_equal. unfold GaussianRingAz_intensity, half.
  cbn [default_desc imageRotation pixelScaling intensityScale nadd nsub nmul ndiv nneg nabs nexp ncos nofZ ndec natan2 NumR]. rewrite deg_eq.
  rewrite Rminus_0_r, !Rmult_1_r. unfold A_min, A_maj. f_equal. f_equal. simpl. field.
Qed.

Lemma on_ring params offset x0 y0 sub a t v : (offset + 13 <= length params)%nat ->
  let p := param params offset in
  p 8%nat <> 1 -> 0 < a ->
  let s := ring_point p x0 y0 a t in
  disc_draws params offset x0 y0 sub (fst s) (snd s) v ->
  let A_maj := p 9%nat * p 2%nat in
  let A_min := p 10%nat * p 2%nat * A_maj in
  N4608Disk_value NumR params offset x0 y0 sub (fst s) (snd s) =
  Ok (v + ((A_maj + A_min) / 2 + (A_maj - A_min) / 2 * cos (2 * ((p 7%nat + 90) * deg - Ratan2 (snd s - y0) (fst s - x0)))) * fall p a).
Proof.
  intros L p Q P s D A_maj A_min. rewrite (disk_value L D). fold p. unfold s, ring_point. cbn [fst snd].
  rewrite radius_on_ellipse by lra. rewrite (Rabs_pos_eq a) by lra. unfold fall.
  change (Rabs (a - p 11%nat) * Rabs (a - p 11%nat)) with (Rsqr (Rabs (a - p 11%nat))). rewrite <- Rsqr_abs.
  rewrite (Rmult_assoc 2 (p 12%nat)). reflexivity.
Qed.

(** On the major axis the crest of the ring adds A_maj times I_0 to the disc, as meant,
    and off the crest the ring falls off as a Gaussian of width sigma_r *)
Theorem C95_major_partial : forall params offset x0 y0 sub a v, (offset + 13 <= length params)%nat ->
  let p := param params offset in
  p 8%nat < 1 -> 0 < a ->
  let s := ring_point p x0 y0 a 0 in
  disc_draws params offset x0 y0 sub (fst s) (snd s) v ->
  N4608Disk_value NumR params offset x0 y0 sub (fst s) (snd s) = Ok (v + p 9%nat * p 2%nat * fall p a).
Proof.
  intros params offset x0 y0 sub a v L p Q P s D. refine (eq_trans (@on_ring params offset x0 y0 sub a 0 v L _ P D) _); [fold p; lra|].
  fold p. unfold ring_point, ellipse_x, ellipse_y. cbn [fst snd]. set (phi := (p 7%nat + 90) * deg). rewrite cos_0, sin_0.
  replace (y0 + a * 1 * sin phi + (1 - p 8%nat) * a * 0 * cos phi - y0) with (a * sin phi) by ring.
  replace (x0 + a * 1 * cos phi - (1 - p 8%nat) * a * 0 * sin phi - x0) with (a * cos phi) by ring.
  destruct (@atan2_polar a phi P) as (k & ->).
  replace (2 * (phi - (phi + IZR k * (2 * PI)))) with (0 + IZR (- 2 * k) * (2 * PI)) by (rewrite mult_IZR; ring).
  rewrite cos_turns, cos_0. f_equal. field.
Qed.

(** On the minor axis it adds A_min times A_maj times the square of I_0, where A_min times I_0 is meant *)
Theorem C95_minor_refuted : forall params offset x0 y0 sub a v, (offset + 13 <= length params)%nat ->
  let p := param params offset in
  p 8%nat < 1 -> 0 < a ->
  let s := ring_point p x0 y0 a (PI / 2) in
  disc_draws params offset x0 y0 sub (fst s) (snd s) v ->
  N4608Disk_value NumR params offset x0 y0 sub (fst s) (snd s) = Ok (v + p 10%nat * p 9%nat * (p 2%nat)² * fall p a) /\
  (p 10%nat <> 0 -> p 2%nat <> 0 -> p 9%nat * p 2%nat <> 1 ->
     N4608Disk_value NumR params offset x0 y0 sub (fst s) (snd s) <> Ok (v + p 10%nat * p 2%nat * fall p a)).
Proof.
  intros params offset x0 y0 sub a v L p Q P s D.
  assert (E : N4608Disk_value NumR params offset x0 y0 sub (fst s) (snd s) = Ok (v + p 10%nat * p 9%nat * (p 2%nat)² * fall p a)).
  { refine (eq_trans (@on_ring params offset x0 y0 sub a (PI / 2) v L _ P D) _); [fold p; lra|].
    fold p. unfold ring_point, ellipse_x, ellipse_y. cbn [fst snd]. set (phi := (p 7%nat + 90) * deg). rewrite cos_PI2, sin_PI2.
    set (b := (1 - p 8%nat) * a). assert (Pb : 0 < b) by (unfold b; nra).
    replace (y0 + a * 0 * sin phi + b * 1 * cos phi - y0) with (b * sin (phi + PI / 2)) by (rewrite sin_plus, sin_PI2, cos_PI2; ring).
    replace (x0 + a * 0 * cos phi - b * 1 * sin phi - x0) with (b * cos (phi + PI / 2)) by (rewrite cos_plus, sin_PI2, cos_PI2; ring).
    destruct (@atan2_polar b (phi + PI / 2) Pb) as (k & ->).
    replace (2 * (phi - (phi + PI / 2 + IZR k * (2 * PI)))) with (- PI + IZR (- 2 * k) * (2 * PI)) by (rewrite mult_IZR; field).
    rewrite cos_turns, cos_neg, cos_PI. f_equal. unfold Rsqr. field. }
  split; [exact E|]. intros N10 N2 N1. rewrite E. intros H.
  assert (K : v + p 10%nat * p 9%nat * (p 2%nat)² * fall p a = v + p 10%nat * p 2%nat * fall p a) by congruence.
  apply Rplus_eq_reg_l in K. assert (F : fall p a <> 0) by (apply Rgt_not_eq, exp_pos). apply Rmult_eq_reg_r in K; [|exact F].
  unfold Rsqr in K. apply N1. apply (Rmult_eq_reg_l (p 10%nat * p 2%nat)); [|now apply Rmult_integral_contrapositive].
  lra.
Qed.

(** A disc of brightness 100 with a ring of 0.1 and 0.05 times that; without subsampling *)
Definition case_disk : list R := [7; 0; 1 / 4; 100; 10; 5; 30; 1; 45; 1 / 2; 1 / 10; 1 / 20; 20; 3].
Example C95_case : (1 + 13 <= length case_disk)%nat /\ param case_disk 1 8%nat < 1 /\ 0 < param case_disk 1 11%nat /\
  (forall x y, exists v, disc_draws case_disk 1 50 50 false x y v) /\
  param case_disk 1 10%nat <> 0 /\ param case_disk 1 2%nat <> 0 /\ param case_disk 1 9%nat * param case_disk 1 2%nat <> 1.
Proof.
  unfold param, case_disk. cbn [nth Nat.add length]. repeat split; try lia; try lra.
  intros x y. eexists. eexists. split; [reflexivity|]. unfold GetValue. cbn [elliptical ob_nsub bind].
  unfold subsamples. cbn [andb bind]. reflexivity.
Qed.

Print Assumptions C95_major_partial.
Print Assumptions C95_minor_refuted.
