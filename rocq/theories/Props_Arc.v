(** C93: LogSpiralArc. *)
From Coq Require Import Reals Lra Lia List ZArith.
From Verif Require Import Arc_Spec Func_Proof Func_Profile Spiral_Proof Arc_Proof.
Import ListNotations.
Open Scope R_scope.

(** The parameters of the function start at position [offset] of the parameter vector; the
    disc is seen face-on. *)
Definition par (params : list R) (offset : nat) : nat -> R := fun i => nth (offset + i) params 0.
Definition face_on (params : list R) (offset : nat) : Prop := (offset + 9 <= length params)%nat /\ par params offset 1%nat = 0.

(** Face-on, with theta_max from 0 to 360 degrees: the picture is the arc, at the angle
    theta_max from the x axis of the image. The ray opposite to theta_max, where the arc is
    cut, is left out. *)
Theorem C93_arc_partial : forall params offset x0 y0 rho d, face_on params offset ->
  let p := par params offset in
  0 <= p 4%nat * deg < 2 * PI -> 0 < rho -> - PI < d < PI ->
  let phi := p 4%nat * deg + d in
  LogSpiralArc_value NumR params offset x0 y0 (x0 + rho * cos phi) (y0 + rho * sin phi)
  = Ok (arc (p 2%nat) (p 3%nat) (p 5%nat) (p 6%nat) (p 7%nat) (p 8%nat) rho d).
Proof.
  intros params offset x0 y0 rho d (L & F) p Tm P D phi.
  destruct (@arc_value params offset L x0 y0 F rho phi P) as (t & Et & E). refine (eq_trans E _). clear E.
  destruct (@std_angle rho phi P) as (j & Ej & Bj). rewrite Ej in Et. subst t. unfold phi in *.
  destruct (@theta_both (p 4%nat * deg) d j Tm D Bj) as (A & B). unfold p, par in A, B, Tm |- *. cbn zeta.
  rewrite A, B, (theta_rel_max Tm). unfold arc. f_equal. f_equal. f_equal. f_equal. f_equal. f_equal. f_equal. ring.
Qed.

(** It is brightest at the radius r_scale and the angle theta_max, where it is I_max, and only there *)
Theorem C93_peak_partial : forall params offset x0 y0, face_on params offset ->
  let p := par params offset in
  0 <= p 4%nat * deg < 2 * PI -> 0 < p 2%nat -> 0 < p 5%nat -> 0 < p 6%nat -> 0 < p 7%nat -> 0 < p 8%nat ->
  let drawn rho d := LogSpiralArc_value NumR params offset x0 y0 (x0 + rho * cos (p 4%nat * deg + d)) (y0 + rho * sin (p 4%nat * deg + d)) in
  drawn (p 2%nat) 0 = Ok (p 5%nat) /\
  forall rho d, 0 < rho -> - PI < d < PI -> rho <> p 2%nat \/ d <> 0 -> exists v, drawn rho d = Ok v /\ 0 < v < p 5%nat.
Proof.
  intros params offset x0 y0 U p Tm P2 P5 P6 P7 P8 drawn. pose proof PI_RGT_0 as HP.
  assert (V : forall rho d, 0 < rho -> - PI < d < PI -> drawn rho d = Ok (arc (p 2%nat) (p 3%nat) (p 5%nat) (p 6%nat) (p 7%nat) (p 8%nat) rho d)).
  { intros rho d P D. exact (@C93_arc_partial params offset x0 y0 rho d U Tm P D). }
  clearbody drawn. split.
  - rewrite V by lra. f_equal. unfold arc. rewrite Rmult_0_r, exp_0, Rmult_1_r, Rminus_diag_eq by reflexivity. rewrite !bell_0. ring.
  - intros rho d P D N. rewrite V by auto. eexists. split; [reflexivity|]. unfold arc.
    set (s := (if Rle_dec 0 d then p 7%nat else p 8%nat) * deg).
    assert (S : 0 < s). { unfold s. pose proof deg_pos. destruct (Rle_dec 0 d); nra. }
    set (b := bell s d). set (c := bell (p 6%nat) _).
    assert (0 < b) by apply exp_pos. assert (0 < c) by apply exp_pos.
    assert (b <= 1) by apply bell_le_1. assert (c <= 1) by apply bell_le_1.
    assert (K : b < 1 \/ c < 1).
    { destruct (Req_dec d 0) as [->|Z]; [|left; now apply bell_lt_1]. right. apply bell_lt_1; auto.
      rewrite Rmult_0_r, exp_0. destruct N; lra. }
    assert (0 < b * c) by nra. assert (b * c < 1) by (destruct K; nra). split; nra.
Qed.

(** The position angle does nothing: it turns the disc but not the arc on it *)
Theorem C93_PA_refuted : forall params params' offset x0 y0 x y,
  face_on params offset -> face_on params' offset -> (forall i, i <> 0%nat -> par params' offset i = par params offset i) ->
  x <> x0 \/ y <> y0 ->
  LogSpiralArc_value NumR params' offset x0 y0 x y = LogSpiralArc_value NumR params offset x0 y0 x y.
Proof.
  intros params params' offset x0 y0 x y (L & F) (L' & F') E D.
  set (u := x - x0). set (v := y - y0).
  assert (P : 0 < u * u + v * v).
  { pose proof (Rle_0_sqr u) as Hu. pose proof (Rle_0_sqr v) as Hv. destruct D as [D|D].
    - assert (N : u <> 0) by (unfold u; lra). pose proof (Rsqr_pos_lt _ N). unfold Rsqr in *. lra.
    - assert (N : v <> 0) by (unfold v; lra). pose proof (Rsqr_pos_lt _ N). unfold Rsqr in *. lra. }
  set (rho := sqrt (u * u + v * v)). assert (Pr : 0 < rho) by now apply sqrt_lt_R0.
  destruct (@atan2_cos_sin u v rho Pr ltac:(apply sqrt_sqrt; lra)) as (A & B). set (phi := Ratan2 v u) in *.
  replace x with (x0 + rho * cos phi) by (rewrite A; unfold u; ring). replace y with (y0 + rho * sin phi) by (rewrite B; unfold v; ring).
  destruct (@arc_value params offset L x0 y0 F rho phi Pr) as (t & Et & ->).
  destruct (@arc_value params' offset L' x0 y0 F' rho phi Pr) as (t' & Et' & ->). subst t t'. cbn zeta. unfold par in E.
  rewrite !E by lia. reflexivity.
Qed.

(** An angle theta_max below 0 is accepted, and the arc is then at another radius than the one asked for *)
Theorem C93_negative_refuted : forall params offset x0 y0, face_on params offset ->
  let p := par params offset in
  - (2 * PI) < p 4%nat * deg < 0 -> 0 < p 2%nat -> 0 < p 5%nat -> 0 < p 6%nat -> tan (p 3%nat * deg) <> 0 ->
  exists v, LogSpiralArc_value NumR params offset x0 y0 (x0 + p 2%nat * cos (p 4%nat * deg)) (y0 + p 2%nat * sin (p 4%nat * deg)) = Ok v /\
    v = p 5%nat * bell (p 6%nat) (p 2%nat - p 2%nat * exp (2 * PI * tan (p 3%nat * deg))) /\ v < p 5%nat.
Proof.
  intros params offset x0 y0 (L & F) p Tm P2 P5 P6 T. pose proof PI_RGT_0 as HP.
  destruct (@arc_value params offset L x0 y0 F (p 2%nat) (p 4%nat * deg) P2) as (t & Et & E).
  destruct (@std_angle (p 2%nat) (p 4%nat * deg) P2) as (j & Ej & Bj). rewrite Ej in Et. subst t.
  assert (j = 1)%Z. { assert (0 < j < 2)%Z; [|lia]. split; apply lt_IZR; apply (Rmult_lt_reg_r (2 * PI)); lra. } subst j.
  replace (p 4%nat * deg + 1 * (2 * PI)) with (p 4%nat * deg + 2 * PI) in E by ring.
  destruct (@theta_negative (p 4%nat * deg) Tm) as (A & B & C). unfold p, par in A, B, C. unfold p, par in E. cbn zeta in E. rewrite A, B, C in E.
  eexists. split; [exact E|]. rewrite bell_0, Rmult_1_r. unfold p, par in *.
  replace (tan (nth (offset + 3) params 0 * deg) * (3 * PI - PI)) with (2 * PI * tan (nth (offset + 3) params 0 * deg)) by ring.
  split; [reflexivity|]. set (tp := tan _) in *. set (r := nth (offset + 2) params 0) in *. set (s := nth (offset + 6) params 0) in *.
  assert (exp (2 * PI * tp) <> 1). { intros X. rewrite <- exp_0 in X. apply exp_inv in X. apply T. nra. }
  assert (r - r * exp (2 * PI * tp) <> 0). { intros X. apply H. nra. }
  pose proof (@bell_lt_1 s _ P6 H0). nra.
Qed.

(** An arc at 60 degrees, the second component of a model; one at -60 degrees *)
Definition arc_case (theta : R) : list R := [10; 20; 30; 0; 15; 20; theta; 100; 2; 40; 30].
Example C93_case : face_on (arc_case 60) 2 /\ 0 <= par (arc_case 60) 2 4%nat * deg < 2 * PI /\ 0 < par (arc_case 60) 2 2%nat /\
  0 < par (arc_case 60) 2 5%nat /\ 0 < par (arc_case 60) 2 6%nat /\ 0 < par (arc_case 60) 2 7%nat /\ 0 < par (arc_case 60) 2 8%nat.
Proof.
  pose proof PI2_1. unfold face_on, par, arc_case. cbn [nth Nat.add length]. unfold deg. repeat split; try lia; lra.
Qed.
Example C93_case_negative : face_on (arc_case (-60)) 2 /\ - (2 * PI) < par (arc_case (-60)) 2 4%nat * deg < 0 /\
  0 < par (arc_case (-60)) 2 2%nat /\ 0 < par (arc_case (-60)) 2 5%nat /\ 0 < par (arc_case (-60)) 2 6%nat /\ tan (par (arc_case (-60)) 2 3%nat * deg) <> 0.
Proof.
  pose proof PI2_1. assert (T : 0 < tan (20 * deg)). { apply tan_gt_0; unfold deg; lra. }
  unfold face_on, par, arc_case. cbn [nth Nat.add length]. repeat split; try lia; try lra; unfold deg; lra.
Qed.
(** two position angles *)
Example C93_case_PA : let q := [0; 0; 15; 20; 60; 100; 2; 40; 30] in let q' := [75; 0; 15; 20; 60; 100; 2; 40; 30] in
  face_on q 0 /\ face_on q' 0 /\ (forall i, i <> 0%nat -> par q' 0 i = par q 0 i) /\ q' <> q.
Proof.
  cbn zeta. unfold face_on, par. cbn [length nth Nat.add]. repeat split; try lia.
  - intros [|i] H; [contradiction|reflexivity].
  - intros H. apply (f_equal (fun l => nth 0 l 0)) in H. cbn in H. lra.
Qed.

Print Assumptions C93_arc_partial.
Print Assumptions C93_peak_partial.
Print Assumptions C93_PA_refuted.
Print Assumptions C93_negative_refuted.
