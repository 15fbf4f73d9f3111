(** C92: the spiral functions. *)
From Coq Require Import Reals Lra Lia List ZArith.
From Verif Require Import Spiral_Spec Func_Proof Func_Profile Spiral_Proof.
Import ListNotations.
Open Scope R_scope.

(** The parameters of the function start at position [offset] of the parameter vector. The
    number of arms is a positive whole number, the disc is not seen edge-on, and the pitch
    angle is not 0. *)
Definition parameters (params : list R) (offset : nat) : nat -> R := fun i => nth (offset + i) params 0.
Definition usable (f : spiral) (params : list R) (offset : nat) (m : Z) : Prop :=
  let p := parameters params offset in
  (offset + nparams f <= length params)%nat /\ m_of p = IZR m /\ (0 < m)%Z /\ p 1%nat <> 1 /\
  0 < R_i f p /\ 0 < sigma f p /\ tan (pitch p * deg) <> 0.

(** Every point of the image but the centre is the image of a point of the disc *)
Theorem C92_everywhere : forall x0 y0 PA ell x y, ell <> 1 -> x <> x0 \/ y <> y0 ->
  exists rho theta, 0 < rho /\ seen_at x0 y0 PA ell rho theta = (x, y).
Proof. exact seen_everywhere. Qed.

(** The brightness is the brightness of the arms at that radius, lowered by how far the
    point is, in azimuth, from the nearest arm *)
Theorem C92_brightness : forall f params offset m x0 y0 rho theta, usable f params offset m ->
  let p := parameters params offset in
  0 < rho -> exact_profile f p rho ->
  let s := seen_at x0 y0 (p 0%nat) (p 1%nat) rho theta in
  value f params offset x0 y0 (fst s) (snd s)
  = Ok (on_arms f p rho * between_arms (IZR m) (sigma f p) rho (theta - spiral_azimuth (pitch p) (R_i f p) (gamma f p) rho)).
Proof.
  intros f params offset m x0 y0 rho theta (L & M & Pm & Q & _ & Ps & _) p P X s.
  destruct (@value_seen f params offset L x0 y0 rho theta Q P) as (k & E). refine (eq_trans E _). f_equal. f_equal.
  - now apply amp_on_arms.
  - unfold m_of in M. fold p in M. change (nth (offset + 2) params 0) with (p 2%nat). rewrite M.
    change (nth (offset + 3) params 0) with (pitch p). now apply azimuthal_between.
Qed.

(** ... and far outside the break of LogSpiral3 it is so up to a factor which is 1 for all
    practical purposes *)
Theorem C92_far : forall params offset m x0 y0 rho theta, usable LogSpiral3 params offset m ->
  let p := parameters params offset in
  0 < rho -> p 11%nat <> 0 ->
  let s := seen_at x0 y0 (p 0%nat) (p 1%nat) rho theta in
  exists v, value LogSpiral3 params offset x0 y0 (fst s) (snd s)
    = Ok (v * between_arms (IZR m) (sigma LogSpiral3 p) rho (theta - spiral_azimuth (pitch p) (R_i LogSpiral3 p) (gamma LogSpiral3 p) rho)) /\
    relatively_close (Rabs (1 / p 11%nat * (1 / p 8%nat - 1 / p 9%nat)) * exp (-100)) v (on_arms LogSpiral3 p rho).
Proof.
  intros params offset m x0 y0 rho theta (L & M & Pm & Q & _ & Ps & _) p P A s.
  destruct (@value_seen LogSpiral3 params offset L x0 y0 rho theta Q P) as (k & E).
  exists (amp LogSpiral3 params offset rho rho). split.
  - refine (eq_trans E _). f_equal. f_equal. unfold m_of in M. fold p in M. change (nth (offset + 2) params 0) with (p 2%nat). rewrite M.
    change (nth (offset + 3) params 0) with (pitch p). now apply azimuthal_between.
  - exact (@amp_close LogSpiral3 params offset rho eq_refl A).
Qed.

(** At each radius it is brightest on the [m] arms, and only there *)
Theorem C92_arms : forall f params offset m x0 y0 rho theta, usable f params offset m ->
  let p := parameters params offset in
  0 < rho -> exact_profile f p rho -> 0 < on_arms f p rho ->
  let s := seen_at x0 y0 (p 0%nat) (p 1%nat) rho theta in
  exists v, value f params offset x0 y0 (fst s) (snd s) = Ok v /\ 0 < v <= on_arms f p rho /\
    (v = on_arms f p rho <-> on_arm m (pitch p) (R_i f p) (gamma f p) rho theta).
Proof.
  intros f params offset m x0 y0 rho theta U p P X A s. set (a := theta - spiral_azimuth (pitch p) (R_i f p) (gamma f p) rho).
  exists (on_arms f p rho * between_arms (IZR m) (sigma f p) rho a). split; [now apply C92_brightness with (m := m)|].
  destruct U as (L & M & Pm & Q & _ & Ps & _). fold p in Ps.
  pose proof (between_le (IZR m) (sigma f p) rho a) as LE.
  assert (PB : 0 < between_arms (IZR m) (sigma f p) rho a) by apply exp_pos.
  pose proof (@between_1 m (sigma f p) rho a ltac:(lia) Ps P) as B1.
  split; [split; [now apply Rmult_lt_0_compat|nra]|]. unfold on_arm. split.
  - intros E. assert (between_arms (IZR m) (sigma f p) rho a = 1) as E1 by nra. apply B1 in E1 as (k & K). exists k. unfold a in K. lra.
  - intros (k & K). rewrite (proj2 B1); [ring|]. exists k. unfold a. lra.
Qed.

(** The picture comes back to itself under a turn, in the plane of the disc, by one [m]-th of a circle *)
Theorem C92_turn : forall f params offset m x0 y0 rho theta, usable f params offset m ->
  let p := parameters params offset in
  0 < rho ->
  let s := seen_at x0 y0 (p 0%nat) (p 1%nat) rho theta in
  let s' := seen_at x0 y0 (p 0%nat) (p 1%nat) rho (theta + 2 * PI / IZR m) in
  value f params offset x0 y0 (fst s') (snd s') = value f params offset x0 y0 (fst s) (snd s).
Proof.
  intros f params offset m x0 y0 rho theta (L & M & Pm & Q & _ & Ps & _) p P s s'.
  destruct (@value_seen f params offset L x0 y0 rho theta Q P) as (k & E). 
  destruct (@value_seen f params offset L x0 y0 rho (theta + 2 * PI / IZR m) Q P) as (k' & E').
  refine (eq_trans E' (eq_trans _ (eq_sym E))). f_equal. f_equal. unfold m_of in M. fold p in M. change (nth (offset + 2) params 0) with (p 2%nat). rewrite M.
  rewrite !azimuthal_between by auto.
  match goal with |- between_arms _ _ _ (?t + ?c - ?z) = _ => replace (t + c - z) with (t - z + IZR 1 * c) by ring end.
  apply between_turn. lia.
Qed.

(** The centre gets the brightness of a point one thousandth of a pixel away on the line of nodes *)
Theorem C92_centre : forall f params offset m x0 y0, usable f params offset m -> f <> LogSpiralGauss ->
  let p := parameters params offset in
  let s := seen_at x0 y0 (p 0%nat) (p 1%nat) (1 / 1000) 0 in
  value f params offset x0 y0 x0 y0 = value f params offset x0 y0 (fst s) (snd s).
Proof.
  intros f params offset m x0 y0 (L & M & Pm & Q & _ & Ps & _) G p s. unfold s. rewrite !value_amp by assumption.
  change (nth (offset + 0) params 0) with (p 0%nat). change (nth (offset + 1) params 0) with (p 1%nat).
  rewrite polar_seen by (auto; lra).
  assert (C : polar NumR x0 y0 (p 0%nat) (p 1%nat) x0 y0 = (0, 0)).
  { pose proof (@polar_seen x0 y0 (p 0%nat) (p 1%nat) 0 0 Q ltac:(lra)) as C. cbn zeta in C. unfold seen_at in C. cbn [fst snd] in C.
    rewrite !Rmult_0_l, Rmult_0_r, !Rmult_0_l, !Rplus_0_r, Rminus_0_r in C. rewrite C. f_equal. unfold Ratan2.
    destruct (Rlt_dec 0 0); [lra|]. reflexivity. }
  rewrite C. rewrite (off_centre_pos (r := 1 / 1000)) by lra.
  assert (O : off_centre NumR 0 = 1 / 1000).
  { unfold off_centre, MIN_RADIUS. cbn [nleb nofZ ndec NumR]. rewrite (proj2 (Rleb_true 0 0)) by lra. simpl. lra. }
  rewrite O. rewrite sin_0, cos_0, Rmult_0_r, Rmult_1_r.
  replace (Ratan2 0 (1 / 1000)) with 0.
  - f_equal. f_equal. unfold amp. destruct f; try reflexivity. contradiction.
  - unfold Ratan2. destruct (Rlt_dec 0 (1 / 1000)); [|lra]. replace (0 / (1 / 1000)) with 0 by field. symmetry. apply atan_0.
Qed.

(** On the arm which crosses R_i at gamma *)
Lemma value_on_arm f params offset m x0 y0 rho : usable f params offset m ->
  let p := parameters params offset in
  0 < rho -> exact_profile f p rho ->
  let s := seen_at x0 y0 (p 0%nat) (p 1%nat) rho (spiral_azimuth (pitch p) (R_i f p) (gamma f p) rho) in
  value f params offset x0 y0 (fst s) (snd s) = Ok (on_arms f p rho).
Proof.
  intros U p P X s. refine (eq_trans (@C92_brightness f params offset m x0 y0 rho _ U P X) _). f_equal.
  destruct U as (_ & _ & Pm & _ & _ & Ps & _). rewrite (proj2 (@between_1 m (sigma f p) rho _ ltac:(lia) Ps P)); [apply Rmult_1_r|].
  exists 0%Z. unfold p. ring.
Qed.

(** Along an arm LogSpiralExp and LogSpiralGauss are brightest at R_max and nowhere else, with the brightness asked for *)
Theorem C92_peak : forall f params offset m x0 y0 rho, usable f params offset m ->
  let p := parameters params offset in
  let at_arm r := seen_at x0 y0 (p 0%nat) (p 1%nat) r (spiral_azimuth (pitch p) (R_i f p) (gamma f p) r) in
  let along_arm r := value f params offset x0 y0 (fst (at_arm r)) (snd (at_arm r)) in
  0 < rho ->
  match f with
  | LogSpiralExp => 0 < p 7%nat -> 0 < p 8%nat -> 0 < p 9%nat -> 0 < p 10%nat ->
      along_arm (p 9%nat) = Ok (p 7%nat) /\ (rho <> p 9%nat -> exists v, along_arm rho = Ok v /\ v < p 7%nat)
  | LogSpiralGauss => 0 < p 4%nat -> 0 < p 8%nat -> 0 < p 9%nat -> 0 < p 10%nat ->
      along_arm (p 8%nat) = Ok (p 4%nat) /\ (rho <> p 8%nat -> exists v, along_arm rho = Ok v /\ v < p 4%nat)
  | _ => True
  end.
Proof.
  intros f params offset m x0 y0 rho U p at_arm along_arm P.
  assert (V : forall r, 0 < r -> exact_profile f p r -> along_arm r = Ok (on_arms f p r)).
  { intros r Pr X. exact (@value_on_arm f params offset m x0 y0 r U Pr X). }
  clearbody along_arm. destruct f; auto.
  - intros PI Ph PR Pt. rewrite !V by (auto; exact I). unfold on_arms. split.
    + f_equal. destruct (Rlt_dec (p 9%nat) (p 9%nat)); [lra|]. replace (- (p 9%nat - p 9%nat) / p 8%nat) with 0 by (unfold Rdiv; ring). rewrite exp_0. ring.
    + intros N. eexists. split; [reflexivity|]. destruct (Rlt_dec rho (p 9%nat)).
      * pose proof (@bell_lt_1 (p 10%nat) (rho - p 9%nat) Pt ltac:(lra)). nra.
      * assert (exp (- (rho - p 9%nat) / p 8%nat) < 1); [|nra]. apply Rlt_le_trans with (exp 0); [|rewrite exp_0; lra]. apply exp_increasing.
        assert (0 < / p 8%nat) by now apply Rinv_0_lt_compat. unfold Rdiv. nra.
  - intros PI PR Ph Pt. rewrite !V by (auto; exact I). unfold on_arms. split.
    + f_equal. rewrite Rminus_diag_eq, bell_0 by reflexivity. ring.
    + intros N. eexists. split; [reflexivity|].
      assert (bell (if Rlt_dec rho (p 8%nat) then p 9%nat else p 10%nat) (rho - p 8%nat) < 1); [|nra].
      apply bell_lt_1; [destruct (Rlt_dec rho (p 8%nat)); assumption|lra].
Qed.

(** LogSpiral3: the arms are not continuous at the inner truncation radius. Just inside it
    they are fainter, by an amount which does not go to 0, than at the radius itself *)
Theorem C92_edge_refuted : forall params offset m x0 y0, usable LogSpiral3 params offset m ->
  let p := parameters params offset in
  let at_arm r := seen_at x0 y0 (p 0%nat) (p 1%nat) r (spiral_azimuth (pitch p) (R_i LogSpiral3 p) (gamma LogSpiral3 p) r) in
  let along_arm r := value LogSpiral3 params offset x0 y0 (fst (at_arm r)) (snd (at_arm r)) in
  0 < p 7%nat -> 0 < p 8%nat < p 9%nat -> 0 < p 11%nat -> 0 < p 12%nat -> p 11%nat * (p 12%nat - p 10%nat) <= 100 ->
  exists delta jump v', 0 < delta /\ 0 < jump /\ along_arm (p 12%nat) = Ok v' /\
    forall rho, 0 < rho -> p 12%nat - delta < rho < p 12%nat -> exists v, along_arm rho = Ok v /\ v + jump < v'.
Proof.
  intros params offset m x0 y0 U p at_arm along_arm P7 P8 P11 P12 E.
  assert (V : forall r, 0 < r -> exact_profile LogSpiral3 p r -> along_arm r = Ok (on_arms LogSpiral3 p r)).
  { intros r Pr X. exact (@value_on_arm LogSpiral3 params offset m x0 y0 r U Pr X). }
  clearbody along_arm. destruct (spiral3_edge P7 P8 P11 P12) as (d & j & Pd & Pj & H).
  exists d, j, (on_arms LogSpiral3 p (p 12%nat)). split; [auto|]. split; [auto|]. split; [now apply V|].
  intros rho Pr R. eexists. split; [apply V; auto; cbn [exact_profile]; nra|]. now apply H.
Qed.

(** The number of arms is a parameter like the others. When it is not a whole number the
    picture is torn along the line of nodes: on one side 1, on the other, however near, less than 1/e *)
Theorem C92_seam_refuted : exists params, length params = nparams LogSpiral /\ nth 2 params 0 = 1 / 2 /\
  forall x0 y0 e, 0 < e < 1 ->
  let s := seen_at x0 y0 (nth 0 params 0) (nth 1 params 0) 1 PI in
  let s' := seen_at x0 y0 (nth 0 params 0) (nth 1 params 0) 1 (PI + e) in
  value LogSpiral params 0 x0 y0 (fst s) (snd s) = Ok 1 /\
  exists v, value LogSpiral params 0 x0 y0 (fst s') (snd s') = Ok v /\ v < exp (-1).
Proof.
  exists seam_params. split; [reflexivity|]. split; [reflexivity|]. intros x0 y0 e He s s'.
  assert (L : (0 + nparams LogSpiral <= length seam_params)%nat) by (cbn; lia).
  unfold s, s'. rewrite !value_amp by exact L. cbn [nth seam_params Nat.add]. rewrite !polar_seen by lra.
  rewrite atan2_PI, (atan2_past He), !off_centre_pos by lra. cbn [amp R_i sigma gamma nth seam_params Nat.add].
  rewrite !seam_phase. split.
  - f_equal. replace (PI / 2 - PI / 2) with 0 by ring. rewrite cos_0. replace (- (1 - 1)) with 0 by ring. rewrite exp_0. ring.
  - eexists. split; [reflexivity|]. rewrite Rmult_1_l. apply exp_increasing.
    replace ((e - PI) / 2 - PI / 2) with (- (PI - e / 2)) by field. rewrite cos_neg, Rtrigo_facts.cos_pi_minus.
    assert (0 < cos (e / 2)); [|lra]. pose proof PI2_1. apply cos_gt_0; lra.
Qed.

(** A two-armed LogSpiralExp, third component of a model, on a disc seen at an angle *)
Definition case_params : list R := [10; 20; 30; 1 / 2; 2; 45; 8; 5; 15; 100; 20; 12; 3].
Example C92_case : usable LogSpiralExp case_params 2 2 /\ exact_profile LogSpiralExp (parameters case_params 2) 10 /\
  0 < on_arms LogSpiralExp (parameters case_params 2) 10.
Proof.
  assert (T : 0 < tan (45 * deg)). { apply tan_gt_0; [unfold deg; lra|]. pose proof PI2_1. unfold deg. lra. }
  split; [|split].
  - repeat split; cbn; try lia; try lra.
  - exact I.
  - unfold on_arms, parameters, case_params. cbn [nth Nat.add]. destruct (Rlt_dec 10 12); [|lra]. apply Rmult_lt_0_compat; [lra|apply exp_pos].
Qed.
(** ... and a LogSpiral3 that meets the conditions of [C92_far] and [C92_edge_refuted] *)
Example C92_case3 : let params := [30; 1 / 2; 2; 45; 8; 5; 15; 100; 10; 20; 25; 1; 12; 3] in
  usable LogSpiral3 params 0 2 /\ (let p := parameters params 0 in
  0 < p 7%nat /\ 0 < p 8%nat < p 9%nat /\ 0 < p 11%nat /\ 0 < p 12%nat /\ p 11%nat * (p 12%nat - p 10%nat) <= 100).
Proof.
  assert (T : 0 < tan (45 * deg)). { apply tan_gt_0; [unfold deg; lra|]. pose proof PI2_1. unfold deg. lra. }
  repeat split; cbn; try lia; try lra.
Qed.

Print Assumptions C92_everywhere.
Print Assumptions C92_brightness.
Print Assumptions C92_far.
Print Assumptions C92_arms.
Print Assumptions C92_turn.
Print Assumptions C92_centre.
Print Assumptions C92_peak.
Print Assumptions C92_edge_refuted.
Print Assumptions C92_seam_refuted.
