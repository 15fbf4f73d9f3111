(** Symmetries of the image functions, and the generalised radius. *)
From Coq Require Import Reals Lra Lia List ZArith Machin Ratan.
From Verif Require Import Func_Spec Func_Proof.
Set Implicit Arguments. Unset Strict Implicit.
Local Open Scope R_scope.

Lemma cos_2PI_plus x : cos (x + 2 * PI) = cos x.
Proof. rewrite cos_plus, cos_2PI, sin_2PI. ring. Qed.
Lemma cos_2PI_minus x : cos (x - 2 * PI) = cos x.
Proof. rewrite cos_minus, cos_2PI, sin_2PI. ring. Qed.

Lemma atan2_half_turn P x y : cos (2 * (P - Ratan2 (- y) (- x))) = cos (2 * (P - Ratan2 y x)).
Proof.
  unfold Ratan2.
  destruct (Rlt_dec 0 x) as [X|X].
  - destruct (Rlt_dec 0 (- x)) as [A|A]; [exfalso; lra|].
    destruct (Rlt_dec (- x) 0) as [B|B]; [|exfalso; lra].
    replace (- y / - x) with (y / x) by (field; lra).
    destruct (Rle_dec 0 (- y)).
    + rewrite <- (cos_2PI_plus (2 * (P - (atan (y / x) + PI)))). f_equal. ring.
    + rewrite <- (cos_2PI_minus (2 * (P - (atan (y / x) - PI)))). f_equal. ring.
  - destruct (Rlt_dec x 0) as [X'|X'].
    + destruct (Rlt_dec 0 (- x)) as [A|A]; [|exfalso; lra].
      replace (- y / - x) with (y / x) by (field; lra).
      destruct (Rle_dec 0 y).
      * rewrite <- (cos_2PI_plus (2 * (P - (atan (y / x) + PI)))). f_equal. ring.
      * rewrite <- (cos_2PI_minus (2 * (P - (atan (y / x) - PI)))). f_equal. ring.
    + destruct (Rlt_dec 0 (- x)) as [A|A]; [exfalso; lra|].
      destruct (Rlt_dec (- x) 0) as [B|B]; [exfalso; lra|].
      destruct (Rlt_dec 0 (- y)), (Rlt_dec (- y) 0), (Rlt_dec 0 y), (Rlt_dec y 0); try (exfalso; lra); try reflexivity.
      * rewrite <- (cos_2PI_plus (2 * (P - PI / 2))). f_equal. lra.
      * rewrite <- (cos_2PI_minus (2 * (P - - (PI / 2)))). f_equal. lra.
Qed.

(** the position enters only through these two combinations *)
Lemma frame_x_neg c s x y : - x * c + - y * s = - (x * c + y * s). Proof. ring. Qed.
Lemma frame_y_neg c s x y : - - x * s + - y * c = - (- x * s + y * c). Proof. ring. Qed.
Lemma opp_div a b : - a / b = - (a / b). Proof. unfold Rdiv. ring. Qed.
Lemma opp_sq a : - a * - a = a * a. Proof. ring. Qed.

Lemma radius_neg PA q x y : elliptical_radius NumR PA q (- x) (- y) = elliptical_radius NumR PA q x y.
Proof.
  unfold elliptical_radius. cbn [nadd nmul ndiv nneg nsqrt NumR].
  rewrite frame_x_neg, frame_y_neg, opp_div, !opp_sq. reflexivity.
Qed.
Lemma gen_radius_neg PA q e ie x y : GeneralizedRadius NumR PA q e ie (- x) (- y) = GeneralizedRadius NumR PA q e ie x y.
Proof.
  unfold GeneralizedRadius. cbn [nadd nmul ndiv nneg nabs npow NumR].
  rewrite frame_x_neg, frame_y_neg, opp_div, !Rabs_Ropp. reflexivity.
Qed.
Lemma gen2_radius_neg PA q a b c e x y : GenExp2_radius NumR PA q a b c e (- x) (- y) = GenExp2_radius NumR PA q a b c e x y.
Proof.
  unfold GenExp2_radius. cbn [nadd nmul ndiv nneg nabs npow nsqrt NumR].
  rewrite frame_x_neg, frame_y_neg, opp_div, !Rabs_Ropp. reflexivity.
Qed.

Lemma ring_neg A r s z x y : EdgeOnRing_intensity NumR A r (- r) s z (- x) y = EdgeOnRing_intensity NumR A r (- r) s z x y.
Proof.
  unfold EdgeOnRing_intensity. cbn [nadd nsub nmul ndiv nneg nexp NumR].
  replace ((r - - x) * (r - - x)) with ((- r - x) * (- r - x)) by ring.
  replace ((- r - - x) * (- r - - x)) with ((r - x) * (r - x)) by ring. apply Rplus_comm.
Qed.

Lemma ring2_neg A r s1 s2 z x y : 0 <= - r ->
  EdgeOnRing2Side_intensity NumR A r (- r) s1 s2 z (- x) y = EdgeOnRing2Side_intensity NumR A r (- r) s1 s2 z x y.
Proof.
  intros P. unfold EdgeOnRing2Side_intensity. cbn [nadd nsub nmul ndiv nneg nexp nltb NumR].
  assert (Z : forall c, - (0 * 0) / c = 0) by (intros c; unfold Rdiv; ring).
  assert (E1 : (- x - r) * (- x - r) = (x - - r) * (x - - r)) by ring.
  assert (E2 : (- x - - r) * (- x - - r) = (x - r) * (x - r)) by ring. rewrite E1, E2.
  unfold Rltb. destruct (Rlt_dec (- x) r), (Rlt_dec (- x) (- r)), (Rlt_dec x r), (Rlt_dec x (- r)); try (exfalso; lra); try apply Rplus_comm.
  all: try (assert (X : x - r = 0) by lra; rewrite !X, !Z).
  all: try (assert (X' : x - - r = 0) by lra; rewrite !X', !Z).
  all: try apply Rplus_comm; try reflexivity.
Qed.

Lemma Setup_neg K1 k d ps off xc yc o : Setup NumR K1 k d ps off xc yc = Ok o -> half_turn_kind k d ps off ->
  forall x y, ob_point o (- x) (- y) = ob_point o x y /\ forall s, ob_nsub o s (- x) (- y) = ob_nsub o s x y.
Proof.
  intros H Hk x y. kinds H k; cbn [half_turn_kind elliptical gen_elliptical ob_point ob_nsub] in *;
    try contradiction; nths;
    rewrite ?radius_neg, ?gen_radius_neg, ?gen2_radius_neg; try (split; auto; fail);
    cbn [nadd nmul nneg nabs NumR] in *.
  - (* ring az *) split; auto. unfold GaussianRingAz_intensity. cbn [natan2 nsub nmul nadd ncos nofZ NumR].
    rewrite atan2_half_turn. reflexivity.
  - (* ring *) rewrite frame_x_neg, frame_y_neg, Rabs_Ropp. split; auto. apply ring_neg.
  - rewrite frame_x_neg, frame_y_neg, Rabs_Ropp. split; auto. apply ring2_neg. cbn [Nat.add] in *. lra.
  - cbn [fst snd]. rewrite frame_x_neg, frame_y_neg, !Rabs_Ropp. auto.
  - split.
    + unfold BrokenExp2D_intensity. cbn [nabs NumR]. rewrite frame_x_neg, frame_y_neg, !Rabs_Ropp. reflexivity.
    + intros s. cbn [nadd nmul nneg nsqrt NumR]. rewrite frame_x_neg, frame_y_neg, !opp_sq. reflexivity.
Qed.

Lemma C21_half_turn_proof K1 k d ps off xc yc s x y :
  (off + nParams k <= length ps)%nat -> half_turn_kind k d ps off ->
  value_at NumR K1 k d ps off xc yc s (2 * xc - x) (2 * yc - y) =
  value_at NumR K1 k d ps off xc yc s x y.
Proof.
  intros L Hk. destruct (@Setup_total _ NumR K1 k d ps off xc yc L) as (o & E).
  unfold value_at. rewrite E. cbn [bind].
  destruct (Setup_basic E) as (<- & <- & _). pose proof (Setup_neg E Hk) as Sy.
  assert (Ens : ob_nsub o s (2 * ob_x0 o - x - ob_x0 o) (2 * ob_y0 o - y - ob_y0 o) =
                ob_nsub o s (x - ob_x0 o) (y - ob_y0 o)).
  { destruct (Sy (x - ob_x0 o) (y - ob_y0 o)) as (_ & B). rewrite <- B. f_equal; ring. }
  destruct (ob_nsub o s (x - ob_x0 o) (y - ob_y0 o)) as [n| | |] eqn:En.
  2-4: unfold GetValue; cbn [nsub NumR]; rewrite Ens, En; reflexivity.
  rewrite (GetValue_mean En), (GetValue_mean Ens). f_equal. apply mean_mirror; [lia|].
  intros u v. unfold plain. destruct (Sy (u - ob_x0 o) (v - ob_y0 o)) as (<- & _). f_equal; ring.
Qed.

(** ---- position angle plus half a turn ---- *)

Lemma cosPA_turn PA delta : delta * deg = PI -> cosPA NumR (PA + delta) = - cosPA NumR PA.
Proof.
  intros H. unfold cosPA. cbn [nadd nmul ncos nofZ NumR]. rewrite deg_eq.
  replace ((PA + delta + 90) * deg) with ((PA + 90) * deg + PI) by (rewrite <- H; ring).
  apply neg_cos.
Qed.
Lemma sinPA_turn PA delta : delta * deg = PI -> sinPA NumR (PA + delta) = - sinPA NumR PA.
Proof.
  intros H. unfold sinPA. cbn [nadd nmul nsin nofZ NumR]. rewrite deg_eq.
  replace ((PA + delta + 90) * deg) with ((PA + 90) * deg + PI) by (rewrite <- H; ring).
  apply neg_sin.
Qed.

Lemma frame_x_turn c s x y : x * - c + y * - s = - (x * c + y * s). Proof. ring. Qed.
Lemma frame_y_turn c s x y : - x * - s + y * - c = - (- x * s + y * c). Proof. ring. Qed.

Lemma radius_turn PA q x y delta : delta * deg = PI ->
  elliptical_radius NumR (PA + delta) q x y = elliptical_radius NumR PA q x y.
Proof.
  intros H. unfold elliptical_radius. rewrite (cosPA_turn PA H), (sinPA_turn PA H).
  cbn [nadd nmul ndiv nneg nsqrt NumR].
  rewrite frame_x_turn, frame_y_turn, opp_div, !opp_sq. reflexivity.
Qed.
Lemma gen_radius_turn PA q e ie x y delta : delta * deg = PI ->
  GeneralizedRadius NumR (PA + delta) q e ie x y = GeneralizedRadius NumR PA q e ie x y.
Proof.
  intros H. unfold GeneralizedRadius. rewrite (cosPA_turn PA H), (sinPA_turn PA H).
  cbn [nadd nmul ndiv nneg nabs npow NumR].
  rewrite frame_x_turn, frame_y_turn, opp_div, !Rabs_Ropp. reflexivity.
Qed.
Lemma gen2_radius_turn PA q a b c e x y delta : delta * deg = PI ->
  GenExp2_radius NumR (PA + delta) q a b c e x y = GenExp2_radius NumR PA q a b c e x y.
Proof.
  intros H. unfold GenExp2_radius. rewrite (cosPA_turn PA H), (sinPA_turn PA H).
  cbn [nadd nmul ndiv nneg nabs npow nsqrt NumR].
  rewrite frame_x_turn, frame_y_turn, opp_div, !Rabs_Ropp. reflexivity.
Qed.

(** Two objects that look the same *)
Lemma value_ext (o o' : Obj R) s x y : ob_x0 o = ob_x0 o' -> ob_y0 o = ob_y0 o' ->
  (forall u v, ob_point o u v = ob_point o' u v) -> (forall u v, ob_nsub o s u v = ob_nsub o' s u v) ->
  GetValue NumR o s x y = GetValue NumR o' s x y.
Proof.
  intros Ex Ey Ep En.
  destruct (ob_nsub o s (x - ob_x0 o) (y - ob_y0 o)) as [n| | |] eqn:E.
  2-4: unfold GetValue; cbn [nsub NumR]; rewrite <- En, <- Ex, <- Ey, E; reflexivity.
  rewrite (GetValue_mean E). rewrite En, Ex, Ey in E. rewrite (GetValue_mean E). f_equal.
  apply mean_ext. intros i j _ _. unfold plain. now rewrite Ep, Ex, Ey.
Qed.

Lemma Setup_turn K1 k d ps ps' off xc yc o o' delta :
  Setup NumR K1 k d ps off xc yc = Ok o -> Setup NumR K1 k d ps' off xc yc = Ok o' -> has_PA k = true ->
  (k = EdgeOnRing2Side -> 0 <= nth (2 + off) ps 0 * pixelScaling d) ->
  delta * deg = PI -> nth off ps' 0 = nth off ps 0 + delta -> (forall i, i <> off -> nth i ps' 0 = nth i ps 0) ->
  forall x y, ob_point o' x y = ob_point o x y /\ forall s, ob_nsub o' s x y = ob_nsub o s x y.
Proof.
  intros H H' Hk Hr Hd E0 Ei x y.
  assert (Es : forall i, nth (S (i + off)) ps' 0 = nth (S (i + off)) ps 0) by (intros i; apply Ei; lia).
  pose proof (fun i => Es i) as Es'. clear Ei.
  pose proof (Es 0%nat) as E1. pose proof (Es 1%nat) as E2. pose proof (Es 2%nat) as E3. pose proof (Es 3%nat) as E4.
  pose proof (Es 4%nat) as E5. pose proof (Es 5%nat) as E6. pose proof (Es 6%nat) as E7. pose proof (Es 7%nat) as E8.
  pose proof (Es 8%nat) as E9. cbn [Nat.add] in *. clear Es Es'.
  assert (EP : forall rot, nth off ps' 0 - rot = (nth off ps 0 - rot) + delta) by (intros; rewrite E0; ring).
  destruct k; cbn [has_PA] in Hk; try discriminate Hk;
  (assert (Kr : 0 <= nth (S (S off)) ps 0 * pixelScaling d \/ True) by tauto).
  all: cbn [Setup] in H, H'; unfold make_Exponential, make_Gaussian, make_Sersic, make_Moffat, make_ModifiedKing, make_ModifiedKing2,
    make_CoreSersic, make_NukerLaw, make_BrokenExponential, make_DoubleBrokenExponential, make_FlatExponential,
    make_GaussianRing, make_GaussianRing2Side, make_GenExponential, make_GenExponential2, make_GenSersic,
    make_FerrersBar2D, make_GaussianRingAz, make_EdgeOnRing, make_EdgeOnRing2Side, make_EdgeOnDisk,
    make_BrokenExponential2D, make_FlatSky, make_TiltedSkyPlane in H, H';
    getsE H; getsE H'; cbv zeta in H, H'; apply Ok_inj in H; apply Ok_inj in H'; subst o o'; nths;
    cbn [nsub NumR Nat.add]; rewrite ?EP, ?E0, ?E1, ?E2, ?E3, ?E4, ?E5, ?E6, ?E7, ?E8, ?E9;
    cbn [elliptical gen_elliptical ob_point ob_nsub fst snd]; try (unfold GaussianRingAz_intensity);
    rewrite ?(fun P q u v => @radius_turn P q u v _ Hd), ?(fun P q e i u v => @gen_radius_turn P q e i u v _ Hd),
      ?(fun P q a b c e u v => @gen2_radius_turn P q a b c e u v _ Hd); try (split; auto; fail);
    rewrite ?(fun P => @cosPA_turn P _ Hd), ?(fun P => @sinPA_turn P _ Hd).
  all: cbn [nadd nmul nneg nabs nsqrt NumR].
  all: rewrite ?frame_x_turn, ?frame_y_turn, ?Rabs_Ropp, ?opp_sq.
  - split; auto. cbn [nsub nadd nmul ncos nofZ NumR]. rewrite deg_eq.
    repeat match goal with |- context[cos (2 * ((?P + delta + 90) * deg - ?t))] =>
      replace (cos (2 * ((P + delta + 90) * deg - t))) with (cos (2 * ((P + 90) * deg - t)))
        by (rewrite <- (cos_2PI_plus (2 * ((P + 90) * deg - t))); f_equal; rewrite <- Hd; ring) end.
    reflexivity.
  - split; auto. apply ring_neg.
  - split; auto. apply ring2_neg. specialize (Hr eq_refl). lra.
  - auto.
  - split; [unfold BrokenExp2D_intensity; cbn [nabs NumR]; rewrite !Rabs_Ropp; reflexivity|].
    intros s. do 2 f_equal. ring.
Qed.

Lemma C21_turn_proof K1 k d ps ps' off xc yc delta s x y :
  (off + nParams k <= length ps)%nat -> length ps' = length ps -> has_PA k = true ->
  (k = EdgeOnRing2Side -> 0 <= nth (2 + off) ps 0 * pixelScaling d) ->
  delta * deg = PI -> nth off ps' 0 = nth off ps 0 + delta -> (forall i, i <> off -> nth i ps' 0 = nth i ps 0) ->
  value_at NumR K1 k d ps' off xc yc s x y = value_at NumR K1 k d ps off xc yc s x y.
Proof.
  intros L Ll Hk Hr Hd E0 Ei. destruct (@Setup_total _ NumR K1 k d ps off xc yc L) as (o & E).
  assert (L' : (off + nParams k <= length ps')%nat) by lia.
  destruct (@Setup_total _ NumR K1 k d ps' off xc yc L') as (o' & E').
  unfold value_at. rewrite E, E'. cbn [bind].
  pose proof (Setup_turn E E' Hk Hr Hd E0 Ei) as S.
  destruct (Setup_basic E) as (A & B & _), (Setup_basic E') as (A' & B' & _).
  apply value_ext; try congruence; intros u v; apply S.
Qed.

(** The program's degree: half a turn is 180 of them, to 2e-16 *)
Lemma PI_digits : 314159265358979323 / 10 ^ 17 < PI < 314159265358979324 / 10 ^ 17.
Proof.
  destruct (PI_2_3_7_ineq 9) as (A & B). unfold PI_2_3_7_tg, tg_alt, Ratan_seq in *.
  cbn [sum_f_R0 Nat.mul Nat.add] in *. rewrite !INR_IZR_INZ in *.
  cbn [Z.of_nat Pos.of_succ_nat Pos.succ] in *.
  split.
  - clear B. apply Rlt_le_trans with (4 * (PI/4)); [|lra].
    apply Rlt_le_trans with (2 := Rmult_le_compat_l 4 _ _ ltac:(lra) A). clear A. lra.
  - clear A. apply Rle_lt_trans with (4 * (PI/4)); [lra|].
    apply Rle_lt_trans with (1 := Rmult_le_compat_l 4 _ _ ltac:(lra) B). clear B. lra.
Qed.

Lemma half_turn_degrees : 0 < PI - 180 * deg < 2 / 10 ^ 16.
Proof. destruct PI_digits as (A & B). unfold deg. cbn [pow] in *. lra. Qed.
