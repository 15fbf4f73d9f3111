(** Proofs about line-of-sight integration: the accuracy of a pixel value, and properties
    of the integral. *)
From Coq Require Import Reals Lra Lia List ZArith.
From Coquelicot Require Import Coquelicot.
From Verif Require Import Los_Spec Func_Proof Func_Profile Los_Proof Los_Value.
Import ListNotations.
Set Implicit Arguments. Unset Strict Implicit.
Local Open Scope R_scope.

Lemma guard_error_nonneg k d ps off : sensible3 k d ps off -> 0 <= guard_error k d ps off.
Proof.
  intros S. destruct k; cbn [guard_error]; try lra.
  - destruct S as (_ & _ & Hn & _). apply Rmult_le_pos; [|apply Rlt_le, exp_pos]. apply Rlt_le, Rdiv_lt_0_compat; lra.
  - destruct S as (_ & _ & _ & Hn & _). apply Rplus_le_le_0_compat; apply Rmult_le_pos; try apply Rabs_pos; try (apply Rlt_le, exp_pos).
    apply Rlt_le, Rdiv_lt_0_compat; lra.
Qed.
Lemma Rpower_pos x y : 0 < Rpower x y. Proof. apply exp_pos. Qed.

Lemma lum_nonneg k d ps off t v : sensible3 k d ps off -> 0 <= luminosity k d ps off t v.
Proof.
  intros S. destruct k; unfold luminosity; cbv zeta.
  - destruct S as (HJ & _). unfold exponential_disc, sech_profile.
    repeat (first [exact HJ | apply Rmult_le_pos]); apply Rlt_le; first [apply exp_pos|apply Rpower_pos].
  - destruct S as (HJ & _). unfold broken_disc, broken_exp, sech_profile.
    repeat (first [exact HJ | apply Rmult_le_pos]); apply Rlt_le; first [apply exp_pos|apply Rpower_pos].
  - destruct S as (HJ & _). unfold gaussian_ring. repeat (first [exact HJ | apply Rmult_le_pos]); apply Rlt_le, exp_pos.
  - destruct S as (HJ & _). unfold ferrers. cbv zeta. destruct (Rlt_dec _ 1); [|lra].
    apply Rmult_le_pos; auto. apply Rlt_le, Rpower_pos.
  - destruct S as (HJ & _). unfold peanut. cbv zeta. apply Rmult_le_pos; auto. apply Rlt_le, Rinv_0_lt_compat, pow_lt, cosh_pos.
Qed.

Lemma lum_integrable k d ps off x y t : sensible3 k d ps off ->
  integrable (fun s => luminosity k d ps off t (mkvec x y s)).
Proof.
  intros S. apply cont_integrable. unfold luminosity, dot. cbv zeta. cbn [vx vy vz]. destruct k.
  - unfold exponential_disc. conts.
  - unfold broken_disc, broken_exp. cbv zeta. conts. apply cont_Rpower; [conts|intros s; apply exp1_pos].
  - unfold gaussian_ring. cbv zeta. conts.
  - destruct S as (HJ & Hh & Hq & Hz & Hn). unfold ferrers. cbv zeta.
    match goal with |- cont (fun s => if Rlt_dec (@?m s) 1 then ?J * Rpower _ ?n else 0) =>
      apply cont_ext with (fun s => J * Rpow ((1 - m s + Rabs (1 - m s)) / 2) n) end.
    + intros s. cbv beta. set (m := _ + _ + _). destruct (Rlt_dec m 1).
      * rewrite Rabs_pos_eq by lra. replace ((1 - m + (1 - m)) / 2) with (1 - m) by lra. rewrite Rpow_eq by lra. reflexivity.
      * rewrite Rabs_left1 by lra. replace ((1 - m + - (1 - m)) / 2) with 0 by lra. rewrite Rpow_0 by lra. ring.
    + apply cont_mult; [apply cont_const|]. apply cont_Rpow; auto.
      * conts.
      * intros s. set (m := _ + _ + _). pose proof (Rle_abs (- (1 - m))) as H. rewrite Rabs_Ropp in H. lra.
  - destruct S as (HJ & Hh & Hq & Hz & HA & H9 & H1 & H2). unfold peanut. cbv zeta.
    assert (H0 : forall a b, 0 <= Rpow a b) by (intros; apply Rpow_nonneg).
    assert (Hd : forall a b, 0 < b -> 0 <= Rabs a / b) by (intros; apply Rmult_le_pos; [apply Rabs_pos|apply Rlt_le, Rinv_0_lt_compat; auto]).
    assert (Hpos : forall u w Rp sg Rz, 0 < Rz -> 0 < peanut_height (nth (8 + off) ps 0 * pixelScaling d) Rp sg Rz u w).
    { intros. unfold peanut_height. match goal with |- 0 < _ * exp ?a + _ * exp ?b + _ => pose proof (exp_pos a); pose proof (exp_pos b) end.
      set (A := _ * pixelScaling d) in *. nra. }
    assert (Q1 : 0 < nth (10 + off) ps 0 / nth (11 + off) ps 0) by (apply Rdiv_lt_0_compat; auto).
    assert (Q2 : 0 < 1 / nth (10 + off) ps 0) by (apply Rdiv_lt_0_compat; lra).
    apply cont_div; [apply cont_const| |intros s; apply pow_nonzero, Rgt_not_eq, cosh_pos].
    apply cont_pow, cont_cosh. apply cont_Rpow; auto.
    + apply cont_plus.
      * apply cont_Rpow; auto.
        -- apply cont_plus; apply cont_Rpow; auto; try (conts; fail); intros s; apply Hd; auto. nra.
        -- intros s. apply Rplus_le_le_0_compat; auto.
      * apply cont_Rpow; auto.
        -- apply cont_div; [conts|unfold peanut_height; conts|]. intros s. apply Rgt_not_eq, Hpos. nra.
        -- intros s. apply Hd, Hpos. nra.
    + intros s. apply Rplus_le_le_0_compat; auto.
Qed.

Lemma reach_nonneg k d ps off : sensible3 k d ps off -> 0 <= reach k d ps off.
Proof.
  intros S. destruct k; unfold reach; cbv zeta.
  - destruct S as (_ & H & _). lra.
  - destruct S as (_ & H & _). eapply Rle_trans; [|apply Rmax_r]. lra.
  - destruct S as (_ & H & _). lra.
  - destruct S as (_ & H & _). apply Rmult_le_pos; [lra|]. eapply Rle_trans; [|apply Rmax_r]. lra.
  - destruct S as (_ & H & _). lra.
Qed.

Lemma column_nonneg k d ps off t x y : sensible3 k d ps off -> 0 <= column k d ps off t x y.
Proof.
  intros S. unfold column. apply RInt_ge_0.
  - pose proof (reach_nonneg S). lra.
  - now apply lum_integrable.
  - intros s _. now apply lum_nonneg.
Qed.

Lemma exp_close g e E : 0 <= g -> Rabs e <= E -> (2 - exp E) * g <= g * exp e <= exp E * g.
Proof.
  intros Hg He. apply Rabs_le_between in He. assert (H1 : exp e <= exp E) by (apply exp_le; lra).
  assert (H2 : exp (- E) <= exp e) by (apply exp_le; lra). pose proof (exp_two E). nra.
Qed.

Lemma pixel_accuracy k d ps off xc yc x y tol Q :
  (off + nParams3 k <= length ps)%nat -> sensible3 k d ps off -> accurate tol Q -> 0 <= tol ->
  exists v, value3D NumR Q k d ps off xc yc x y = Ok v /\
    Rabs (v - column k d ps off (actual_axis k ps off) (x - xc) (y - yc))
      <= accuracy3 tol k d ps off * column k d ps off (actual_axis k ps off) (x - xc) (y - yc).
Proof.
  intros L S A Ht. rewrite (value3_integrand L S). eexists. split; [reflexivity|].
  pose proof (reach_nonneg S) as HR. set (a := reach k d ps off) in *.
  set (f := integrand k d ps off xc yc x y).
  set (g := fun s => luminosity k d ps off (actual_axis k ps off) (mkvec (x - xc) (y - yc) s)).
  assert (Ff : integrable f) by (apply integrand_integrable; auto).
  assert (Fg : integrable g) by (apply lum_integrable; auto).
  set (E := guard_error k d ps off).
  assert (C : forall s, (2 - exp E) * g s <= f s <= exp E * g s).
  { intros s. unfold f. destruct (integrand_close L S xc yc x y s) as (e & He & ->). apply exp_close; auto. now apply lum_nonneg. }
  assert (Hg : forall s, 0 <= g s) by (intros; now apply lum_nonneg).
  assert (Hf : forall s, 0 <= f s).
  { intros s. unfold f. destruct (integrand_close L S xc yc x y s) as (e & He & ->).
    apply Rmult_le_pos; [now apply lum_nonneg|apply Rlt_le, exp_pos]. }
  change (column k d ps off (actual_axis k ps off) (x - xc) (y - yc)) with (RInt g (- a) a).
  set (Lg := RInt g (- a) a).
  assert (U : RInt f (- a) a <= exp E * Lg).
  { replace (exp E * Lg) with (RInt (fun s => scal (exp E) (g s)) (- a) a) by (rewrite (RInt_scal g) by apply Fg; reflexivity). apply RInt_le; try lra; auto.
    - apply (ex_RInt_scal g). apply Fg.
    - intros s _. apply C. }
  assert (W : (2 - exp E) * Lg <= RInt f (- a) a).
  { replace ((2 - exp E) * Lg) with (RInt (fun s => scal (2 - exp E) (g s)) (- a) a) by (rewrite (RInt_scal g) by apply Fg; reflexivity). apply RInt_le; try lra; auto.
    - apply (ex_RInt_scal g). apply Fg.
    - intros s _. apply C. }
  assert (T : Rabs (Q f (- a) a - RInt f (- a) a) <= tol * RInt f (- a) a).
  { apply A; auto. lra. }
  unfold accuracy3. fold E. apply Rabs_le_between in T. apply Rabs_le. set (I := RInt f (- a) a) in *.
  set (q := Q f (- a) a) in *. assert (tol * I <= tol * (exp E * Lg)) by (apply Rmult_le_compat_l; auto). nra.
Qed.

(** ---- symmetry ---- *)

Lemma RInt_mirror (f : R -> R) a : integrable f -> RInt (fun s => f (- s)) (- a) a = RInt f (- a) a.
Proof.
  intros F. apply is_RInt_unique.
  pose proof (RInt_correct f (- a) a (F (- a) a)) as H. set (I := RInt f (- a) a) in *.
  assert (H0 : is_RInt f a (- a) (opp I)) by exact (@is_RInt_swap R_NormedModule f _ _ _ H).
  assert (H1 : is_RInt f (- - a) (- a) (opp I)) by (rewrite Ropp_involutive; exact H0).
  pose proof (@is_RInt_comp_opp R_NormedModule f _ _ _ H1) as H2. pose proof (@is_RInt_opp R_NormedModule _ _ _ _ H2) as H3.
  rewrite opp_opp in H3. eapply is_RInt_ext; [|exact H3]. intros s _. apply (opp_opp (f (- s))).
Qed.

Definition vopp (v : vec) : vec := mkvec (- vx v) (- vy v) (- vz v).
Lemma dot_opp v w : dot (vopp v) w = - dot v w. Proof. unfold dot, vopp. cbn [vx vy vz]. ring. Qed.
Lemma sech_even n z0 z : sech_profile n z0 (- z) = sech_profile n z0 z.
Proof. unfold sech_profile. replace (n * - z / (2 * z0)) with (- (n * z / (2 * z0))) by (unfold Rdiv; ring). now rewrite cosh_neg. Qed.
Lemma sq_opp x : (- x) ^ 2 = x ^ 2. Proof. ring. Qed.
Lemma lum_opp k d ps off t v : luminosity k d ps off t (vopp v) = luminosity k d ps off t v.
Proof.
  unfold luminosity. cbv zeta. rewrite !dot_opp, !sq_opp. destruct k.
  - unfold exponential_disc. now rewrite sech_even.
  - unfold broken_disc. now rewrite sech_even.
  - unfold gaussian_ring. cbv zeta. rewrite Rabs_Ropp.
    assert (E : forall a, - a * - a = a * a) by (intros; ring).
    assert (E' : forall a b, - a / b * (- a / b) = a / b * (a / b)) by (intros; unfold Rdiv; ring). now rewrite E, E'.
  - unfold ferrers. cbv zeta.
    assert (E : forall a b, (- a / b) ^ 2 = (a / b) ^ 2) by (intros; unfold Rdiv; ring). now rewrite !E.
  - unfold peanut, peanut_height. cbv zeta. rewrite !Rabs_Ropp, !sq_opp.
    set (u := dot _ _). set (w := dot _ _). set (Rp := nth (7 + off) ps 0 * pixelScaling d).
    replace ((- u - Rp) ^ 2) with ((u + Rp) ^ 2) by ring. replace ((- u + Rp) ^ 2) with ((u - Rp) ^ 2) by ring.
    do 6 f_equal. f_equal. ring.
Qed.

Lemma column_half_turn k d ps off t x y : sensible3 k d ps off ->
  column k d ps off t (- x) (- y) = column k d ps off t x y.
Proof.
  intros S. unfold column. rewrite <- RInt_mirror by now apply lum_integrable.
  apply RInt_ext. intros s _. exact (lum_opp k d ps off t (mkvec x y s)).
Qed.

Lemma offset_nodes phi a b s : dot (mkvec (along_x phi a b) (along_y phi a b) s) (nodes phi) = a.
Proof. unfold dot, nodes, along_x, along_y. cbn [vx vy vz]. pose proof (frame_back phi a b) as (E & _). lra. Qed.
Lemma offset_across phi i a b s : dot (mkvec (along_x phi a b) (along_y phi a b) s) (across phi i) = b * cos i + s * sin i.
Proof. unfold dot, across, along_x, along_y. cbn [vx vy vz]. pose proof (frame_back phi a b) as (_ & E). rewrite <- E at 3. ring. Qed.
Lemma offset_pole phi i a b s : dot (mkvec (along_x phi a b) (along_y phi a b) s) (pole phi i) = b * sin i - s * cos i.
Proof. unfold dot, pole, along_x, along_y. cbn [vx vy vz]. pose proof (frame_back phi a b) as (_ & E). rewrite <- E at 3. ring. Qed.

Lemma disc_mirror k d ps off t a b : is_disc k = true ->
  let phi := direction (nth (0 + off) ps 0) (imageRotation d) in
  column k d ps off t (along_x phi (- a) b) (along_y phi (- a) b) = column k d ps off t (along_x phi a b) (along_y phi a b).
Proof.
  intros D phi. unfold column. apply RInt_ext. intros s _. unfold luminosity. cbv zeta. fold phi.
  rewrite !offset_nodes, !offset_across, !offset_pole, sq_opp. destruct k; try discriminate; reflexivity.
Qed.
Lemma disc_mirror' k d ps off t a b : is_disc k = true -> sensible3 k d ps off ->
  let phi := direction (nth (0 + off) ps 0) (imageRotation d) in
  column k d ps off t (along_x phi a (- b)) (along_y phi a (- b)) = column k d ps off t (along_x phi a b) (along_y phi a b).
Proof.
  intros D S phi. rewrite <- column_half_turn by auto. refine (eq_trans _ (disc_mirror d ps off t a b D)). fold phi.
  f_equal; unfold along_x, along_y; ring.
Qed.

Lemma face_on k d ps off t x y : is_disc k = true -> nth (1 + off) ps 0 = 0 ->
  column k d ps off t x y =
  match k with
  | ExponentialDisk3D => exp (- sqrt (x ^ 2 + y ^ 2) / (nth (3 + off) ps 0 * pixelScaling d)) * column k d ps off t 0 0
  | _ => column k d ps off t (sqrt (x ^ 2 + y ^ 2)) 0
  end.
Proof.
  intros D I. set (phi := direction (nth (0 + off) ps 0) (imageRotation d)).
  assert (N : forall u v s, sqrt (dot (mkvec u v s) (nodes phi) ^ 2 + dot (mkvec u v s) (across phi 0) ^ 2) = sqrt (u ^ 2 + v ^ 2)).
  { intros. f_equal. unfold dot, nodes, across. cbn [vx vy vz]. rewrite sin_0, cos_0. pose proof (sin2_cos2 phi) as E. unfold Rsqr in E.
    transitivity ((u ^ 2 + v ^ 2) * (sin phi * sin phi + cos phi * cos phi)); [ring|rewrite E; ring]. }
  assert (P : forall u v s, dot (mkvec u v s) (pole phi 0) = - s).
  { intros. unfold dot, pole. cbn [vx vy vz]. rewrite sin_0, cos_0. ring. }
  destruct k; try discriminate; unfold column, luminosity; cbv zeta; fold phi; rewrite I, Rmult_0_l.
  - assert (F : integrable (fun s => exponential_disc (nth (2 + off) ps 0 * intensityScale d) (nth (3 + off) ps 0 * pixelScaling d)
        (nth (4 + off) ps 0) (nth (5 + off) ps 0 * pixelScaling d) (sqrt (dot (mkvec 0 0 s) (nodes phi) ^ 2 + dot (mkvec 0 0 s) (across phi 0) ^ 2))
        (dot (mkvec 0 0 s) (pole phi 0)))).
    { apply cont_integrable. unfold exponential_disc, dot. cbn [vx vy vz]. conts. }
    match goal with |- _ = ?c * RInt ?g ?a ?b => replace (c * RInt g a b) with (RInt (fun s => scal c (g s)) a b) by (rewrite (RInt_scal g) by apply F; reflexivity) end.
    apply RInt_ext. intros s _.
    rewrite !N, !P. match goal with |- _ = scal ?c ?x => change (scal c x) with (c * x) end. unfold exponential_disc. set (h := nth (3 + off) ps 0 * pixelScaling d).
    replace (0 ^ 2 + 0 ^ 2) with 0 by ring. rewrite sqrt_0. replace (- 0 / h) with 0 by (unfold Rdiv; ring).
    rewrite exp_0. match goal with |- @eq _ ?l ?r => change (@eq R l r) end. ring.
  - apply RInt_ext. intros s _. rewrite !N, !P.
    replace (sqrt (x ^ 2 + y ^ 2) ^ 2 + 0 ^ 2) with (x ^ 2 + y ^ 2); [reflexivity|].
    rewrite <- (Rsqr_pow2 (sqrt _)), Rsqr_sqrt by (pose proof (pow2_ge_0 x); pose proof (pow2_ge_0 y); lra). ring.
Qed.

(** ---- the whole of the component ---- *)

Lemma norm_frame phi i t v :
  dot v (in_plane phi i t) ^ 2 + dot v (in_plane phi i (t + PI / 2)) ^ 2 + dot v (pole phi i) ^ 2 = dot v v.
Proof.
  destruct v as [a b c]. unfold dot, in_plane, pole, combine, nodes, across. cbn [vx vy vz].
  rewrite cos_plus, sin_plus, cos_PI2, sin_PI2.
  pose proof (sin2_cos2 phi) as E1. pose proof (sin2_cos2 i) as E2. pose proof (sin2_cos2 t) as E3. unfold Rsqr in *.
  set (cp := cos phi) in *. set (sp := sin phi) in *. set (ci := cos i) in *. set (si := sin i) in *. set (ct := cos t) in *. set (st := sin t) in *.
  assert (A : forall A B : R, (A * ct + B * st) ^ 2 + (A * (ct * 0 - st * 1) + B * (st * 0 + ct * 1)) ^ 2 = A ^ 2 + B ^ 2).
  { intros. transitivity ((A ^ 2 + B ^ 2) * (st * st + ct * ct)); [ring|rewrite E3; ring]. }
  transitivity ((a * cp + b * sp) ^ 2 + (a * (- sp * ci) + b * (cp * ci) + c * si) ^ 2 + (a * (- sp * si) + b * (cp * si) + c * - ci) ^ 2).
  { rewrite <- (A (a * cp + b * sp) (a * (- sp * ci) + b * (cp * ci) + c * si)). ring. }
  transitivity ((a * cp + b * sp) ^ 2 + (b * cp - a * sp) ^ 2 * (si * si + ci * ci) + c ^ 2 * (si * si + ci * ci)); [ring|].
  rewrite E2. transitivity ((a ^ 2 + b ^ 2) * (sp * sp + cp * cp) + c ^ 2); [ring|]. rewrite E1. ring.
Qed.

Lemma ferrers_dark d ps off t x y s : sensible3 FerrersBar3D d ps off ->
  nth (5 + off) ps 0 <= 1 -> nth (6 + off) ps 0 <= 1 ->
  (nth (4 + off) ps 0 * pixelScaling d) ^ 2 <= x ^ 2 + y ^ 2 + s ^ 2 ->
  luminosity FerrersBar3D d ps off t (mkvec x y s) = 0.
Proof.
  intros (HJ & HR & Hq & Hz & Hn) Q1 Q2 H. unfold luminosity, ferrers. cbv zeta.
  set (Rb := nth (4 + off) ps 0 * pixelScaling d) in *. set (q := nth (5 + off) ps 0) in *. set (qz := nth (6 + off) ps 0) in *.
  set (phi := direction _ _). set (i := _ * deg).
  pose proof (norm_frame phi i t (mkvec x y s)) as E.
  set (u := dot _ (in_plane phi i t)) in *. set (w := dot _ (in_plane phi i (t + PI / 2))) in *. set (z := dot _ (pole phi i)) in *.
  assert (E' : u ^ 2 + w ^ 2 + z ^ 2 = x ^ 2 + y ^ 2 + s ^ 2) by (rewrite E; unfold dot; cbn [vx vy vz]; ring).
  assert (G : forall a q0, 0 < q0 <= 1 -> (a / Rb) ^ 2 <= (a / (q0 * Rb)) ^ 2).
  { intros a q0 Hq0. replace ((a / Rb) ^ 2) with (q0 ^ 2 * (a / (q0 * Rb)) ^ 2) by (field; lra).
    pose proof (pow2_ge_0 (a / (q0 * Rb))). assert (q0 ^ 2 <= 1) by nra. nra. }
  pose proof (G w q ltac:(lra)) as G1. pose proof (G z qz ltac:(lra)) as G2.
  assert (S : 1 <= (u / Rb) ^ 2 + (w / Rb) ^ 2 + (z / Rb) ^ 2).
  { replace ((u / Rb) ^ 2 + (w / Rb) ^ 2 + (z / Rb) ^ 2) with ((x ^ 2 + y ^ 2 + s ^ 2) / Rb ^ 2) by (rewrite <- E'; field; lra).
    apply Rmult_le_reg_r with (Rb ^ 2); [apply pow_lt; lra|]. unfold Rdiv. rewrite Rmult_assoc, Rinv_l; [lra|]. apply pow_nonzero. lra. }
  destruct (Rlt_dec _ 1); auto. lra.
Qed.

Lemma RInt_wider (f : R -> R) a b : integrable f -> 0 <= a <= b -> (forall s, a < Rabs s -> f s = 0) ->
  RInt f (- b) b = RInt f (- a) a.
Proof.
  intros F H Z.
  rewrite <- (RInt_Chasles f (- b) (- a) b) by apply F. rewrite <- (RInt_Chasles f (- a) a b) by apply F.
  assert (E : forall u v, (forall s, Rmin u v < s < Rmax u v -> f s = 0) -> RInt f u v = 0).
  { intros u v W. rewrite (RInt_ext f (fun _ => 0)) by auto. rewrite RInt_const. unfold scal. simpl. unfold mult. simpl. ring. }
  rewrite (E (- b) (- a)), (E a b).
  - unfold plus. simpl. ring.
  - intros s. rewrite Rmin_left, Rmax_right by lra. intros W. apply Z. rewrite Rabs_pos_eq; lra.
  - intros s. rewrite Rmin_left, Rmax_right by lra. intros W. apply Z. rewrite Rabs_left; lra.
Qed.

Lemma ferrers_whole d ps off t x y a : sensible3 FerrersBar3D d ps off ->
  nth (5 + off) ps 0 <= 1 -> nth (6 + off) ps 0 <= 1 -> reach FerrersBar3D d ps off <= a ->
  RInt (fun s => luminosity FerrersBar3D d ps off t (mkvec x y s)) (- a) a = column FerrersBar3D d ps off t x y.
Proof.
  intros S Q1 Q2 Ha. unfold column. apply RInt_wider.
  - now apply lum_integrable.
  - split; auto. now apply reach_nonneg.
  - intros s Hs. apply ferrers_dark; auto. destruct S as (HJ & HR & Hq & Hz & Hn).
    set (Rb := nth (4 + off) ps 0 * pixelScaling d) in *.
    assert (Rb <= reach FerrersBar3D d ps off).
    { unfold reach. cbv zeta. fold Rb. match goal with |- context [Rmax ?a Rb] => pose proof (Rmax_r a Rb) end. nra. }
    pose proof (pow2_ge_0 x). pose proof (pow2_ge_0 y). rewrite <- (pow2_abs s). nra.
Qed.
Lemma ferrers_outside d ps off t x y : sensible3 FerrersBar3D d ps off ->
  nth (5 + off) ps 0 <= 1 -> nth (6 + off) ps 0 <= 1 -> (nth (4 + off) ps 0 * pixelScaling d) ^ 2 <= x ^ 2 + y ^ 2 ->
  column FerrersBar3D d ps off t x y = 0.
Proof.
  intros S Q1 Q2 H. unfold column. rewrite (RInt_ext _ (fun _ => 0)).
  - rewrite RInt_const. unfold scal. simpl. unfold mult. simpl. ring.
  - intros s _. apply ferrers_dark; auto. pose proof (pow2_ge_0 s). lra.
Qed.

(** a disc: what lies beyond the reach of the integral *)
Lemma disc_bound J h n z0 r z s : 0 <= J -> 0 < n -> 0 < z0 <= h -> 0 <= r -> s ^ 2 <= r ^ 2 + z ^ 2 ->
  exponential_disc J h n z0 r z <= J * Rpower 2 (2 / n) * exp (- Rabs s / h).
Proof.
  intros HJ Hn Hz Hr Hs. unfold exponential_disc, sech_profile.
  assert (H2 : 0 < 2 / n) by (apply Rdiv_lt_0_compat; lra).
  rewrite !Rmult_assoc. apply Rmult_le_compat_l; auto.
  assert (V : Rpower (1 / cosh (n * z / (2 * z0))) (2 / n) <= Rpower 2 (2 / n) * exp (- Rabs z / z0)).
  { replace (exp (- Rabs z / z0)) with (Rpower (exp (- Rabs (n * z / (2 * z0)))) (2 / n)).
    - rewrite Rpower_mult_distr by (try lra; apply exp_pos). apply Rle_Rpower_l; [lra|].
      set (t := n * z / (2 * z0)). pose proof (cosh_pos t). split; [apply Rdiv_lt_0_compat; lra|].
      apply Rmult_le_reg_r with (cosh t); auto. unfold Rdiv. rewrite Rmult_assoc, Rinv_l by lra.
      unfold cosh. assert (E : exp (Rabs t) <= exp t + exp (- t)).
      { unfold Rabs. destruct (Rcase_abs t); pose proof (exp_pos t); pose proof (exp_pos (- t)); lra. }
      pose proof (exp_pos (- Rabs t)). assert (M : exp (- Rabs t) * exp (Rabs t) = 1) by (rewrite <- exp_plus, Rplus_opp_l; apply exp_0). nra.
    - unfold Rpower. rewrite ln_exp. f_equal. unfold Rdiv at 2. rewrite !Rabs_mult, (Rabs_pos_eq n) by lra.
      rewrite (Rabs_pos_eq (/ (2 * z0))) by (apply Rlt_le, Rinv_0_lt_compat; lra). field. lra. }
  apply Rle_trans with (exp (- r / h) * (Rpower 2 (2 / n) * exp (- Rabs z / z0))).
  { apply Rmult_le_compat_l; [apply Rlt_le, exp_pos|exact V]. }
  rewrite <- Rmult_assoc, (Rmult_comm (exp (- r / h))), Rmult_assoc. apply Rmult_le_compat_l; [apply Rlt_le, Rpower_pos|].
  rewrite <- exp_plus. apply exp_le.
  assert (A : Rabs s <= r + Rabs z).
  { assert (Rabs z ^ 2 = z ^ 2) by apply pow2_abs. assert (Rabs s ^ 2 = s ^ 2) by apply pow2_abs.
    pose proof (Rabs_pos z). pose proof (Rabs_pos s). nra. }
  assert (B : Rabs z / h <= Rabs z / z0).
  { unfold Rdiv. apply Rmult_le_compat_l; [apply Rabs_pos|]. apply Rinv_le_contravar; lra. }
  assert (C : Rabs s / h <= (r + Rabs z) / h).
  { unfold Rdiv. apply Rmult_le_compat_r; auto. apply Rlt_le, Rinv_0_lt_compat; lra. }
  unfold Rdiv in *. lra.
Qed.
Lemma tail_exp (c a b : R) : c <> 0 -> RInt (fun s => exp (s / c)) a b = c * (exp (b / c) - exp (a / c)).
Proof.
  intros Hh. apply is_RInt_unique.
  replace (c * (exp (b / c) - exp (a / c))) with (minus ((fun s => c * exp (s / c)) b) ((fun s => c * exp (s / c)) a))
    by (unfold minus, plus, opp; simpl; ring).
  apply (is_RInt_derive (fun s => c * exp (s / c))).
  - intros s _. auto_derive; auto. unfold Rdiv. field. auto.
  - intros s _. revert s. change (cont (fun s => exp (s / c))). conts.
Qed.
Lemma norm_disc phi i v : dot v (nodes phi) ^ 2 + dot v (across phi i) ^ 2 + dot v (pole phi i) ^ 2 = dot v v.
Proof.
  rewrite <- (norm_frame phi i 0 v). f_equal. f_equal; f_equal; unfold dot, in_plane, combine; cbn [vx vy vz].
  - rewrite cos_0, sin_0. ring.
  - rewrite Rplus_0_l, cos_PI2, sin_PI2. ring.
Qed.
Lemma disc_whole d ps off t x y a : sensible3 ExponentialDisk3D d ps off ->
  let p i := nth (i + off) ps 0 in
  p 5%nat * pixelScaling d <= p 3%nat * pixelScaling d -> reach ExponentialDisk3D d ps off <= a ->
  0 <= RInt (fun s => luminosity ExponentialDisk3D d ps off t (mkvec x y s)) (- a) a - column ExponentialDisk3D d ps off t x y
    <= 2 * Rpower 2 (2 / p 4%nat) * exp (-20) * (p 2%nat * intensityScale d) * (p 3%nat * pixelScaling d).
Proof.
  intros S p Hzh Ha. pose proof (@lum_integrable ExponentialDisk3D d ps off x y t S) as F.
  pose proof (fun v => @lum_nonneg ExponentialDisk3D d ps off t v S) as Pos.
  destruct S as (HJ & Hh & Hn & Hz). fold (p 2%nat) (p 3%nat) (p 4%nat) (p 5%nat) in *.
  unfold column. cbn [reach] in *. fold (p 3%nat) in *. set (h := p 3%nat * pixelScaling d) in *. set (z0 := p 5%nat * pixelScaling d) in *.
  set (J := p 2%nat * intensityScale d) in *. set (n := p 4%nat) in *.
  set (f := fun s => luminosity ExponentialDisk3D d ps off t (mkvec x y s)) in *. set (L := 20 * h) in *.
  set (C := J * Rpower 2 (2 / n)).
  assert (HC : 0 <= C) by (apply Rmult_le_pos; [auto|apply Rlt_le, Rpower_pos]).
  assert (B : forall s, f s <= C * exp (- Rabs s / h)).
  { intros s. unfold f, luminosity. cbv zeta. apply disc_bound; auto; try lra; [apply sqrt_pos|].
    rewrite <- (Rsqr_pow2 (sqrt _)), Rsqr_sqrt by (apply Rplus_le_le_0_compat; apply pow2_ge_0).
    rewrite norm_disc. unfold dot. cbn [vx vy vz]. pose proof (pow2_ge_0 x). pose proof (pow2_ge_0 y). nra. }
  assert (E : RInt f (- a) a - RInt f (- L) L = RInt f (- a) (- L) + RInt f L a).
  { rewrite <- (RInt_Chasles f (- a) (- L) a) by apply F. rewrite <- (RInt_Chasles f (- L) L a) by apply F.
    unfold plus. simpl. ring. }
  rewrite E. assert (HL : 0 < L) by (unfold L; lra).
  assert (I : forall c, c <> 0 -> integrable (fun s => C * exp (s / c))).
  { intros c Hc. apply cont_integrable. conts. }
  assert (V : forall c u v, c <> 0 -> RInt (fun s => C * exp (s / c)) u v = C * (c * (exp (v / c) - exp (u / c)))).
  { intros c u v Hc. rewrite <- tail_exp by auto. rewrite (RInt_scal (fun s => exp (s / c))); [reflexivity|].
    apply cont_integrable. conts. }
  assert (EL : exp (- L / h) = exp (-20)) by (f_equal; unfold L; field; lra).
  pose proof (exp_pos (- a / h)) as PA.
  assert (U1 : RInt f (- a) (- L) <= C * (h * exp (-20))).
  { apply Rle_trans with (RInt (fun s => C * exp (s / h)) (- a) (- L)).
    - apply RInt_le; try lra; [apply F|apply I; lra|]. intros s Hs. eapply Rle_trans; [apply B|].
      rewrite Rabs_left by lra. rewrite Ropp_involutive. lra.
    - rewrite V, EL by lra. apply Rmult_le_compat_l; auto. apply Rmult_le_compat_l; lra. }
  assert (U2 : RInt f L a <= C * (h * exp (-20))).
  { apply Rle_trans with (RInt (fun s => C * exp (s / - h)) L a).
    - apply RInt_le; try lra; [apply F|apply I; lra|]. intros s Hs. eapply Rle_trans; [apply B|].
      rewrite Rabs_pos_eq by lra. apply Req_le. do 2 f_equal. field. lra.
    - rewrite V by lra. replace (L / - h) with (- L / h) by (field; lra). replace (a / - h) with (- a / h) by (field; lra).
      rewrite EL. apply Rmult_le_compat_l; auto. assert (0 < h * exp (- a / h)) by (apply Rmult_lt_0_compat; auto). lra. }
  assert (L1 : 0 <= RInt f (- a) (- L)) by (apply RInt_ge_0; [lra|apply F|intros; apply Pos]).
  assert (L2 : 0 <= RInt f L a) by (apply RInt_ge_0; [lra|apply F|intros; apply Pos]).
  split; [lra|]. unfold C in *. lra.
Qed.

(** a ring of radius 0 *)
Lemma ring_point d ps off t x y : nth (5 + off) ps 0 = 0 -> column GaussianRing3D d ps off t x y = 0.
Proof.
  intros H. unfold column, reach. rewrite H, Rmult_0_l, Rmult_0_r, Ropp_0. match goal with |- RInt ?f 0 0 = _ => exact (@RInt_point R_CompleteNormedModule 0 f) end.
Qed.
