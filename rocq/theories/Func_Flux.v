(** Total fluxes (C23). *)
From Coq Require Import Reals Lra Lia List ZArith.
From Coquelicot Require Import Coquelicot.
From Verif Require Import Func_Spec Func_Proof Func_Sym Func_Profile.
Set Implicit Arguments. Unset Strict Implicit.
Local Open Scope R_scope.

(** improper integral from an antiderivative with a limit at infinity *)
Lemma int_ray (f G : R -> R) (l : R) :
  (forall x, is_derive G x (f x)) -> (forall x, continuous f x) -> is_lim G p_infty l ->
  is_RInt_gen f (at_point 0) (Rbar_locally p_infty) (l - G 0).
Proof.
  intros D C Hl P HP. unfold is_lim in Hl.
  assert (Hm : filterlim (fun b => G b - G 0) (Rbar_locally p_infty) (locally (l - G 0))).
  { apply (@filterlim_comp _ _ _ G (fun z => z - G 0) _ (Rbar_locally l)); [exact Hl|].
    apply (@continuous_minus _ R_AbsRing R_NormedModule (fun z => z) (fun _ => G 0)).
    - apply continuous_id. - apply continuous_const. }
  specialize (Hm P HP). unfold filtermap in Hm. unfold filtermapi.
  apply (Filter_prod (at_point 0) (Rbar_locally p_infty) _ (fun x => x = 0) (fun b => P (G b - G 0))); auto.
  - reflexivity.
  - intros x b -> Hb. exists (G b - G 0). split; auto. cbn [fst snd].
    apply (@is_RInt_derive R_CompleteNormedModule G f 0 b); intros; auto.
Qed.

Lemma exp_ge_sq x : 0 <= x -> (1 + x / 2) * (1 + x / 2) <= exp x.
Proof.
  intros H. replace x with (x / 2 + x / 2) at 3 by lra. rewrite exp_plus.
  assert (1 + x / 2 <= exp (x / 2)).
  { destruct (Req_dec x 0) as [->|N]. - replace (0 / 2) with 0 by lra. rewrite exp_0. lra.
    - left. apply exp_ineq1. lra. }
  nra.
Qed.

(** a quantity bounded by C / x tends to 0 *)
Lemma lim_bound (G : R -> R) C : 0 < C -> (forall x, 1 <= x -> Rabs (G x) <= C / x) -> is_lim G p_infty 0.
Proof.
  intros HC H. apply is_lim_spec. intros eps. destruct eps as [e He]. cbn [pos].
  exists (1 + C / e). intros x Hx'. assert (P : 0 < C / e) by (apply Rdiv_lt_0_compat; lra). assert (Hx : C / e < x) by lra.
  rewrite Rminus_0_r. apply Rle_lt_trans with (C / x); [apply H; lra|].
  apply Rmult_lt_reg_r with x; [lra|]. unfold Rdiv at 1. rewrite Rmult_assoc, Rinv_l by lra.
  apply Rmult_lt_compat_r with (r := e) in Hx; auto. unfold Rdiv in Hx. rewrite Rmult_assoc, Rinv_l in Hx by lra. lra.
Qed.

Lemma ray_exponential I k : 0 < k ->
  is_RInt_gen (fun r => I * exp (- (k * r)) * r) (at_point 0) (Rbar_locally p_infty) (I / (k * k)).
Proof.
  intros Hk. set (G := fun r => - (I * exp (- (k * r)) * (r / k + 1 / (k * k)))).
  replace (I / (k * k)) with (0 - G 0).
  2:{ unfold G. rewrite Rmult_0_r, Ropp_0, exp_0. field. lra. }
  apply int_ray.
  - intros x. unfold G. auto_derive; auto. field. lra.
  - intros x. apply (@ex_derive_continuous R_AbsRing R_NormedModule _ x). auto_derive; auto.
  - apply lim_bound with (4 * (Rabs I + 1) / (k * k * k)).
    { pose proof (Rabs_pos I). apply Rdiv_lt_0_compat; [lra|]. apply Rmult_lt_0_compat; nra. }
    intros x Hx. unfold G. rewrite Rabs_Ropp, !Rabs_mult.
    rewrite (Rabs_pos_eq (exp _)) by (apply Rlt_le, exp_pos).
    assert (P1 : 0 < x / k + 1 / (k * k)).
    { apply Rplus_lt_0_compat; apply Rdiv_lt_0_compat; nra. }
    rewrite (Rabs_pos_eq (x / k + 1 / (k * k))) by lra.
    assert (Hx0 : 0 < x) by lra. assert (Hy : 0 < k * x) by nra. pose proof (@exp_ge_sq (k * x) ltac:(lra)) as E. rewrite exp_Ropp.
    set (y := k * x) in *. set (s := exp y) in *. assert (Ps : 0 < s) by apply exp_pos.
    replace (x / k + 1 / (k * k)) with ((y + 1) / (k * k)) by (unfold y; field; lra).
    assert (B : / s * (y + 1) <= 4 / y).
    { apply Rmult_le_reg_l with s; auto. rewrite <- Rmult_assoc, Rinv_r, Rmult_1_l by lra.
      apply Rmult_le_reg_r with y; auto. unfold Rdiv. rewrite !Rmult_assoc, Rinv_l by lra. nra. }
    pose proof (Rabs_pos I) as PI0.
    replace (4 * (Rabs I + 1) / (k * k * k) / x) with ((Rabs I + 1) * (4 / y) / (k * k)) by (unfold y; field; lra).
    replace (Rabs I * / s * ((y + 1) / (k * k))) with (Rabs I * (/ s * (y + 1)) / (k * k)) by (field; lra).
    apply Rmult_le_compat_r; [left; apply Rinv_0_lt_compat; nra|].
    apply Rmult_le_compat; auto; try lra. apply Rmult_le_pos; [left; now apply Rinv_0_lt_compat|lra].
Qed.

Lemma ray_gaussian I k : 0 < k ->
  is_RInt_gen (fun r => I * exp (- (k * (r * r))) * r) (at_point 0) (Rbar_locally p_infty) (I / (2 * k)).
Proof.
  intros Hk. set (G := fun r => - (I * exp (- (k * (r * r))) / (2 * k))).
  replace (I / (2 * k)) with (0 - G 0).
  2:{ unfold G. rewrite !Rmult_0_r, Ropp_0, exp_0. field. lra. }
  apply int_ray.
  - intros x. unfold G. auto_derive; auto. field. lra.
  - intros x. apply (@ex_derive_continuous R_AbsRing R_NormedModule _ x). auto_derive; auto.
  - apply lim_bound with ((Rabs I + 1) / (k * k)).
    { pose proof (Rabs_pos I). apply Rdiv_lt_0_compat; [lra|]. nra. }
    intros x Hx. unfold G. unfold Rdiv at 1. rewrite Rabs_Ropp, !Rabs_mult.
    rewrite (Rabs_pos_eq (exp _)) by (apply Rlt_le, exp_pos). rewrite (Rabs_pos_eq (/ (2 * k))) by (left; apply Rinv_0_lt_compat; lra).
    assert (Hy : 0 < k * (x * x)) by (apply Rmult_lt_0_compat; nra). rewrite exp_Ropp.
    assert (E : 1 + k * (x * x) < exp (k * (x * x))) by (apply exp_ineq1; lra).
    set (s := exp _) in *. assert (Ps : 0 < s) by apply exp_pos. pose proof (Rabs_pos I) as PI0.
    assert (K : / s * / (2 * k) <= 1 / (k * k) / x).
    { apply Rle_trans with (/ (k * x) * / k).
      - apply Rmult_le_compat; try (left; apply Rinv_0_lt_compat; lra).
        + apply Rinv_le_contravar; nra.
        + apply Rinv_le_contravar; lra.
      - right. field. lra. }
    replace ((Rabs I + 1) / (k * k) / x) with ((Rabs I + 1) * (1 / (k * k) / x)) by (field; lra).
    rewrite Rmult_assoc. apply Rmult_le_compat; auto; try lra.
    apply Rmult_le_pos; left; apply Rinv_0_lt_compat; lra.
Qed.

(** ---- the angular integral ---- *)

Lemma angle_deriv q phi th : 0 < q ->
  is_derive (fun t => q * (t + atan ((1 - q) * sin (t - phi) * cos (t - phi) / (q * (cos (t - phi) * cos (t - phi)) + sin (t - phi) * sin (t - phi))))) th
    (1 / (cos (th - phi) * cos (th - phi) + sin (th - phi) / q * (sin (th - phi) / q))).
Proof.
  intros Hq. pose proof (sin2_cos2 (th - phi)) as S. unfold Rsqr in S.
  assert (D : 0 < q * (cos (th - phi) * cos (th - phi)) + sin (th - phi) * sin (th - phi)).
  { set (c := cos _) in *. set (s := sin _) in *. destruct (Req_dec s 0) as [->|N]; [nra|]. assert (0 < s * s) by nra. nra. }
  assert (D2 : 0 < q * q * (cos (th - phi) * cos (th - phi)) + sin (th - phi) * sin (th - phi)).
  { set (c := cos _) in *. set (s := sin _) in *. destruct (Req_dec s 0) as [->|N]; [assert (c * c = 1) by lra; rewrite H; nra|]. assert (0 < s * s) by nra. nra. }
  auto_derive.
  - replace (th + - phi) with (th - phi) by ring. lra.
  - replace (th + - phi) with (th - phi) by ring.
    set (c := cos (th - phi)) in *. set (s := sin (th - phi)) in *.
    assert (Hs : s * s = 1 - c * c) by lra.
    assert (N : (1 - q) * s * c * ((1 - q) * s * c) + (q * (c * c) + s * s) * (q * (c * c) + s * s) = q * q * (c * c) + s * s).
    { transitivity ((q * q * (c * c) + s * s) * (s * s + c * c)); [ring|rewrite S; ring]. }
    assert (N' : (1 - q) * (c * c - s * s) * (q * (c * c) + s * s) - (1 - q) * s * c * (2 * (1 - q) * s * c) = (1 - q) * (q * (c * c) - s * s)).
    { transitivity ((1 - q) * (q * (c * c) - s * s) * (s * s + c * c)); [ring|rewrite S; ring]. }
    set (M := q * q * (c * c) + s * s) in *.
    assert (ER : 1 / (c * c + s / q * (s / q)) = q * q / M).
    { assert (c * c + s / q * (s / q) = M / (q * q)) as -> by (unfold M; field; lra). field. split; lra. }
    rewrite ER. set (D0 := q * (c * c) + s * s) in *. set (N0 := (1 - q) * s * c) in *.
    transitivity (q * (1 + ((1 - q) * (c * c - s * s) * D0 - N0 * (2 * (1 - q) * s * c)) / (N0 * N0 + D0 * D0))).
    + assert (N0 * N0 + D0 * D0 <> 0) by nra. field. repeat split; nra.
    + rewrite N, N'. 
      transitivity (q * (M + (1 - q) * (q * (c * c) - s * s)) / M); [field; lra|].
      replace (M + (1 - q) * (q * (c * c) - s * s)) with (q * (s * s + c * c)) by (unfold M; ring). rewrite S. field. lra.
Qed.

Lemma angle_integral q phi C : 0 < q ->
  is_RInt (fun t => C / (cos (t - phi) * cos (t - phi) + sin (t - phi) / q * (sin (t - phi) / q))) 0 (2 * PI) (C * (2 * PI * q)).
Proof.
  intros Hq.
  assert (Pos : forall t, 0 < cos (t - phi) * cos (t - phi) + sin (t - phi) / q * (sin (t - phi) / q)).
  { intros t. pose proof (sin2_cos2 (t - phi)) as S. unfold Rsqr in S. set (c := cos _) in *. set (s := sin _) in *.
    assert (Iq : 0 < / q) by now apply Rinv_0_lt_compat.
    destruct (Req_dec s 0) as [E|N]. - rewrite E in *. unfold Rdiv. rewrite !Rmult_0_l. nra.
    - assert (s / q <> 0) by (unfold Rdiv; apply Rmult_integral_contrapositive; split; lra). nra. }
  set (F := fun t => q * (t + atan ((1 - q) * sin (t - phi) * cos (t - phi) / (q * (cos (t - phi) * cos (t - phi)) + sin (t - phi) * sin (t - phi))))).
  set (f := fun t => 1 / (cos (t - phi) * cos (t - phi) + sin (t - phi) / q * (sin (t - phi) / q))).
  assert (HI : is_RInt f 0 (2 * PI) (2 * PI * q)).
  { replace (2 * PI * q) with (minus (F (2 * PI)) (F 0)).
    - apply (@is_RInt_derive R_CompleteNormedModule F f).
      + intros t _. now apply angle_deriv.
      + intros t _. apply (@ex_derive_continuous R_AbsRing R_NormedModule f t). unfold f. auto_derive.
        specialize (Pos t). replace (t + - phi) with (t - phi) by ring. lra.
    - unfold minus, plus, opp, F. cbn.
      replace (2 * PI - phi) with (- phi + 2 * PI) by ring. rewrite (sin_plus (- phi)), (cos_plus (- phi)), cos_2PI, sin_2PI.
      rewrite !Rmult_1_r, !Rmult_0_r, Rplus_0_r, Rminus_0_r. replace (0 - phi) with (- phi) by ring. ring. }
  apply (is_RInt_ext (fun t => scal C (f t))).
  - intros t _. unfold f, scal. cbn. unfold mult. cbn. unfold Rdiv. ring.
  - replace (C * (2 * PI * q)) with (scal C (2 * PI * q)) by reflexivity. now apply (@is_RInt_scal R_NormedModule).
Qed.

(** ---- the two profiles ---- *)

(** radius of the point at distance r in direction theta *)
Lemma radius_on_ray PA q r th : 0 < q -> 0 <= r ->
  let psi := th - (PA + 90) * deg in
  elliptical_radius NumR PA q (r * cos th) (r * sin th) = r * sqrt (cos psi * cos psi + sin psi / q * (sin psi / q)).
Proof.
  intros Hq Hr psi. unfold elliptical_radius, cosPA, sinPA. cbn [nadd nmul ndiv nneg nsqrt ncos nsin nofZ NumR].
  rewrite deg_eq. set (phi := (PA + 90) * deg) in *.
  assert (E1 : r * cos th * cos phi + r * sin th * sin phi = r * cos psi) by (unfold psi; rewrite cos_minus; ring).
  assert (E2 : - (r * cos th) * sin phi + r * sin th * cos phi = r * sin psi) by (unfold psi; rewrite sin_minus; ring).
  rewrite E1, E2.
  replace (r * cos psi * (r * cos psi) + r * sin psi / q * (r * sin psi / q)) with
    (r * r * (cos psi * cos psi + sin psi / q * (sin psi / q))) by (field; lra).
  rewrite sqrt_mult_alt by nra. rewrite sqrt_square by auto. reflexivity.
Qed.

Lemma rho_pos q psi : 0 < q -> 0 < cos psi * cos psi + sin psi / q * (sin psi / q).
Proof.
  intros Hq. pose proof (sin2_cos2 psi) as S. unfold Rsqr in S.
  destruct (Req_dec (sin psi) 0) as [E|N].
  - rewrite E in *. unfold Rdiv. rewrite !Rmult_0_l. nra.
  - assert (sin psi / q <> 0).
    { unfold Rdiv. apply Rmult_integral_contrapositive. split; auto. apply Rinv_neq_0_compat. lra. }
    assert (0 < sin psi / q * (sin psi / q)) by (destruct (Rdichotomy _ _ H); nra). nra.
Qed.

(** a ray integral only looks at positive radii *)
Lemma ray_ext (f g : R -> R) l : (forall r, 0 <= r -> f r = g r) ->
  is_RInt_gen f (at_point 0) (Rbar_locally p_infty) l -> is_RInt_gen g (at_point 0) (Rbar_locally p_infty) l.
Proof.
  intros E H. apply (is_RInt_gen_ext f); auto.
  apply (Filter_prod (at_point 0) (Rbar_locally p_infty) _ (fun x => x = 0) (fun b => 0 < b)).
  - reflexivity. - exists 0. auto.
  - intros x y -> Hy z. cbn [fst snd]. rewrite Rmin_left, Rmax_right by lra. intros. apply E. lra.
Qed.

Lemma flux_shape xc yc PA ell (I : R -> R) ns C : ell < 1 ->
  (forall rho, 0 < rho -> is_RInt_gen (fun r => I (r * rho) * r) (at_point 0) (Rbar_locally p_infty) (C / (rho * rho))) ->
  plane_integral (plain (elliptical NumR xc yc PA ell I ns)) xc yc (C * (2 * PI * (1 - ell))).
Proof.
  intros He HI. set (q := 1 - ell). assert (Hq : 0 < q) by (unfold q; lra).
  set (phi := (PA + 90) * deg).
  exists (fun t => C / (cos (t - phi) * cos (t - phi) + sin (t - phi) / q * (sin (t - phi) / q))). split.
  - intros th. pose proof (rho_pos (th - phi) Hq) as P. set (w := cos (th - phi) * cos (th - phi) + _) in *.
    assert (Pw : 0 < sqrt w) by now apply sqrt_lt_R0.
    replace w with (sqrt w * sqrt w) by (apply sqrt_sqrt; lra).
    apply ray_ext with (2 := HI (sqrt w) Pw). intros r Hr. unfold plain. cbn [elliptical ob_point ob_x0 ob_y0].
    replace (xc + r * cos th - xc) with (r * cos th) by ring. replace (yc + r * sin th - yc) with (r * sin th) by ring.
    change (nsub NumR (nofZ NumR 1) ell) with q. rewrite radius_on_ray by auto. reflexivity.
  - now apply angle_integral.
Qed.

Lemma Exp_rays I h rho : 0 < h -> 0 < rho ->
  is_RInt_gen (fun r => Exp_intensity NumR I h (r * rho) * r) (at_point 0) (Rbar_locally p_infty) (I * h * h / (rho * rho)).
Proof.
  intros Hh Hr. assert (Hk : 0 < rho / h) by now apply Rdiv_lt_0_compat.
  replace (I * h * h / (rho * rho)) with (I / (rho / h * (rho / h))) by (field; lra).
  apply ray_ext with (2 := @ray_exponential I _ Hk). intros r _. unfold Exp_intensity. cbn [nmul nexp ndiv nneg NumR].
  do 3 f_equal. field. lra.
Qed.
Lemma Gaussian_rays I s rho : 0 < s -> 0 < rho ->
  is_RInt_gen (fun r => Gaussian_intensity NumR I (2 * s * s) (r * rho) * r) (at_point 0) (Rbar_locally p_infty) (I * s * s / (rho * rho)).
Proof.
  intros Hs Hr. assert (Hk : 0 < rho * rho / (2 * s * s)) by (apply Rdiv_lt_0_compat; nra).
  replace (I * s * s / (rho * rho)) with (I / (2 * (rho * rho / (2 * s * s)))) by (field; lra).
  apply ray_ext with (2 := @ray_gaussian I _ Hk). intros r _. unfold Gaussian_intensity. cbn [nmul nexp ndiv nneg NumR].
  do 3 f_equal. field. lra.
Qed.

Lemma flux_const A : Rabs (A * PI_const NumR - A * PI) <= 2 / 10 ^ 15 * Rabs (A * PI).
Proof.
  rewrite <- Rmult_minus_distr_l, !Rabs_mult.
  assert (B : Rabs (PI_const NumR - PI) <= 2 / 10 ^ 15 * Rabs PI).
  { destruct PI_digits as (L & U). unfold PI_const. cbn [ndec NumR]. change (IZR (10 ^ 14)) with 100000000000000.
    rewrite (Rabs_pos_eq PI) by lra. rewrite Rabs_left by lra. cbn [pow] in *. lra. }
  pose proof (Rabs_pos A). nra.
Qed.

Lemma C23_exponential_proof K1 d ps off xc yc :
  (off + 4 <= length ps)%nat -> nth (1 + off) ps 0 < 1 -> 0 < nth (3 + off) ps 0 * pixelScaling d ->
  exists f flux total,
    plain_image (value_at NumR K1 Exponential d ps off xc yc) f /\ plane_integral f xc yc total /\
    TotalFlux_Exponential NumR d ps off = Ok flux /\ Rabs (flux - total) <= 2 / 10 ^ 15 * Rabs total.
Proof.
  intros L He Hh. destruct (@Setup_total _ NumR K1 Exponential d ps off xc yc L) as (o & E).
  pose proof (Setup_plain E) as Pl.
  assert (V : plain_image (value_at NumR K1 Exponential d ps off xc yc) (plain o)).
  { intros x y. unfold value_at. rewrite E. apply Pl. }
  open_setup E. subst o. unfold TotalFlux_Exponential.
  repeat match goal with H : get ps _ = Ok _ |- _ => rewrite H; cbn [bind] end. nths. cbn [Nat.add] in *.
  set (I := nth (S (S off)) ps 0 * intensityScale d). set (h := nth (S (S (S off))) ps 0 * pixelScaling d) in *.
  eexists. eexists. eexists. split; [exact V|]. split.
  - apply (@flux_shape _ _ _ _ _ _ (I * h * h) He). intros rho Hr. now apply Exp_rays.
  - split; [reflexivity|]. cbn [nmul nsub nofZ NumR].
    match goal with |- Rabs (?a - ?b) <= _ =>
      replace a with (2 * (1 - nth (S off) ps 0) * (I * h * h) * PI_const NumR) by (fold I; fold h; ring);
      replace b with (2 * (1 - nth (S off) ps 0) * (I * h * h) * PI) by ring end.
    apply flux_const.
Qed.

Lemma C23_gaussian_proof K1 d ps off xc yc :
  (off + 4 <= length ps)%nat -> nth (1 + off) ps 0 < 1 -> 0 < nth (3 + off) ps 0 * pixelScaling d ->
  exists f flux total,
    plain_image (value_at NumR K1 Gaussian d ps off xc yc) f /\ plane_integral f xc yc total /\
    TotalFlux_Gaussian NumR d ps off = Ok flux /\ Rabs (flux - total) <= 2 / 10 ^ 15 * Rabs total.
Proof.
  intros L He Hh. destruct (@Setup_total _ NumR K1 Gaussian d ps off xc yc L) as (o & E).
  pose proof (Setup_plain E) as Pl.
  assert (V : plain_image (value_at NumR K1 Gaussian d ps off xc yc) (plain o)).
  { intros x y. unfold value_at. rewrite E. apply Pl. }
  open_setup E. subst o. unfold TotalFlux_Gaussian.
  repeat match goal with H : get ps _ = Ok _ |- _ => rewrite H; cbn [bind] end. nths. cbn [Nat.add] in *.
  set (I := nth (S (S off)) ps 0 * intensityScale d). set (h := nth (S (S (S off))) ps 0 * pixelScaling d) in *.
  eexists. eexists. eexists. split; [exact V|]. split.
  - apply (@flux_shape _ _ _ _ _ _ (I * h * h) He). intros rho Hr. now apply Gaussian_rays.
  - split; [reflexivity|]. cbn [nmul nsub nofZ NumR].
    match goal with |- Rabs (?a - ?b) <= _ =>
      replace a with (2 * (1 - nth (S off) ps 0) * (I * h * h) * PI_const NumR) by (fold I; fold h; ring);
      replace b with (2 * (1 - nth (S off) ps 0) * (I * h * h) * PI) by ring end.
    apply flux_const.
Qed.
