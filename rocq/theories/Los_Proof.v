(** Proofs about line-of-sight integration: the integrand is the documented luminosity
    density, up to the guards against overflow, and is integrable. *)
From Coq Require Import Reals Lra Lia List ZArith.
From Coquelicot Require Import Coquelicot.
From Verif Require Import Los_Spec Func_Proof Func_Profile.
Import ListNotations.
Set Implicit Arguments. Unset Strict Implicit.
Local Open Scope R_scope.

(** ---- continuity ---- *)

Definition cont (f : R -> R) : Prop := forall s, continuous f s.
Lemma cont_const c : cont (fun _ => c). Proof. intros s. apply continuous_const. Qed.
Lemma cont_id : cont (fun s => s). Proof. intros s. apply continuous_id. Qed.
Lemma cont_plus f g : cont f -> cont g -> cont (fun s => f s + g s).
Proof. intros F G s. apply (continuous_plus f g); auto. Qed.
Lemma cont_mult f g : cont f -> cont g -> cont (fun s => f s * g s).
Proof. intros F G s. apply (continuous_mult f g); auto. Qed.
Lemma cont_opp f : cont f -> cont (fun s => - f s).
Proof. intros F s. apply (continuous_opp f); auto. Qed.
Lemma cont_minus f g : cont f -> cont g -> cont (fun s => f s - g s).
Proof. intros F G s. apply (continuous_minus f g); auto. Qed.
Lemma cont_comp f g : cont f -> cont g -> cont (fun s => g (f s)).
Proof. intros F G s. apply (continuous_comp f g); auto. Qed.
Lemma cont_pt (f : R -> R) : continuity f -> cont f.
Proof. intros H s. apply continuity_pt_filterlim. apply H. Qed.
Lemma cont_exp f : cont f -> cont (fun s => exp (f s)).
Proof. intros F. apply cont_comp with (g := exp); auto. apply cont_pt. apply derivable_continuous, derivable_exp. Qed.
Lemma cont_abs f : cont f -> cont (fun s => Rabs (f s)).
Proof. intros F. apply cont_comp with (g := Rabs); auto. apply cont_pt. apply Rcontinuity_abs. Qed.
Lemma cont_sqrt f : cont f -> cont (fun s => sqrt (f s)).
Proof. intros F. apply cont_comp with (g := sqrt); auto. intros s. apply continuous_sqrt. Qed.
Lemma cont_inv f : cont f -> (forall s, f s <> 0) -> cont (fun s => / f s).
Proof. intros F H s. apply (continuous_Rinv_comp f); [apply F|apply H]. Qed.
Lemma cont_div f g : cont f -> cont g -> (forall s, g s <> 0) -> cont (fun s => f s / g s).
Proof. intros F G H. apply cont_mult; auto. now apply cont_inv. Qed.
Lemma cont_divc f c : cont f -> cont (fun s => f s / c).
Proof. intros F. apply cont_mult; auto. apply cont_const. Qed.
Lemma cont_pow f n : cont f -> cont (fun s => f s ^ n).
Proof. intros F. induction n; simpl; [apply cont_const|now apply cont_mult]. Qed.
Lemma cont_cosh f : cont f -> cont (fun s => cosh (f s)).
Proof. intros F. apply cont_comp with (g := cosh); auto. apply cont_pt. apply derivable_continuous, derivable_cosh. Qed.
Lemma cont_ln f : cont f -> (forall s, 0 < f s) -> cont (fun s => ln (f s)).
Proof.
  intros F H s. apply (continuous_comp f ln); [apply F|]. apply continuity_pt_filterlim.
  apply derivable_continuous_pt. exists (/ f s). now apply derivable_pt_lim_ln.
Qed.
Lemma cont_Rpower f e : cont f -> (forall s, 0 < f s) -> cont (fun s => Rpower (f s) e).
Proof. intros F H. unfold Rpower. apply cont_exp, cont_mult; [apply cont_const|now apply cont_ln]. Qed.
Lemma cont_ext f g : (forall s, f s = g s) -> cont f -> cont g.
Proof. intros E F s. apply continuous_ext with f; auto. Qed.

Lemma cont_root e : 0 < e -> cont (fun x => if Rle_dec x 0 then 0 else Rpower x e).
Proof.
  intros He x0. apply continuity_pt_filterlim. destruct (Rtotal_order x0 0) as [H|[H|H]].
  - apply continuity_pt_ext_loc with (fun _ => 0).
    + exists (mkposreal (- x0) ltac:(lra)). intros y Hy. unfold ball in Hy. simpl in Hy. unfold AbsRing_ball, abs, minus, plus, opp in Hy.
      simpl in Hy. destruct (Rle_dec y 0); auto. apply Rabs_def2 in Hy. lra.
    + apply continuity_pt_const. intros a b. reflexivity.
  - subst x0. intros eps Heps. exists (Rpower eps (1 / e)). split.
    + unfold Rpower. apply exp_pos.
    + intros x (_ & Hx). simpl in *. unfold R_dist in *. destruct (Rle_dec 0 0) as [_|N]; [|lra].
      rewrite Rminus_0_r in *. destruct (Rle_dec x 0).
      * rewrite Rabs_R0. lra.
      * rewrite Rabs_pos_eq in Hx by lra. rewrite Rabs_pos_eq by (apply Rlt_le, exp_pos).
        replace eps with (Rpower (Rpower eps (1 / e)) e).
        -- apply Rlt_Rpower_l; auto. lra.
        -- rewrite Rpower_mult. replace (1 / e * e) with 1 by (field; lra). apply Rpower_1. lra.
  - apply continuity_pt_ext_loc with (fun x => Rpower x e).
    + exists (mkposreal x0 H). intros y Hy. unfold ball in Hy. simpl in Hy. unfold AbsRing_ball, abs, minus, plus, opp in Hy.
      simpl in Hy. destruct (Rle_dec y 0); auto. apply Rabs_def2 in Hy. lra.
    + unfold Rpower. apply derivable_continuous_pt. apply derivable_pt_comp with (f1 := fun x => e * ln x) (f2 := exp).
      * apply derivable_pt_scal. exists (/ x0). now apply derivable_pt_lim_ln.
      * apply derivable_pt_exp.
Qed.
Lemma cont_Rpow f e : cont f -> (forall s, 0 <= f s) -> 0 < e -> cont (fun s => Rpow (f s) e).
Proof.
  intros F H He. apply cont_ext with (fun s => if Rle_dec (f s) 0 then 0 else Rpower (f s) e).
  - intros s. unfold Rpow. specialize (H s). destruct (Rle_dec (f s) 0), (Req_EM_T (f s) 0); try lra; auto.
    destruct (Req_EM_T e 0); lra.
  - apply cont_comp with (g := fun x => if Rle_dec x 0 then 0 else Rpower x e); auto. now apply cont_root.
Qed.
Lemma cosh_pos t : 0 < cosh t.
Proof. unfold cosh. pose proof (exp_pos t). pose proof (exp_pos (- t)). lra. Qed.
Lemma cont_sech f n z0 : cont f -> cont (fun s => sech_profile n z0 (f s)).
Proof.
  intros F. unfold sech_profile. apply cont_Rpower.
  - apply cont_div; [apply cont_const| |intros s; pose proof (cosh_pos (n * f s / (2 * z0))); lra].
    apply cont_cosh, cont_divc, cont_mult; auto. apply cont_const.
  - intros s. apply Rdiv_lt_0_compat; [lra|apply cosh_pos].
Qed.

Ltac cont1 := first [ assumption | match goal with
  | |- cont (fun s => s) => apply cont_id
  | |- cont (fun s => ?c) => apply cont_const
  | |- cont (fun s => sqrt _) => apply cont_sqrt
  | |- cont (fun s => exp _) => apply cont_exp
  | |- cont (fun s => Rabs _) => apply cont_abs
  | |- cont (fun s => cosh _) => apply cont_cosh
  | |- cont (fun s => _ ^ _) => apply cont_pow
  | |- cont (fun s => sech_profile _ _ _) => apply cont_sech
  | |- cont (fun s => - _) => apply cont_opp
  | |- cont (fun s => _ + _) => apply cont_plus
  | |- cont (fun s => _ - _) => apply cont_minus
  | |- cont (fun s => _ * _) => apply cont_mult
  | |- cont (fun s => _ / ?c) => apply cont_divc
  end ].
Ltac conts := repeat cont1.

(** ---- integrability of functions given by cases ---- *)

Definition integrable (f : R -> R) : Prop := forall a b, ex_RInt f a b.
Lemma cont_integrable f : cont f -> integrable f.
Proof. intros F a b. apply (@ex_RInt_continuous R_CompleteNormedModule). intros z _. apply F. Qed.
Lemma integrable_ext f g : (forall s, f s = g s) -> integrable f -> integrable g.
Proof. intros E F a b. apply ex_RInt_ext with f; auto. Qed.

Lemma half_line f g (a b c : R) : integrable f -> integrable g ->
  integrable (fun s => if Rlt_dec c (a + b * s) then f s else g s).
Proof.
  intros F G A B. destruct (Rtotal_order b 0) as [H|[H|H]].
  - set (t := (c - a) / b). assert (Et : a + b * t = c) by (unfold t; field; lra).
    assert (P : forall X, ex_RInt (fun s => if Rlt_dec c (a + b * s) then f s else g s) X t).
    { intros X. destruct (Rle_dec X t) as [L|L].
      - apply ex_RInt_ext with f; auto. intros s. rewrite Rmin_left, Rmax_right by lra. intros Hs.
        destruct (Rlt_dec c (a + b * s)) as [?|N]; auto. exfalso. apply N. nra.
      - apply ex_RInt_ext with g; auto. intros s. rewrite Rmin_right, Rmax_left by lra. intros Hs.
        destruct (Rlt_dec c (a + b * s)) as [?|N]; auto. exfalso. nra. }
    apply ex_RInt_Chasles with t; [apply P|apply ex_RInt_swap, P].
  - subst b. destruct (Rlt_dec c a).
    + apply ex_RInt_ext with f; auto. intros s _. destruct (Rlt_dec c (a + 0 * s)); auto. lra.
    + apply ex_RInt_ext with g; auto. intros s _. destruct (Rlt_dec c (a + 0 * s)); auto. lra.
  - set (t := (c - a) / b). assert (Et : a + b * t = c) by (unfold t; field; lra).
    assert (P : forall X, ex_RInt (fun s => if Rlt_dec c (a + b * s) then f s else g s) X t).
    { intros X. destruct (Rle_dec X t) as [L|L].
      - apply ex_RInt_ext with g; auto. intros s. rewrite Rmin_left, Rmax_right by lra. intros Hs.
        destruct (Rlt_dec c (a + b * s)) as [?|N]; auto. exfalso. nra.
      - apply ex_RInt_ext with f; auto. intros s. rewrite Rmin_right, Rmax_left by lra. intros Hs.
        destruct (Rlt_dec c (a + b * s)) as [?|N]; auto. exfalso. apply N. nra. }
    apply ex_RInt_Chasles with t; [apply P|apply ex_RInt_swap, P].
Qed.
(** the guard: |a + b s| exceeds a constant *)
Lemma slab f g (a b c : R) : integrable f -> integrable g ->
  integrable (fun s => if Rlt_dec c (Rabs (a + b * s)) then f s else g s).
Proof.
  intros F G. destruct (Rlt_dec c 0) as [C|C].
  - apply integrable_ext with f; auto. intros s. pose proof (Rabs_pos (a + b * s)).
    destruct (Rlt_dec c (Rabs (a + b * s))); auto. lra.
  - pose proof (@half_line f g (- a) (- b) c F G) as H1. pose proof (@half_line f _ a b c F H1) as H2.
    eapply integrable_ext; [|exact H2]. intros s. cbv beta.
    destruct (Rlt_dec c (a + b * s)) as [L|L].
    + destruct (Rlt_dec c (Rabs (a + b * s))) as [|N]; auto. exfalso. apply N. unfold Rabs. destruct (Rcase_abs (a + b * s)); lra.
    + destruct (Rlt_dec c (- a + - b * s)) as [L'|L'].
      * destruct (Rlt_dec c (Rabs (a + b * s))) as [|N]; auto. exfalso. apply N. unfold Rabs. destruct (Rcase_abs (a + b * s)); lra.
      * destruct (Rlt_dec c (Rabs (a + b * s))) as [N|]; auto. exfalso. revert N. unfold Rabs. destruct (Rcase_abs (a + b * s)); lra.
Qed.
(** the guard: the in-plane radius exceeds a constant *)
Lemma cylinder f g (x a b c : R) : integrable f -> integrable g ->
  integrable (fun s => if Rlt_dec c (sqrt (x * x + (a + b * s) * (a + b * s))) then f s else g s).
Proof.
  intros F G. destruct (Rlt_dec c 0) as [C|C].
  { apply integrable_ext with f; auto. intros s. pose proof (sqrt_pos (x * x + (a + b * s) * (a + b * s))).
    destruct (Rlt_dec c _); auto. lra. }
  destruct (Rlt_dec (c * c) (x * x)) as [D|D].
  { apply integrable_ext with f; auto. intros s. destruct (Rlt_dec c _) as [|N]; auto. exfalso. apply N.
    rewrite <- (sqrt_square c) by lra. pose proof (Rle_0_sqr (a + b * s)) as Q. unfold Rsqr in Q. apply sqrt_lt_1; nra. }
  pose proof (@slab f g a b (sqrt (c * c - x * x)) F G) as H.
  eapply integrable_ext; [|exact H]. intros s. cbv beta. set (y := a + b * s).
  assert (S : sqrt (c * c - x * x) * sqrt (c * c - x * x) = c * c - x * x) by (apply sqrt_sqrt; lra).
  pose proof (sqrt_pos (c * c - x * x)). pose proof (Rabs_pos y).
  assert (Y : Rabs y * Rabs y = y * y) by (rewrite <- Rabs_mult; apply Rabs_pos_eq; nra).
  assert (T : sqrt (x * x + y * y) * sqrt (x * x + y * y) = x * x + y * y) by (apply sqrt_sqrt; nra).
  pose proof (sqrt_pos (x * x + y * y)).
  destruct (Rlt_dec (sqrt (c * c - x * x)) (Rabs y)), (Rlt_dec c (sqrt (x * x + y * y))); auto; exfalso; nra.
Qed.

(** ---- the guards change little ---- *)

Lemma vertical_close n z0 z : 0 < n -> 0 < z0 -> exists e, Rabs e <= 2 / n * exp (-200) /\
  verticalScaling NumR (Rabs z) z0 (2 / n * z0) (Rpow 2 (2 / n)) (2 / n) = sech_profile n z0 z * exp e.
Proof.
  intros Hn Hz. unfold verticalScaling, sech_profile. cbn [nltb nadd nsub nmul ndiv nneg nexp npow ncosh neqb nofZ NumR].
  assert (H2 : 0 < 2 / n) by (apply Rdiv_lt_0_compat; lra).
  assert (Ec : cosh (n * z / (2 * z0)) = cosh (Rabs z / (2 / n * z0))).
  { replace (n * z / (2 * z0)) with (z / (2 / n * z0)) by (field; lra). unfold Rabs. destruct (Rcase_abs z); auto.
    replace (- z / (2 / n * z0)) with (- (z / (2 / n * z0))) by (field; lra). unfold cosh. rewrite Ropp_involutive. lra. }
  rewrite Ec. set (t := Rabs z / (2 / n * z0)). pose proof (cosh_pos t) as Pc.
  assert (Ps : 0 < 1 / cosh t) by (apply Rdiv_lt_0_compat; lra).
  unfold Rltb. destruct (Rlt_dec 100 t) as [G|G].
  - exists (2 / n * ln (1 + exp (- (2 * t)))). split.
    { rewrite Rabs_mult, (Rabs_pos_eq (2 / n)) by lra. apply Rmult_le_compat_l; [lra|].
      pose proof (ln_1p (exp_pos (- (2 * t)))). rewrite Rabs_pos_eq by lra.
      apply Rle_trans with (exp (- (2 * t))); [lra|]. apply exp_le. lra. }
    rewrite Rpow_eq by lra. unfold Rpower. rewrite <- !exp_plus. f_equal.
    assert (El : ln (1 / cosh t) = ln 2 - t - ln (1 + exp (- (2 * t)))).
    { replace (1 / cosh t) with (2 * (exp (- t) * / (1 + exp (- (2 * t))))).
      - rewrite ln_mult, ln_mult, ln_Rinv, ln_exp; try lra; try apply exp_pos; try apply exp1_pos.
        + apply Rinv_0_lt_compat, exp1_pos.
        + apply Rmult_lt_0_compat; [apply exp_pos|]. apply Rinv_0_lt_compat, exp1_pos.
      - unfold cosh. replace (exp t) with (/ exp (- t)) by (rewrite <- exp_Ropp; f_equal; ring).
        replace (- (2 * t)) with (- t + - t) by ring. rewrite exp_plus. pose proof (exp_pos (- t)).
        field. repeat split; nra. }
    rewrite El. replace (- Rabs z / z0) with (- (2 / n * t)) by (unfold t; field; lra). ring.
  - exists 0. rewrite Rabs_R0, exp_0, Rmult_1_r. split.
    + apply Rmult_le_pos; [lra|apply Rlt_le, exp_pos].
    + now rewrite Rpow_eq.
Qed.
Lemma radial_close I h1 h2 rb al r : al <> 0 ->
  let ex := 1 / al * (1 / h1 - 1 / h2) in
  exists e, Rabs e <= Rabs ex * exp (-100) /\
    (if Rltb 100 (al * (r - rb)) then I * Rpow (1 + exp (- al * rb)) (- ex) * exp (rb / h2 - rb / h1 - r / h2)
     else I * Rpow (1 + exp (- al * rb)) (- ex) * exp (- r / h1) * Rpow (1 + exp (al * (r - rb))) ex)
    = broken_exp I h1 h2 rb al r * exp e.
Proof.
  intros Ha ex. unfold broken_exp. fold ex. rewrite <- !Rpow_eq by apply exp1_pos.
  unfold Rltb. destruct (Rlt_dec 100 (al * (r - rb))) as [G|G].
  - destruct (@guard_factor _ ex G) as (x & Hx & Ex). exists x. split; auto.
    transitivity (I * Rpow (1 + exp (- al * rb)) (- ex) * (exp (- r / h1) * exp (al * (r - rb) * ex))).
    + rewrite <- exp_plus. do 2 f_equal. unfold ex, Rdiv.
      transitivity (- r * / h1 + (al * / al) * (r - rb) * (/ h1 - / h2)); [rewrite Rinv_r by auto; ring|ring].
    + rewrite Ex. ring.
  - exists 0. rewrite Rabs_R0, exp_0. split.
    + apply Rmult_le_pos; [apply Rabs_pos|apply Rlt_le, exp_pos].
    + ring.
Qed.
