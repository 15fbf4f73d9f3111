(** Proofs about the flat bar (func_flatbar.cpp): the profile, sub-sampling and symmetry. *)
From Coq Require Import Reals Lra Lia List ZArith.
From Verif Require Import Los_Spec Func_Proof Func_Profile Func_Image Los_Value Los_Column Los_Image.
Import ListNotations.
Set Implicit Arguments. Unset Strict Implicit.
Local Open Scope R_scope.

(** ---- the angle from the major axis ---- *)

Lemma deltaPA_acos u w : 0 < u ^ 2 + w ^ 2 ->
  deltaPA NumR u w = acos (Rabs u / sqrt (u ^ 2 + w ^ 2)) /\ 0 <= deltaPA NumR u w <= PI / 2.
Proof.
  intros H. unfold deltaPA. cbn [nabs natan2 NumR]. unfold Ratan2. pose proof PI_RGT_0 as HP.
  assert (Hr : 0 < sqrt (u ^ 2 + w ^ 2)) by now apply sqrt_lt_R0.
  destruct (Rlt_dec 0 (Rabs u)) as [P|P].
  - pose proof (atan_bound (w / Rabs u)) as B.
    assert (C : cos (atan (w / Rabs u)) = Rabs u / sqrt (u ^ 2 + w ^ 2)).
    { rewrite cos_atan. replace (1 + Rsqr (w / Rabs u)) with ((u ^ 2 + w ^ 2) / (Rabs u * Rabs u)).
      - rewrite sqrt_div_alt by nra. rewrite sqrt_square by lra. field. lra.
      - rewrite <- (pow2_abs u). unfold Rsqr. field. lra. }
    assert (E : Rabs (atan (w / Rabs u)) = acos (cos (atan (w / Rabs u)))).
    { destruct (Rle_or_lt 0 (atan (w / Rabs u))) as [Z|Z].
      - rewrite Rabs_pos_eq by auto. rewrite acos_cos; lra.
      - rewrite Rabs_left by auto. rewrite <- cos_neg. rewrite acos_cos; lra. }
    rewrite E at 1. rewrite C. split; auto. split; [apply Rabs_pos|]. apply Rabs_le. lra.
  - pose proof (Rabs_pos u) as U. assert (U0 : Rabs u = 0) by lra. rewrite U0.
    replace (0 / sqrt (u ^ 2 + w ^ 2)) with 0 by (unfold Rdiv; ring). rewrite acos_0.
    assert (u = 0) by (destruct (Req_dec u 0); auto; apply Rabs_pos_lt in H0; lra). subst u.
    destruct (Rlt_dec 0 0) as [Z|_]; [lra|].
    destruct (Rlt_dec 0 w) as [W|W]; [rewrite Rabs_pos_eq by lra; lra|].
    destruct (Rlt_dec w 0) as [W'|W']; [rewrite Rabs_left by lra; lra|]. exfalso. assert (w = 0) by lra. subst. lra.
Qed.

Lemma blended_between h1 h2 tmax t : 0 < h1 -> 0 < h2 -> 0 < tmax -> 0 <= t ->
  0 < blended_scale h1 h2 tmax t /\ Rabs (1 / h1 - 1 / blended_scale h1 h2 tmax t) <= Rabs (1 / h1 - 1 / h2).
Proof.
  intros H1 H2 Hm Ht. unfold blended_scale. destruct (Rlt_dec tmax t) as [L|L].
  - split; auto. replace (1 / h1 - 1 / h1) with 0 by ring. rewrite Rabs_R0. apply Rabs_pos.
  - set (l := (t / tmax) ^ 2). assert (Hl : 0 <= l <= 1).
    { assert (0 <= t / tmax <= 1).
      { split; [apply Rmult_le_pos; [auto|apply Rlt_le, Rinv_0_lt_compat; auto]|].
        apply Rmult_le_reg_r with tmax; auto. unfold Rdiv. rewrite Rmult_assoc, Rinv_l by lra. lra. }
      unfold l. nra. }
    set (g := h2 + (h1 - h2) * l). assert (Hg : 0 < g) by (unfold g; nra). split; auto.
    replace (1 / h1 - 1 / g) with ((1 - l) * ((h2 - h1) / (h1 * g))) by (unfold g; field; fold g; lra).
    replace (1 / h1 - 1 / h2) with ((h2 - h1) / (h1 * h2)) by (field; lra).
    rewrite Rabs_mult, (Rabs_pos_eq (1 - l)) by lra. unfold Rdiv. rewrite !Rabs_mult, !Rabs_inv.
    rewrite (Rabs_pos_eq (h1 * g)) by nra. rewrite (Rabs_pos_eq (h1 * h2)) by nra.
    replace ((1 - l) * (Rabs (h2 - h1) * / (h1 * g))) with (Rabs (h2 - h1) * ((1 - l) * / (h1 * g))) by ring.
    apply Rmult_le_compat_l; [apply Rabs_pos|].
    apply Rmult_le_reg_r with (h1 * g * h2); [apply Rmult_lt_0_compat; [nra|auto]|].
    replace ((1 - l) * / (h1 * g) * (h1 * g * h2)) with ((1 - l) * h2) by (field; lra).
    replace (/ (h1 * h2) * (h1 * g * h2)) with g by (field; lra). unfold g. nra.
Qed.

(** ---- the profile ---- *)

Lemma FlatBar_intensity_eq I0 h1 al r h2 rb :
  FlatBar_intensity NumR I0 h1 al r h2 rb =
  let ex := 1 / al * (1 / h1 - 1 / h2) in
  BrokenExp_intensity NumR (I0 * Rpow (1 + exp (- al * rb)) (- ex)) h1 h2 rb al ex (rb / h2 - rb / h1) r.
Proof. reflexivity. Qed.

Lemma intensity_close I0 h1 al r h2 rb E : al <> 0 -> Rabs (1 / al * (1 / h1 - 1 / h2)) <= E ->
  relatively_close (E * exp (-100)) (FlatBar_intensity NumR I0 h1 al r h2 rb) (broken_exp I0 h1 h2 rb al r).
Proof.
  intros Ha He. rewrite FlatBar_intensity_eq. cbv zeta. pose proof (@BrokenExp_close I0 h1 h2 rb al r Ha) as C. cbv zeta in C.
  unfold relatively_close in *. eapply Rle_trans; [exact C|]. apply Rmult_le_compat_l; [apply Rabs_pos|].
  apply Rplus_le_compat_r. apply exp_le. apply Rmult_le_compat_r; [apply Rlt_le, exp_pos|auto].
Qed.

Section Frame.
Variables (PA q x y : R).
Let u := x * cosPA NumR PA + y * sinPA NumR PA.
Let w := - x * sinPA NumR PA + y * cosPA NumR PA.
Lemma frame_eq : FlatBar_frame NumR PA q x y = (u, w, sqrt (u ^ 2 + (w / q) ^ 2), sqrt (u ^ 2 + w ^ 2)).
Proof.
  unfold FlatBar_frame. cbn [nadd nmul nneg ndiv nsqrt NumR]. fold u w. replace (w / q * (w / q)) with ((w / q) ^ 2) by ring.
  replace (u * u) with (u ^ 2) by ring. replace (w * w) with (w ^ 2) by ring. reflexivity.
Qed.
End Frame.

(** [FlatBar_plain] as a function of the coordinates along the axes of the bar *)
Definition bar_at (I0 q h1 h2 rb al tmax u w : R) : R :=
  let r := sqrt (u ^ 2 + (w / q) ^ 2) in
  let rho := sqrt (u ^ 2 + w ^ 2) in
  if Req_EM_T rho 0 then FlatBar_intensity NumR I0 h1 al 0 h2 rb
  else FlatBar_intensity NumR I0 h1 al r (blended_scale h1 h2 tmax (acos (Rabs u / rho))) (r / rho * rb).

Lemma norm0 u w : sqrt (u ^ 2 + w ^ 2) = 0 -> u = 0 /\ w = 0.
Proof.
  intros H. apply sqrt_eq_0 in H; [|nra]. pose proof (pow2_ge_0 u). pose proof (pow2_ge_0 w).
  split; apply Rsqr_0_uniq; unfold Rsqr; nra.
Qed.

Lemma plain_at I0 PA q h1 h2 rb al tmax x y : q <> 0 ->
  let u := x * cosPA NumR PA + y * sinPA NumR PA in
  let w := - x * sinPA NumR PA + y * cosPA NumR PA in
  FlatBar_plain NumR I0 PA q h1 h2 rb al tmax x y = bar_at I0 q h1 h2 rb al tmax u w /\
  FlatBar_sub NumR I0 PA q h1 h2 rb al tmax x y = bar_at I0 q h1 h2 rb al tmax u w.
Proof.
  intros Hq u w. unfold FlatBar_plain, FlatBar_sub. rewrite frame_eq. fold u w.
  unfold GetAdjustedRbh2, bar_at. cbv zeta. cbn [nltb neqb nofZ ndiv nmul NumR].
  destruct (Req_EM_T (sqrt (u ^ 2 + w ^ 2)) 0) as [Z|Z].
  - destruct (norm0 Z) as (U & W). rewrite Z. rewrite (proj2 (Rltb_false 0 0)) by lra. cbn [andb].
    rewrite U, W. rewrite (proj2 (Reqb_true 0 0) eq_refl). cbn [andb negb].
    replace (sqrt (0 ^ 2 + (0 / q) ^ 2)) with 0. split; reflexivity.
    symmetry. replace (0 ^ 2 + (0 / q) ^ 2) with 0 by (unfold Rdiv; ring). apply sqrt_0.
  - assert (Hs : 0 < sqrt (u ^ 2 + w ^ 2)) by (pose proof (sqrt_pos (u ^ 2 + w ^ 2)); lra).
    assert (H2 : 0 < u ^ 2 + w ^ 2).
    { destruct (Rle_or_lt (u ^ 2 + w ^ 2) 0); auto. rewrite sqrt_neg_0 in Hs by auto. lra. }
    assert (Hr : 0 < sqrt (u ^ 2 + (w / q) ^ 2)).
    { apply sqrt_lt_R0. destruct (Req_dec w 0) as [->|W].
      - replace (u ^ 2 + (0 / q) ^ 2) with (u ^ 2 + 0 ^ 2) by (unfold Rdiv; ring). auto.
      - assert (w / q <> 0) by (apply Rmult_integral_contrapositive; split; auto; now apply Rinv_neq_0_compat).
        pose proof (pow2_ge_0 u). assert (0 < (w / q) ^ 2) by (pose proof (Rsqr_pos_lt _ H) as S; unfold Rsqr in S; nra). lra. }
    rewrite (proj2 (Rltb_true _ _) Hs), (proj2 (Rltb_true _ _) Hr). cbn [andb].
    assert (C : (Reqb u 0 && Reqb w 0)%bool = false).
    { destruct (Req_dec u 0) as [U|U].
      - destruct (Req_dec w 0) as [W|W].
        + rewrite U, W in H2. exfalso. lra.
        + apply Bool.andb_false_iff. right. now apply Reqb_false.
      - apply Bool.andb_false_iff. left. now apply Reqb_false. }
    rewrite C. cbn [negb andb].
    destruct (@deltaPA_acos u w H2) as (E & B). rewrite E in *.
    set (t := acos (Rabs u / sqrt (u ^ 2 + w ^ 2))) in *.
    assert (P : ParabolicInterpolation NumR t 0 tmax h2 h1 = blended_scale h1 h2 tmax t).
    { unfold ParabolicInterpolation, blended_scale. cbn [nltb nadd nsub nmul ndiv nofZ NumR].
      rewrite (proj2 (Rltb_false t 0)) by lra. unfold Rltb. destruct (Rlt_dec tmax t); auto.
      rewrite !Rminus_0_r. unfold Rdiv. rewrite Rinv_mult. ring. }
    rewrite P. split; [|reflexivity]. unfold Rltb.
    destruct (Rlt_dec tmax t) as [L|L]; [|reflexivity]. unfold blended_scale. destruct (Rlt_dec tmax t); [reflexivity|lra].
Qed.

Lemma bar_at_close I0 q h1 h2 rb al tmax u w : 0 < h1 -> 0 < h2 -> 0 < tmax -> al <> 0 ->
  relatively_close (Rabs (1 / al * (1 / h1 - 1 / h2)) * exp (-100))
    (bar_at I0 q h1 h2 rb al tmax u w) (flat_bar I0 q h1 h2 rb al tmax u w).
Proof.
  intros H1 H2 Hm Ha. unfold bar_at, flat_bar. cbv zeta. destruct (Req_EM_T (sqrt (u ^ 2 + w ^ 2)) 0) as [Z|Z].
  - apply intensity_close; auto. lra.
  - apply intensity_close; auto. rewrite !Rabs_mult. apply Rmult_le_compat_l; [apply Rabs_pos|].
    apply blended_between; auto. apply acos_bound.
Qed.

(** ---- pixel values ---- *)

Section Value.
Variables (d : ImageDesc R) (ps : list R) (off : nat) (xc yc : R).
Notation p i := (nth (i + off) ps 0).
Notation len i := (nth (i + off) ps 0 * pixelScaling d).

Definition bar_obj : Obj R := mkObj xc yc
  (fun x y => FlatBar_plain NumR (len 3%nat) (p 0%nat - imageRotation d) (1 - p 1%nat) (len 4%nat) (len 5%nat) (len 6%nat)
                (p 7%nat / pixelScaling d) (p 2%nat * DEG2RAD NumR) x y)
  (fun s x y => subsamples NumR 20 3 (len 4%nat) s
                  (let '(_, _, r, _) := FlatBar_frame NumR (p 0%nat - imageRotation d) (1 - p 1%nat) x y in r)).

Lemma value_obj s x y : (off + 8 <= length ps)%nat -> p 1%nat <> 1 ->
  value_FlatBar NumR d ps off xc yc s x y = GetValue NumR bar_obj s x y.
Proof.
  intros L Hq. unfold value_FlatBar.
  repeat match goal with |- context [get ps ?i] => rewrite (@get_nth_in ps i) by lia; cbn [bind] end.
  unfold GetValue, bar_obj. cbn [ob_x0 ob_y0 ob_point ob_nsub nsub NumR].
  change (Z.to_nat) with Z.to_nat. rewrite !frame_eq. cbv zeta. cbn [nsub nmul ndiv nofZ NumR].
  match goal with |- bind ?e _ = bind ?e _ => destruct e as [n| | |]; try reflexivity end. cbn [bind].
  destruct (1 <? n)%Z; [|reflexivity].
  match goal with |- bind ?e _ = bind ?f _ => replace e with f; [reflexivity|] end.
  apply for_ext. intros i a _. apply for_ext. intros j b _. f_equal. f_equal.
  match goal with |- FlatBar_plain _ ?I0 ?PA ?q ?h1 ?h2 ?rb ?al ?tm ?X ?Y = _ =>
    destruct (@plain_at I0 PA q h1 h2 rb al tm X Y) as (E1 & E2); [lra|]; exact (eq_trans E1 (eq_sym E2)) end.
Qed.

Lemma bar_plain_image : (off + 8 <= length ps)%nat -> p 1%nat <> 1 ->
  plain_image (value_FlatBar NumR d ps off xc yc) (plain bar_obj).
Proof.
  intros L Hq x y. rewrite value_obj by auto. rewrite (@GetValue_mean bar_obj false x y 1).
  - change (Z.to_nat (Z.max 1 1)) with 1%nat. now rewrite mean_1.
  - reflexivity.
Qed.

Lemma bar_sub : (off + 8 <= length ps)%nat -> p 1%nat <> 1 -> 2 / 10 ^ 8 <= len 4%nat ->
  forall x y, exists n, (1 <= n <= 100)%nat /\
    value_FlatBar NumR d ps off xc yc true x y = Ok (mean_over_pixel n (plain bar_obj) x y).
Proof.
  intros L Hq Hh x y. rewrite value_obj by auto.
  destruct (@subsamples_R 20 3 (len 4%nat) true
     (let '(_, _, r, _) := FlatBar_frame NumR (p 0%nat - imageRotation d) (1 - p 1%nat) (x - xc) (y - yc) in r)) as (n & En & B & _); auto.
  - lra.
  - apply Rle_lt_trans with (20 / (2 / 10 ^ 8)); [|lra].
    unfold Rdiv at 1 2. apply Rmult_le_compat_l; [lra|]. apply Rinv_le_contravar; lra.
  - exists (Z.to_nat (Z.max 1 n)). split; [lia|]. apply GetValue_mean. exact En.
Qed.

(** coordinates along the bar *)
Notation phi := (direction (p 0%nat) (imageRotation d)).
Lemma bar_plain_at u w : p 1%nat <> 1 ->
  plain bar_obj (xc + along_x phi u w) (yc + along_y phi u w) =
  bar_at (len 3%nat) (1 - p 1%nat) (len 4%nat) (len 5%nat) (len 6%nat) (p 7%nat / pixelScaling d) (p 2%nat * deg) u w.
Proof.
  intros Hq. unfold plain, bar_obj. cbn [ob_point ob_x0 ob_y0].
  match goal with |- FlatBar_plain _ ?I0 ?PA ?q ?h1 ?h2 ?rb ?al ?tm ?X ?Y = _ =>
    destruct (@plain_at I0 PA q h1 h2 rb al tm X Y) as (E1 & _); [lra|]; rewrite E1; clear E1 end.
  rewrite deg_eq, cosPA_eq, sinPA_eq.
  replace (xc + along_x phi u w - xc) with (along_x phi u w) by ring.
  replace (yc + along_y phi u w - yc) with (along_y phi u w) by ring.
  unfold direction, along_x, along_y. pose proof (frame_back ((p 0%nat - imageRotation d + 90) * deg) u w) as (F1 & F2).
  rewrite F1, F2. reflexivity.
Qed.

Lemma flatbar_profile u w : (off + 8 <= length ps)%nat -> p 1%nat <> 1 -> 0 < len 4%nat -> 0 < len 5%nat ->
  p 7%nat / pixelScaling d <> 0 -> 0 < p 2%nat * deg ->
  exists v, value_FlatBar NumR d ps off xc yc false (xc + along_x phi u w) (yc + along_y phi u w) = Ok v /\
    relatively_close (Rabs (1 / (p 7%nat / pixelScaling d) * (1 / len 4%nat - 1 / len 5%nat)) * exp (-100)) v
      (flat_bar (len 3%nat) (1 - p 1%nat) (len 4%nat) (len 5%nat) (len 6%nat) (p 7%nat / pixelScaling d) (p 2%nat * deg) u w).
Proof.
  intros L Hq H1 H2 Ha Hm. rewrite (bar_plain_image L Hq). eexists. split; [reflexivity|].
  rewrite bar_plain_at by auto. now apply bar_at_close.
Qed.

Lemma bar_at_even I0 q h1 h2 rb al tmax u w : bar_at I0 q h1 h2 rb al tmax (- u) w = bar_at I0 q h1 h2 rb al tmax u w /\
  bar_at I0 q h1 h2 rb al tmax u (- w) = bar_at I0 q h1 h2 rb al tmax u w.
Proof.
  unfold bar_at. cbv zeta. rewrite Rabs_Ropp, !sq_opp. split; auto.
  replace ((- w / q) ^ 2) with ((w / q) ^ 2) by (unfold Rdiv; ring). reflexivity.
Qed.
Lemma flatbar_mirror u w : (off + 8 <= length ps)%nat -> p 1%nat <> 1 ->
  value_FlatBar NumR d ps off xc yc false (xc + along_x phi (- u) w) (yc + along_y phi (- u) w) =
  value_FlatBar NumR d ps off xc yc false (xc + along_x phi u w) (yc + along_y phi u w) /\
  value_FlatBar NumR d ps off xc yc false (xc + along_x phi u (- w)) (yc + along_y phi u (- w)) =
  value_FlatBar NumR d ps off xc yc false (xc + along_x phi u w) (yc + along_y phi u w).
Proof.
  intros L Hq. rewrite !(bar_plain_image L Hq), !bar_plain_at by auto. split; f_equal; apply bar_at_even.
Qed.

Lemma bar_plain_half x y : plain bar_obj (2 * xc - x) (2 * yc - y) = plain bar_obj x y.
Proof.
  unfold plain, bar_obj. cbn [ob_point ob_x0 ob_y0].
  replace (2 * xc - x - xc) with (- (x - xc)) by ring. replace (2 * yc - y - yc) with (- (y - yc)) by ring.
  set (X := x - xc). set (Y := y - yc). unfold FlatBar_plain. rewrite !frame_eq.
  set (c := cosPA NumR _). set (t := sinPA NumR _).
  replace (- X * c + - Y * t) with (- (X * c + Y * t)) by ring.
  replace (- - X * t + - Y * c) with (- (- X * t + Y * c)) by ring.
  set (u := X * c + Y * t). set (w := - X * t + Y * c). rewrite !sq_opp.
  replace ((- w / (1 - p 1%nat)) ^ 2) with ((w / (1 - p 1%nat)) ^ 2) by (unfold Rdiv; ring).
  assert (Z : forall a, neqb NumR (- a) 0 = neqb NumR a 0).
  { intros a. cbn [neqb NumR]. unfold Reqb. destruct (Req_EM_T (- a) 0), (Req_EM_T a 0); auto; lra. }
  change (nofZ NumR 0) with 0. rewrite !Z.
  assert (D : deltaPA NumR (- u) (- w) = deltaPA NumR u w).
  { unfold deltaPA. cbn [nabs natan2 NumR]. rewrite Rabs_Ropp. pose proof (Rabs_pos u). unfold Ratan2.
    destruct (Rlt_dec 0 (Rabs u)).
    - replace (- w / Rabs u) with (- (w / Rabs u)) by (unfold Rdiv; ring). rewrite atan_opp. apply Rabs_Ropp.
    - destruct (Rlt_dec (Rabs u) 0); [lra|].
      destruct (Rlt_dec 0 (- w)), (Rlt_dec 0 w), (Rlt_dec (- w) 0), (Rlt_dec w 0); try lra; auto; apply Rabs_Ropp || (symmetry; apply Rabs_Ropp). }
  unfold GetAdjustedRbh2. rewrite !D. reflexivity.
Qed.

Lemma flatbar_half_turn s x y : (off + 8 <= length ps)%nat -> p 1%nat <> 1 ->
  value_FlatBar NumR d ps off xc yc s (2 * xc - x) (2 * yc - y) = value_FlatBar NumR d ps off xc yc s x y.
Proof.
  intros L Hq. rewrite !value_obj by auto.
  assert (E : ob_nsub bar_obj s (2 * xc - x - ob_x0 bar_obj) (2 * yc - y - ob_y0 bar_obj) =
              ob_nsub bar_obj s (x - ob_x0 bar_obj) (y - ob_y0 bar_obj)).
  { unfold bar_obj. cbn [ob_nsub ob_x0 ob_y0]. f_equal. rewrite !frame_eq. f_equal.
    match goal with |- ?a ^ 2 + ?b ^ 2 = ?c ^ 2 + ?e ^ 2 => replace a with (- c) by ring; replace b with (- e) by (unfold Rdiv; ring) end. ring. }
  destruct (ob_nsub bar_obj s (x - ob_x0 bar_obj) (y - ob_y0 bar_obj)) as [n| | |] eqn:En.
  2-4: unfold GetValue; cbn [nsub NumR]; rewrite E, En; reflexivity.
  rewrite (GetValue_mean E), (GetValue_mean En). f_equal. apply mean_mirror; [lia|]. intros u v. apply bar_plain_half.
Qed.

Lemma intensity_scale h1 al r h2 rb :
  exists c, 0 < c /\ forall I, FlatBar_intensity NumR I h1 al r h2 rb = I * c.
Proof.
  unfold FlatBar_intensity. cbn [nadd nsub nmul ndiv nneg nexp npow nltb nofZ NumR].
  assert (P : forall a b, 0 < Rpow (1 + exp a) b).
  { intros a b. rewrite Rpow_eq by apply exp1_pos. apply exp_pos. }
  destruct (Rltb 100 (al * (r - rb))).
  - exists (Rpow (1 + exp (- al * rb)) (- (1 / al * (1 / h1 - 1 / h2))) * exp (rb / h2 - rb / h1 - r / h2)).
    split; [apply Rmult_lt_0_compat; [apply P|apply exp_pos]|intros; ring].
  - exists (Rpow (1 + exp (- al * rb)) (- (1 / al * (1 / h1 - 1 / h2))) * exp (- r / h1) *
            Rpow (1 + exp (al * (r - rb))) (1 / al * (1 / h1 - 1 / h2))).
    split; [repeat apply Rmult_lt_0_compat; try apply P; apply exp_pos|intros; ring].
Qed.
End Value.

(** the centre of the bar *)
Lemma flatbar_centre d ps off xc yc : (off + 8 <= length ps)%nat -> nth (1 + off) ps 0 <> 1 ->
  let p i := nth (i + off) ps 0 in
  let len i := p i * pixelScaling d in
  value_FlatBar NumR d ps off xc yc false xc yc =
    Ok (FlatBar_intensity NumR (len 3%nat) (len 4%nat) (p 7%nat / pixelScaling d) 0 (len 5%nat) (len 6%nat)).
Proof.
  intros L Hq p len. pose proof (@bar_plain_image d ps off xc yc L Hq xc yc) as E.
  pose proof (@bar_plain_at d ps off xc yc 0 0 Hq) as B.
  set (phi := direction (nth (0 + off) ps 0) (imageRotation d)) in *.
  replace (xc + along_x phi 0 0) with xc in B by (unfold along_x; ring).
  replace (yc + along_y phi 0 0) with yc in B by (unfold along_y; ring).
  rewrite E, B. f_equal. unfold bar_at. cbv zeta. destruct (Req_EM_T (sqrt (0 ^ 2 + 0 ^ 2)) 0) as [Z|Z]; [reflexivity|].
  exfalso. apply Z. replace (0 ^ 2 + 0 ^ 2) with 0 by ring. apply sqrt_0.
Qed.

Lemma flatbar_scale d ps off xc yc : (off + 8 <= length ps)%nat -> nth (1 + off) ps 0 <> 1 -> pixelScaling d <> 0 ->
  exists ps' v v', AdjustParameters_FlatBar NumR d ps ps off = Ok ps' /\
    value_FlatBar NumR d ps off xc yc false xc yc = Ok v /\
    value_FlatBar NumR (default_desc NumR) ps' off xc yc false xc yc = Ok v' /\
    v * intensityScale d = v' * pixelScaling d /\
    (nth (3 + off) ps 0 <> 0 -> pixelScaling d <> intensityScale d -> v <> v').
Proof.
  intros L Hq Hp. destruct (@adjust_list adjustments_FlatBar d ps ps off) as (ps' & E & Ll & A & B).
  1-2: cbn [adjustments_FlatBar length]; lia.
  assert (Hq' : nth (1 + off) ps' 0 <> 1).
  { rewrite (A 1%nat) by (cbn; lia). exact Hq. }
  exists ps'. rewrite (@flatbar_centre d ps off xc yc L Hq).
  rewrite (@flatbar_centre (default_desc NumR) ps' off xc yc) by (auto; lia). do 2 eexists.
  split; [exact E|]. split; [reflexivity|]. split; [reflexivity|].
  rewrite (A 3%nat), (A 4%nat), (A 5%nat), (A 6%nat), (A 7%nat) by (cbn; lia).
  cbn [adjustments_FlatBar nth]. cbn [default_desc pixelScaling adjust1 nmul ndiv nofZ NumR]. rewrite !Rmult_1_r.
  set (h1 := nth (4 + off) ps 0 * pixelScaling d). set (h2 := nth (5 + off) ps 0 * pixelScaling d).
  set (rb := nth (6 + off) ps 0 * pixelScaling d). rewrite !(Rmult_comm (pixelScaling d)). fold h1 h2 rb.
  replace (1 / pixelScaling d * nth (7 + off) ps 0 / 1) with (nth (7 + off) ps 0 / pixelScaling d) by (field; auto).
  destruct (@intensity_scale h1 (nth (7 + off) ps 0 / pixelScaling d) 0 h2 rb) as (c & Pc & Ec). rewrite !Ec. split.
  - ring.
  - intros H0 Hne Heq.  apply Hne. apply Rmult_eq_reg_l with (nth (3 + off) ps 0 * c);
      [|apply Rmult_integral_contrapositive; split; [auto|lra]].
    transitivity (nth (3 + off) ps 0 * pixelScaling d * c); [ring|rewrite Heq; ring].
Qed.

Lemma flatbar_ignores_intensity s rot i1 i2 ps off xc yc b x y :
  value_FlatBar NumR (mkDesc s rot i1) ps off xc yc b x y = value_FlatBar NumR (mkDesc s rot i2) ps off xc yc b x y.
Proof. reflexivity. Qed.
