(** C96, C97: further extra functions: a bar with a broken-exponential profile, a Gaussian on a floor, and two edge-on discs. *)
From Coq Require Import Reals Lra Lia List ZArith.
From Verif Require Import Func_Spec Func_Proof Func_Profile Extra_Model.
Import ListNotations.
Open Scope R_scope.
Set Implicit Arguments.
Unset Strict Implicit.

(** The parameters of the function, from position [offset] on *)
Definition param (params : list R) (offset : nat) : nat -> R := fun i => nth (offset + i) params 0.

(** The point [u] along and [w] across a component with position angle [PA] around (x0, y0) *)
Definition point_x (PA x0 u w : R) : R := x0 + (u * cos ((PA + 90) * deg) - w * sin ((PA + 90) * deg)).
Definition point_y (PA y0 u w : R) : R := y0 + (u * sin ((PA + 90) * deg) + w * cos ((PA + 90) * deg)).

(** [v] is what an object made by Setup draws at a point, with or without subsampling *)
Definition draws (made : res (Obj R)) (sub : bool) (x y v : R) : Prop := exists o, made = Ok o /\ GetValue NumR o sub x y = Ok v.

Lemma get_param params offset i n : (offset + n <= length params)%nat -> (i < n)%nat -> get params (i + offset) = Ok (param params offset i).
Proof. intros H I. unfold param. rewrite (Nat.add_comm i). apply get_nth. lia. Qed.

Lemma seen_along PA x0 y0 u w : along NumR PA (point_x PA x0 u w - x0) (point_y PA y0 u w - y0) = u.
Proof.
  unfold along, cosPA, sinPA, point_x, point_y. cbn [nadd nsub nmul ncos nsin nofZ NumR]. rewrite deg_eq. set (phi := (PA + 90) * deg).
  replace (x0 + (u * cos phi - w * sin phi) - x0) with (u * cos phi - w * sin phi) by ring.
  replace (y0 + (u * sin phi + w * cos phi) - y0) with (u * sin phi + w * cos phi) by ring.
  apply frame_back.
Qed.
Lemma seen_across PA x0 y0 u w : across NumR PA (point_x PA x0 u w - x0) (point_y PA y0 u w - y0) = w.
Proof.
  unfold across, cosPA, sinPA, point_x, point_y. cbn [nadd nsub nmul nneg ncos nsin nofZ NumR]. rewrite deg_eq. set (phi := (PA + 90) * deg).
  replace (x0 + (u * cos phi - w * sin phi) - x0) with (u * cos phi - w * sin phi) by ring.
  replace (y0 + (u * sin phi + w * cos phi) - y0) with (u * sin phi + w * cos phi) by ring.
  apply frame_back.
Qed.

Lemma close_mult e v w c : relatively_close e v w -> relatively_close e (v * c) (w * c).
Proof.
  unfold relatively_close. intros H. replace (v * c - w * c) with ((v - w) * c) by ring. rewrite !Rabs_mult.
  replace (Rabs w * Rabs c * (exp e - 1)) with (Rabs w * (exp e - 1) * Rabs c) by ring.
  apply Rmult_le_compat_r; [apply Rabs_pos|exact H].
Qed.

(** BrokenExponentialBar: a broken exponential along the bar, a Gaussian of width sigma across it, up to a relative error
    of exp(-100) times the exponent. The parameters are PA I_0 h1 h2 r_break alpha sigma. *)
Theorem C96_bar : forall params offset x0 y0 u w, (offset + 7 <= length params)%nat ->
  let p := param params offset in
  let alpha := p 5%nat in
  alpha <> 0 ->
  exists v, draws (make_BrokenExponentialBar NumR params offset x0 y0) false (point_x (p 0%nat) x0 u w) (point_y (p 0%nat) y0 u w) v /\
    relatively_close (Rabs (1 / alpha * (1 / p 2%nat - 1 / p 3%nat)) * exp (-100)) v
      (broken_exp (p 1%nat) (p 2%nat) (p 3%nat) (p 4%nat) alpha (Rabs u) * exp (- w² / (2 * (p 6%nat)²))).
Proof.
  intros params offset x0 y0 u w L p alpha Ha. eexists. split.
  - unfold draws, make_BrokenExponentialBar. rewrite !(get_param L) by lia. cbn [bind]. eexists. split; [reflexivity|].
    unfold GetValue. cbn [ob_nsub ob_x0 ob_y0 ob_point]. unfold subsamples. cbn [andb bind]. cbn [Z.ltb Z.compare Pos.compare Pos.compare_cont].
    cbn [nsub NumR]. fold p. rewrite seen_along, seen_across. reflexivity.
  - unfold Bar_intensity. cbn [nltb nadd nsub nmul ndiv nneg nexp npow nabs nofZ NumR]. unfold Rsqr. rewrite (Rmult_assoc 2).
    apply close_mult. exact (@BrokenExp_close (p 1%nat) (p 2%nat) (p 3%nat) (p 4%nat) alpha (Rabs u) Ha).
Qed.

(** GaussianExtraParams draws what Gaussian draws, and the floor *)
Lemma mean_floor n f c x y : (0 < n)%nat -> mean_over_pixel n (fun x y => f x y + c) x y = mean_over_pixel n f x y + c.
Proof.
  intros Hn. assert (P : 0 < INR n) by (apply lt_0_INR; lia).
  assert (S : forall m (g : nat -> R) k, rsum m (fun i => g i + k) = rsum m g + INR m * k).
  { induction m as [|m IH]; intros g k; [simpl; ring|]. rewrite S_INR. cbn [rsum]. rewrite IH. ring. }
  unfold mean_over_pixel.
  rewrite (@rsum_ext n _ (fun i => rsum n (fun j => f (slice_centre n x i) (slice_centre n y j)) + INR n * c)).
  - rewrite S. field. lra.
  - intros i _. apply S.
Qed.

Theorem C96_floor : forall params offset x0 y0 floor sub x y v, (offset + 4 <= length params)%nat ->
  draws (make_Gaussian NumR (default_desc NumR) params offset x0 y0) sub x y v ->
  draws (make_GaussianExtraParams NumR params offset x0 y0 floor) sub x y (v + floor).
Proof.
  intros params offset x0 y0 floor sub x y v L (o & E & V). unfold make_Gaussian in E. rewrite !(get_param L) in E by lia. cbn [bind] in E.
  injection E as <-. unfold draws, make_GaussianExtraParams. rewrite !(get_param L) by lia. cbn [bind]. eexists. split; [reflexivity|].
  destruct (GetValue_inv V) as (n & H & ->). revert H.
  cbn [elliptical ob_nsub ob_x0 ob_y0 ob_point default_desc imageRotation pixelScaling intensityScale nsub nmul nofZ NumR].
  rewrite Rminus_0_r, !Rmult_1_r. intros H.
  refine (eq_trans (@GetValue_mean _ sub x y n _) _).
  - cbn [elliptical ob_nsub ob_x0 ob_y0 nsub nofZ NumR]. exact H.
  - f_equal. rewrite <- mean_floor by lia. reflexivity.
Qed.

(** EdgeOnDisk_n4762: constant inside the break radius, exponential outside it, with smooth change, and exponential across.
    The parameters are PA I_0 h2 r_b alpha h_z. *)
Definition flat_then_exp (I_0 h2 r_b alpha r : R) : R :=
  I_0 * Rpower ((1 + exp (- alpha * r_b)) / (1 + exp (alpha * (r - r_b)))) (1 / (alpha * h2)).

Lemma flat_radial I_0 h2 rb al r : al <> 0 -> h2 <> 0 ->
  let ex := 1 / (al * h2) in
  let IS := I_0 * Rpow (1 + exp (- al * rb)) ex in
  relatively_close (Rabs ex * exp (-100))
    (if Rltb 100 (al * (r - rb)) then IS * exp (rb / h2 - r / h2) else IS * Rpow (1 + exp (al * (r - rb))) (- ex))
    (flat_then_exp I_0 h2 rb al r).
Proof.
  intros Ha Hh ex IS.
  assert (E : flat_then_exp I_0 h2 rb al r = IS * Rpow (1 + exp (al * (r - rb))) (- ex)).
  { unfold IS, flat_then_exp. fold ex. rewrite !Rpow_eq by apply exp1_pos. rewrite Rmult_assoc. f_equal.
    unfold Rpower. rewrite <- exp_plus. f_equal. unfold Rdiv. rewrite ln_mult, ln_Rinv; try apply exp1_pos; [ring|].
    apply Rinv_0_lt_compat, exp1_pos. }
  rewrite E. unfold Rltb. destruct (Rlt_dec 100 (al * (r - rb))) as [G|G].
  - destruct (@guard_factor _ (- ex) G) as (x & Hx & Ex). rewrite Rabs_Ropp in Hx.
    match goal with |- relatively_close _ ?v ?w => replace v with (w * exp x) end; [now apply close_exp|].
    rewrite Rmult_assoc, <- Ex. f_equal. f_equal. unfold ex. field. auto.
  - apply close_refl. apply Rmult_le_pos; [apply Rabs_pos|apply Rlt_le, exp_pos].
Qed.

Theorem C97_disc : forall params offset x0 y0 u w, (offset + 6 <= length params)%nat ->
  let p := param params offset in
  let h2 := p 2%nat in
  let alpha := p 4%nat in
  alpha <> 0 -> h2 <> 0 ->
  exists v, draws (make_EdgeOnDiskN4762 NumR params offset x0 y0) false (point_x (p 0%nat) x0 u w) (point_y (p 0%nat) y0 u w) v /\
    relatively_close (Rabs (1 / (alpha * h2)) * exp (-100)) v (flat_then_exp (p 1%nat) h2 (p 3%nat) alpha (Rabs u) * exp (- Rabs w / p 5%nat)).
Proof.
  intros params offset x0 y0 u w L p h2 alpha Ha Hh. eexists. split.
  - unfold draws, make_EdgeOnDiskN4762. rewrite !(get_param L) by lia. cbn [bind]. eexists. split; [reflexivity|].
    unfold GetValue. cbn [ob_nsub ob_x0 ob_y0 ob_point]. unfold N4762_subsamples. cbn [andb bind]. cbn [Z.ltb Z.compare Pos.compare Pos.compare_cont].
    cbn [nsub NumR]. fold p. rewrite seen_along, seen_across. reflexivity.
  - unfold N4762_intensity. cbn [nltb nadd nsub nmul ndiv nneg nexp npow nabs nofZ NumR].
    apply close_mult. exact (@flat_radial (p 1%nat) h2 (p 3%nat) alpha (Rabs u) Ha Hh).
Qed.

(** With subsampling on, a pixel of either has the mean of the values at the centres of equal parts of the pixel, 400 of
    them if it is within 3 pixels of the centre (of the plane, for the disc) and h1 (h_z) is above 1 *)
Lemma mean_drawn o sub x y v : (forall dx dy, ob_nsub o false dx dy = Ok 1%Z) -> draws (Ok o) sub x y v ->
  exists n g, (0 < n)%nat /\ (forall x' y', draws (Ok o) false x' y' (g x' y')) /\ v = mean_over_pixel n g x y.
Proof.
  intros P (o' & [= <-] & V). destruct (GetValue_inv V) as (n & _ & ->). exists (Z.to_nat (Z.max 1 n)), (plain o). split; [lia|]. split; [|reflexivity].
  intros x' y'. exists o. split; [reflexivity|]. rewrite (@GetValue_mean o false x' y' 1%Z) by apply P. change (Z.to_nat (Z.max 1 1)) with 1%nat. now rewrite mean_1.
Qed.

Theorem C96_subsampling : forall params offset x0 y0 u w, (offset + 7 <= length params)%nat ->
  let p := param params offset in
  let bar := make_BrokenExponentialBar NumR params offset x0 y0 in
  let x := point_x (p 0%nat) x0 u w in
  let y := point_y (p 0%nat) y0 u w in
  (forall sub v, draws bar sub x y v ->
     exists n f, (0 < n)%nat /\ (forall x' y', draws bar false x' y' (f x' y')) /\ v = mean_over_pixel n f x y) /\
  (1 < p 2%nat -> u² + w² <= 3² ->
     exists f, (forall x' y', draws bar false x' y' (f x' y')) /\ draws bar true x y (mean_over_pixel 20 f x y)).
Proof.
  intros params offset x0 y0 u w L p bar x y. unfold bar, make_BrokenExponentialBar. rewrite !(get_param L) by lia. fold p. cbn [bind].
  split; [intros sub v; now apply mean_drawn|]. intros H1 Hr.
  match goal with |- context [draws (Ok ?o) true] => set (b := o) end.
  exists (plain b). split.
  - intros x' y'. exists b. split; [reflexivity|]. rewrite (@GetValue_mean b false x' y' 1%Z) by reflexivity. change (Z.to_nat (Z.max 1 1)) with 1%nat. now rewrite mean_1.
  - exists b. split; [reflexivity|]. change 20%nat with (Z.to_nat (Z.max 1 20)). apply GetValue_mean.
    unfold b. cbn [ob_nsub ob_x0 ob_y0]. unfold x, y. cbn [nsub NumR]. rewrite seen_along, seen_across. unfold subsamples.
    cbn [andb nleb nltb nadd nmul nsqrt nofZ NumR]. assert (Q : sqrt (u * u + w * w) <= 3).
    { rewrite <- (sqrt_Rsqr 3) by lra. apply sqrt_le_1_alt. unfold Rsqr in *. lra. }
    unfold Rltb, Rleb. destruct (Rlt_dec _ _); [|lra]. destruct (Rle_dec (p 2%nat) 1); [lra|]. cbn [andb]. destruct (Rle_dec _ _); [reflexivity|lra].
Qed.

Theorem C97_subsampling : forall params offset x0 y0 u w, (offset + 6 <= length params)%nat ->
  let p := param params offset in
  let disc := make_EdgeOnDiskN4762 NumR params offset x0 y0 in
  let x := point_x (p 0%nat) x0 u w in
  let y := point_y (p 0%nat) y0 u w in
  (forall sub v, draws disc sub x y v ->
     exists n f, (0 < n)%nat /\ (forall x' y', draws disc false x' y' (f x' y')) /\ v = mean_over_pixel n f x y) /\
  (1 < p 5%nat -> Rabs w <= 3 ->
     exists f, (forall x' y', draws disc false x' y' (f x' y')) /\ draws disc true x y (mean_over_pixel 20 f x y)).
Proof.
  intros params offset x0 y0 u w L p disc x y. unfold disc, make_EdgeOnDiskN4762. rewrite !(get_param L) by lia. fold p. cbn [bind].
  split; [intros sub v; now apply mean_drawn|]. intros H1 Hr.
  match goal with |- context [draws (Ok ?o) true] => set (b := o) end.
  exists (plain b). split.
  - intros x' y'. exists b. split; [reflexivity|]. rewrite (@GetValue_mean b false x' y' 1%Z) by reflexivity. change (Z.to_nat (Z.max 1 1)) with 1%nat. now rewrite mean_1.
  - exists b. split; [reflexivity|]. change 20%nat with (Z.to_nat (Z.max 1 20)). apply GetValue_mean.
    unfold b. cbn [ob_nsub ob_x0 ob_y0]. unfold x, y. cbn [nsub NumR]. rewrite seen_across. unfold N4762_subsamples.
    cbn [andb nleb nltb nabs nofZ NumR].
    unfold Rltb, Rleb. destruct (Rlt_dec _ _); [|lra]. destruct (Rle_dec (p 5%nat) 1); [lra|]. cbn [andb]. destruct (Rle_dec _ _); [reflexivity|lra].
Qed.

(** EdgeOnDisk_n4762v2. The parameters are PA I_0 h2 a_rb b_rb alpha h_z.
    A new object is set up with a member never written. *)
Theorem C97_first_refuted : forall params offset, (offset + 7 <= length params)%nat -> V2_Setup NumR params offset Undef = Undef.
Proof. intros params offset L. unfold V2_Setup. rewrite !(get_param L) by lia. reflexivity. Qed.

(** Two pictures with the same parameters: of the first, the last point drawn is (x1, y1); [v] is drawn at (x, y) in the second *)
Definition second_picture (params : list R) (offset : nat) (x0 y0 before x1 y1 x y v : R) : Prop :=
  exists o v1 r1 o2 r2, V2_Setup NumR params offset (Ok before) = Ok o /\ V2_GetValue NumR x0 y0 o false x1 y1 = Ok (v1, r1) /\
    V2_Setup NumR params offset (Ok r1) = Ok o2 /\ V2_GetValue NumR x0 y0 o2 false x y = Ok (v, r2).

Lemma second_value params offset x0 y0 before u1 w1 u w : (offset + 7 <= length params)%nat ->
  let p := param params offset in
  exists v c, second_picture params offset x0 y0 before (point_x (p 0%nat) x0 u1 w1) (point_y (p 0%nat) y0 u1 w1)
                (point_x (p 0%nat) x0 u w) (point_y (p 0%nat) y0 u w) v /\
    0 < c /\ v = p 1%nat * Rpower (1 + exp (- p 5%nat * (p 3%nat + p 4%nat * Rabs w1))) (1 / (p 5%nat * p 2%nat)) * c /\
    c = (if Rltb 100 (p 5%nat * (Rabs u - (p 3%nat + p 4%nat * Rabs w))) then exp ((p 3%nat + p 4%nat * Rabs w) / p 2%nat - Rabs u / p 2%nat)
         else Rpow (1 + exp (p 5%nat * (Rabs u - (p 3%nat + p 4%nat * Rabs w)))) (- (1 / (p 5%nat * p 2%nat)))) * exp (- Rabs w / p 6%nat).
Proof.
  intros L p. eexists. eexists. split; [|split; [|split; [|reflexivity]]].
  - unfold second_picture, V2_Setup. rewrite !(get_param L) by lia. fold p. cbn [bind]. do 5 eexists.
    split; [reflexivity|]. unfold V2_GetValue. cbn [v2_PA v2_h_z nsub nabs NumR]. rewrite !seen_along, !seen_across.
    unfold N4762_subsamples. cbn [andb bind]. cbn [Z.ltb Z.compare Pos.compare Pos.compare_cont].
    split; [reflexivity|]. split; [reflexivity|]. cbn [v2_PA]. rewrite seen_along, seen_across. reflexivity.
  - apply Rmult_lt_0_compat; [|apply exp_pos]. destruct (Rltb _ _); [apply exp_pos|]. rewrite Rpow_eq by apply exp1_pos. apply exp_pos.
  - cbn [v2_h2 v2_a_rb v2_b_rb v2_alpha v2_h_z v2_exponent v2_I_0_times_S nltb nadd nsub nmul ndiv nneg nexp npow nofZ NumR].
    rewrite <- (Rpow_eq (1 / (p 5%nat * p 2%nat)) (exp1_pos _)).
    destruct (Rltb _ _); ring.
Qed.

(** What is drawn depends on the last point of the picture drawn before, for all parameters with a break radius that changes
    with height *)
Theorem C97_history_refuted : forall params offset x0 y0 before u1 w1 u2 w2 u w, (offset + 7 <= length params)%nat ->
  let p := param params offset in
  p 1%nat <> 0 -> p 2%nat <> 0 -> p 4%nat <> 0 -> p 5%nat <> 0 -> Rabs w1 <> Rabs w2 ->
  let x := point_x (p 0%nat) x0 in
  let y := point_y (p 0%nat) y0 in
  exists v1 v2, second_picture params offset x0 y0 before (x u1 w1) (y u1 w1) (x u w) (y u w) v1 /\
    second_picture params offset x0 y0 before (x u2 w2) (y u2 w2) (x u w) (y u w) v2 /\ v1 <> v2.
Proof.
  intros params offset x0 y0 before u1 w1 u2 w2 u w L p N1 N2 N4 N5 W x y.
  destruct (@second_value params offset x0 y0 before u1 w1 u w L) as (v1 & c & D1 & C & E1 & Ec).
  destruct (@second_value params offset x0 y0 before u2 w2 u w L) as (v2 & c2 & D2 & _ & E2 & Ec2). rewrite <- Ec in Ec2. subst c2.
  exists v1, v2. split; [exact D1|]. split; [exact D2|]. fold p in E1, E2. rewrite E1, E2. intros H.
  apply Rmult_eq_reg_r in H; [|lra]. apply Rmult_eq_reg_l in H; [|exact N1]. unfold Rpower in H. apply exp_inv in H.
  apply Rmult_eq_reg_l in H.
  - apply ln_inv in H; try apply exp1_pos. apply Rplus_eq_reg_l in H. apply exp_inv in H.
    apply Rmult_eq_reg_l in H; [|lra]. apply Rplus_eq_reg_l in H. apply Rmult_eq_reg_l in H; auto.
  - unfold Rdiv. rewrite Rmult_1_l. apply Rinv_neq_0_compat. now apply Rmult_integral_contrapositive.
Qed.

(** Concrete cases *)
Definition case_bar : list R := [7; 30; 100; 50; 5; 20; 1; 3].
Example C96_case : (1 + 7 <= length case_bar)%nat /\ param case_bar 1 5%nat <> 0 /\
  (forall x y, exists v, draws (make_Gaussian NumR (default_desc NumR) case_bar 1 50 50) false x y v).
Proof.
  unfold param, case_bar. cbn [nth Nat.add length]. repeat split; try lia; try lra.
  intros x y. eexists. eexists. split; [reflexivity|]. unfold GetValue. cbn [elliptical ob_nsub bind]. unfold subsamples. cbn [andb bind]. reflexivity.
Qed.
Definition case_v2 : list R := [7; 30; 100; 5; 20; 1 / 2; 1; 3].
Example C97_case : (1 + 7 <= length case_v2)%nat /\ param case_v2 1 1%nat <> 0 /\ param case_v2 1 2%nat <> 0 /\ param case_v2 1 4%nat <> 0 /\
  param case_v2 1 5%nat <> 0 /\ Rabs 0 <> Rabs 10.
Proof.
  unfold param, case_v2. cbn [nth Nat.add length]. repeat split; try lia; try lra. rewrite Rabs_R0, Rabs_pos_eq by lra. lra.
Qed.

Print Assumptions C96_bar.
Print Assumptions C96_floor.
Print Assumptions C96_subsampling.
Print Assumptions C97_subsampling.
Print Assumptions C97_disc.
Print Assumptions C97_first_refuted.
Print Assumptions C97_history_refuted.
