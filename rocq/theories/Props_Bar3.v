(** C98, C99: TriaxBar3D and BPBar3D. *)
From Coq Require Import Reals Lra Lia List ZArith String FunctionalExtensionality.
From Coquelicot Require Import Coquelicot.
From Verif Require Import Func_Spec Func_Proof Func_Profile Los_Spec Bar3_Model.
Import ListNotations.
Open Scope R_scope.
Set Implicit Arguments.
Unset Strict Implicit.

(** The parameters of the function, from position [offset] on *)
Definition param (params : list R) (offset : nat) : nat -> R := fun i => nth (offset + i) params 0.
(** What a function made by Setup draws at a point, if [Q] integrates *)
Definition drawn (made : res (Obj3 R)) (Q : (R -> R) -> R -> R -> R) (x y v : R) : Prop := exists o, made = Ok o /\ GetValue3D NumR Q o x y = v.

Lemma get_param params offset i n : (offset + n <= List.length params)%nat -> (i < n)%nat -> get params (i + offset) = Ok (param params offset i).
Proof. intros H I. unfold param. rewrite (Nat.add_comm i). apply get_nth. lia. Qed.

(** A bar in a plane with line of nodes in the direction [phi] and inclination [i], its major axis at the angle [t] from the
    line of nodes: the coordinates of the vector [v] along the bar, across it, and out of its plane *)
Definition bar_u (phi i t : R) (v : vec) : R := dot v (in_plane phi i t).
Definition bar_w (phi i t : R) (v : vec) : R := dot v (in_plane phi i (t + PI / 2)).
Definition bar_z (phi i : R) (v : vec) : R := Rabs (dot v (pole phi i)).

Lemma coords PA inc barPA dx dy s :
  let phi := (PA + 90) * deg in let i := inc * deg in let t := (barPA + 90) * deg in
  let xp := dx * cosPA NumR PA + dy * sinPA NumR PA in
  let yp := - dx * sinPA NumR PA + dy * cosPA NumR PA in
  Compute3dObjectCoords NumR s xp (yp * cos i) (yp * sin i) (sin i) (cos i) (cosPA NumR barPA) (sinPA NumR barPA) =
  (bar_u phi i t (mkvec dx dy s), bar_w phi i t (mkvec dx dy s), bar_z phi i (mkvec dx dy s)).
Proof.
  intros phi i t xp yp. unfold xp, yp, Compute3dObjectCoords, cosPA, sinPA, bar_u, bar_w, bar_z, in_plane, combine, nodes, Los_Spec.across, pole, dot.
  cbn [vx vy vz nadd nsub nmul nneg nabs ncos nsin nofZ NumR]. rewrite deg_eq. fold phi t.
  rewrite (cos_plus t), (sin_plus t), cos_PI2, sin_PI2. f_equal; [f_equal; ring|]. f_equal. ring.
Qed.

(** A Gaussian ellipsoid with semi-axes in the ratios 1 : q : qz *)
Definition ellipsoid (J sigma q qz u w z : R) : R := J * exp (- (u² + (w / q)² + (z / qz)²) / (2 * sigma²)).

(** TriaxBar3D integrates the ellipsoid from 4 sigma^2 before to 4 sigma^2 behind the plane of the sky.
    The parameters are PA inc barPA J_0 sigma q q_z. *)
Theorem C98_column_partial : forall params offset x0 y0 Q x y, (offset + 7 <= List.length params)%nat ->
  let p := param params offset in
  let phi := (p 0%nat + 90) * deg in let i := p 1%nat * deg in let t := (p 2%nat + 90) * deg in
  drawn (make_TriaxBar3D NumR params offset x0 y0) Q x y
    (Q (fun s => let v := mkvec (x - x0) (y - y0) s in
                 ellipsoid (p 3%nat) (p 4%nat) (p 5%nat) (p 6%nat) (bar_u phi i t v) (bar_w phi i t v) (bar_z phi i v))
       (- (4 * (p 4%nat)²)) (4 * (p 4%nat)²)).
Proof.
  intros params offset x0 y0 Q x y L p phi i t. unfold drawn, make_TriaxBar3D. rewrite !(get_param L) by lia. fold p. cbn [bind].
  eexists. split; [reflexivity|]. unfold GetValue3D. cbn [o3_x0 o3_y0 o3_cosPA o3_sinPA o3_cosInc o3_sinInc o3_density o3_limit].
  cbn [nadd nsub nmul nneg ncos nsin nofZ NumR]. rewrite deg_eq.
  replace (2 * (2 * p 4%nat * p 4%nat)) with (4 * (p 4%nat)²) by (unfold Rsqr; ring).
  f_equal. apply functional_extensionality. intros s. unfold LuminosityDensity_TriaxBar.
  pose proof (@coords (p 0%nat) (p 1%nat) (p 2%nat) (x - x0) (y - y0) s) as C. cbv zeta in C. fold phi i t in C.
  change (p 1%nat * deg) with i. rewrite C. unfold CalculateTriaxRadiusSquared_simple, ellipsoid. cbv zeta.
  cbn [nadd nsub nmul ndiv nneg nabs nexp nofZ NumR].
  assert (A : forall a, Rabs a * Rabs a = a²) by (intros a; rewrite (Rsqr_abs a); reflexivity).
  rewrite !A, (Rmult_assoc 2). reflexivity.
Qed.

(** The range is proportional to the square of sigma. For small sigma most of the light is missed: of a bar seen face-on, the
    value at the centre is less than half of the light within one scale height of the plane. *)
Lemma ellipsoid_centre J sigma q qz s phi t : q <> 0 ->
  let v := mkvec 0 0 s in ellipsoid J sigma q qz (bar_u phi 0 t v) (bar_w phi 0 t v) (bar_z phi 0 v) = J * exp (- (s * s) * (/ qz * / qz * / (2 * sigma²))).
Proof.
  intros Hq v. unfold ellipsoid, bar_u, bar_w, bar_z, v, in_plane, combine, nodes, Los_Spec.across, pole, dot. cbn [vx vy vz]. rewrite sin_0, cos_0.
  replace (0 * (cos t * cos phi + sin t * (- sin phi * 1)) + 0 * (cos t * sin phi + sin t * (cos phi * 1)) + s * (cos t * 0 + sin t * 0)) with 0 by ring.
  match goal with |- context [?a / q] => replace a with 0 by ring end.
  replace (0 * (- sin phi * 0) + 0 * (cos phi * 0) + s * - (1)) with (- s) by ring. rewrite Rabs_Ropp.
  do 2 f_equal. unfold Rdiv. rewrite (Rsqr_mult (Rabs s)), <- Rsqr_abs. unfold Rsqr. ring.
Qed.

Lemma gauss_int J c a b : ex_RInt (fun s => J * exp (- (s * s) * c)) a b.
Proof. apply (ex_RInt_continuous (V := R_CompleteNormedModule)). intros s _. apply (ex_derive_continuous (V := R_NormedModule)). auto_derive. exact I. Qed.

Theorem C98_reach_refuted : forall params offset x0 y0 Q tol, (offset + 7 <= List.length params)%nat -> accurate tol Q -> 0 <= tol ->
  let p := param params offset in
  let sigma := p 4%nat in let qz := p 6%nat in
  p 1%nat = 0 -> 0 < p 3%nat -> 0 < sigma -> p 5%nat <> 0 -> 0 < qz ->
  8 * (1 + tol) * sigma < qz * exp (- (1 / 2)) ->
  exists v, drawn (make_TriaxBar3D NumR params offset x0 y0) Q x0 y0 v /\
    2 * v < RInt (fun s => ellipsoid (p 3%nat) sigma (p 5%nat) qz 0 0 s) (- (sigma * qz)) (sigma * qz).
Proof.
  intros params offset x0 y0 Q tol L Acc Ht p sigma qz Hi HJ Hs Hq Hz Hsm. eexists. split; [apply (C98_column_partial _ _ _ _ _ L)|].
  fold p. rewrite Hi. rewrite (Rmult_0_l deg). fold sigma qz.
  rewrite !Rminus_diag_eq by reflexivity.
  set (c := / qz * / qz * / (2 * sigma²)).
  assert (Pc : 0 < c). { unfold c, Rsqr. apply Rmult_lt_0_compat; [apply Rmult_lt_0_compat|]; apply Rinv_0_lt_compat; nra. }
  match goal with |- 2 * Q ?f _ _ < _ => replace f with (fun s => p 3%nat * exp (- (s * s) * c)) by
    (apply functional_extensionality; intros s; symmetry; apply (ellipsoid_centre (p 3%nat) sigma qz s _ _ Hq)) end.
  replace (fun s => ellipsoid (p 3%nat) sigma (p 5%nat) qz 0 0 s) with (fun s => p 3%nat * exp (- (s * s) * c)).
  2:{ apply functional_extensionality. intros s. unfold ellipsoid, c, Rdiv, Rsqr. do 2 f_equal. ring. }
  set (J := p 3%nat) in *. set (f := fun s => J * exp (- (s * s) * c)).
  assert (P : forall s, 0 <= f s) by (intros s; unfold f; apply Rmult_le_pos; [lra|apply Rlt_le, exp_pos]).
  set (l := 4 * sigma²). assert (Pl : 0 < l) by (unfold l, Rsqr; nra).
  assert (A : Rabs (Q f (- l) l - RInt f (- l) l) <= tol * RInt f (- l) l) by (apply Acc; [lra|apply gauss_int|auto]).
  assert (B : RInt f (- l) l <= J * (2 * l)).
  { apply Rle_trans with (RInt (fun _ => J) (- l) l).
    - apply RInt_le; [lra|apply gauss_int|apply ex_RInt_const|]. intros s _. unfold f. rewrite <- (Rmult_1_r J) at 2. apply Rmult_le_compat_l; [lra|].
      apply Rle_trans with (exp 0); [apply exp_le; nra|rewrite exp_0; lra].
    - rewrite RInt_const. unfold scal; simpl; unfold mult; simpl. lra. }
  set (b := sigma * qz). assert (Pb : 0 < b) by (unfold b; nra).
  assert (C : J * exp (- (1 / 2)) * (2 * b) <= RInt f (- b) b).
  { apply Rle_trans with (RInt (fun _ => J * exp (- (1 / 2))) (- b) b).
    - rewrite RInt_const. unfold scal; simpl; unfold mult; simpl. lra.
    - apply RInt_le; [lra|apply ex_RInt_const|apply gauss_int|]. intros s Hb. unfold f. apply Rmult_le_compat_l; [lra|]. apply exp_le.
      assert (E : b * b * c = 1 / 2) by (unfold b, c, Rsqr; field; lra). assert (s * s <= b * b) by nra. nra. }
  assert (U : Q f (- l) l <= (1 + tol) * (J * (2 * l))).
  { apply Rle_trans with ((1 + tol) * RInt f (- l) l); [|apply Rmult_le_compat_l; lra].
    apply Rabs_le_between in A. lra. }
  apply Rlt_le_trans with (J * exp (- (1 / 2)) * (2 * b)); [|exact C].
  apply Rle_lt_trans with (2 * ((1 + tol) * (J * (2 * l)))); [lra|].
  replace (2 * ((1 + tol) * (J * (2 * l)))) with (J * (2 * sigma) * (8 * (1 + tol) * sigma)) by (unfold l, Rsqr; ring).
  replace (J * exp (- (1 / 2)) * (2 * b)) with (J * (2 * sigma) * (qz * exp (- (1 / 2)))) by (unfold b; ring).
  apply Rmult_lt_compat_l; [|exact Hsm]. nra.
Qed.

(** BPBar3D. The value of the parameter with a given name *)
Fixpoint index_of (name : string) (l : list string) : nat :=
  match l with [] => 0%nat | a :: r => if String.eqb a name then 0%nat else S (index_of name r) end.
Definition named (params : list R) (offset : nat) (name : string) : R := param params offset (index_of name BPBar3D_labels).

(** The flat outer part: a broken exponential in the plane, exponential in height *)
Definition outer_part (J q h1 h2 rb alpha z0 u w z : R) : R := broken_exp J h1 h2 rb alpha (sqrt (u * u + (w / q) * (w / q))) * exp (- z / z0).
(** The box/peanut part: exponential in the plane, and exponential in height with a scale height which is greatest at the
    distance r_max from the centre along the bar *)
Definition peanut_scale (r_max z_max sigma u w : R) : R :=
  z_max * (exp (- ((u - r_max)² + w²) / (2 * sigma²)) + exp (- ((u + r_max)² + w²) / (2 * sigma²))).
Definition peanut_part (J q h r_max z_max sigma z0 u w z : R) : R :=
  let k := peanut_scale r_max z_max sigma u (w / q) in J / k * exp (- sqrt (u * u + (w / q) * (w / q)) / h) * exp (- z / (k * z0)).

(** What is integrated, for a default description of the image: as meant, except that the parameter named h_bp is used as
    r_bp_max, that named r_bp_max as z_bp_max and that named z_bp_max as h_bp *)
Theorem C99_density_partial : forall params offset x0 y0 Q x y, (offset + 16 <= List.length params)%nat ->
  let par := named params offset in
  let phi := (par "PA"%string + 90) * deg in let i := par "inclination"%string * deg in let t := (par "barPA"%string + 90) * deg in
  par "alpha"%string <> 0 ->
  exists f, drawn (make_BPBar3D NumR params offset x0 y0 (default_desc NumR)) Q x y (Q f (- (5 * par "r_break"%string)) (5 * par "r_break"%string)) /\
    forall s, let v := mkvec (x - x0) (y - y0) s in
      let u := bar_u phi i t v in let w := bar_w phi i t v in let z := bar_z phi i v in
      exists o, f s = o + peanut_part (par "J_0_bp"%string) (1 - par "ell_bp"%string) (par "z_bp_max"%string) (par "h_bp"%string) (par "r_bp_max"%string) (par "sigma_bp"%string) (par "z_0"%string) u w z /\
        relatively_close (Rabs (1 / par "alpha"%string * (1 / par "h1"%string - 1 / par "h2"%string)) * exp (-100)) o
          (outer_part (par "J_0_outer"%string) (1 - par "ell_outer"%string) (par "h1"%string) (par "h2"%string) (par "r_break"%string) (par "alpha"%string) (par "z_0"%string) u w z).
Proof.
  intros params offset x0 y0 Q x y L par phi i t Ha. set (p := param params offset).
  eexists. split.
  - unfold drawn, make_BPBar3D. rewrite !(get_param L) by lia. fold p. cbn [bind]. eexists. split; [reflexivity|]. unfold GetValue3D.
    cbn [o3_x0 o3_y0 o3_cosPA o3_sinPA o3_cosInc o3_sinInc o3_density o3_limit]. cbn [default_desc imageRotation pixelScaling intensityScale].
    cbn [nadd nsub nmul nneg ncos nsin nofZ NumR]. rewrite deg_eq. rewrite !Rmult_1_r, Rminus_0_r. reflexivity.
  - intros s v u w z. unfold LuminosityDensity_BPBar3D.
    pose proof (@coords (p 0%nat) (p 1%nat) (p 2%nat) (x - x0) (y - y0) s) as C. cbv zeta in C.
    rewrite C. clear C. change (bar_u _ _ _ _) with u. change (bar_w _ _ _ _) with w. change (bar_z _ _ _) with z.
    eexists. split.
    + cbn [nadd nsub nmul ndiv nneg nabs nexp nsqrt nofZ NumR]. f_equal.
      unfold peanut_part, peanut_scale, DoubleGaussian2D. cbn [nadd nsub nmul ndiv nneg nexp nofZ NumR].
      change (par "J_0_bp"%string) with (p 11%nat). change (par "ell_bp"%string) with (p 10%nat). change (par "z_bp_max"%string) with (p 14%nat).
      change (par "h_bp"%string) with (p 12%nat). change (par "r_bp_max"%string) with (p 13%nat). change (par "sigma_bp"%string) with (p 15%nat).
      change (par "z_0"%string) with (p 3%nat). cbv zeta.
      assert (E : forall a, - (a * a) / (2 * p 15%nat * p 15%nat) - w / (1 - p 10%nat) * (w / (1 - p 10%nat)) / (2 * p 15%nat * p 15%nat)
        = - (a² + (w / (1 - p 10%nat))²) / (2 * (p 15%nat)²)).
      { intros a. unfold Rsqr. rewrite (Rmult_assoc 2). unfold Rdiv. ring. }
      rewrite !E. reflexivity.
    + cbn [nadd nsub nmul ndiv nneg nabs nexp nsqrt nofZ NumR]. unfold outer_part, relatively_close.
      set (r := sqrt _).
      pose proof (@BrokenExp_close (p 5%nat) (p 6%nat) (p 7%nat) (p 8%nat) (p 9%nat) r Ha) as B. cbv zeta in B.
      unfold relatively_close in B.
      change (par "J_0_outer"%string) with (p 5%nat). change (par "h1"%string) with (p 6%nat). change (par "h2"%string) with (p 7%nat).
      change (par "r_break"%string) with (p 8%nat). change (par "alpha"%string) with (p 9%nat). change (par "z_0"%string) with (p 3%nat).
      change (par "ell_outer"%string) with (p 4%nat). fold r.
      match goal with |- Rabs (p 5%nat * ?c * ?e - ?b * ?e) <= _ => replace (p 5%nat * c * e - b * e) with ((p 5%nat * c - b) * e) by ring end.
      rewrite !Rabs_mult.
      match goal with |- _ <= ?a * ?b * ?g => replace (a * b * g) with (a * g * b) by ring end.
      apply Rmult_le_compat_r; [apply Rabs_pos|].
      match goal with |- Rabs (?a - _) <= _ => match type of B with Rabs (?a' - _) <= _ => replace a with a'; [rewrite <- (Rabs_mult (1 / p 9%nat)); exact B|] end end.
      unfold BrokenExp_intensity, CalculateIntensity_BrokenExp. cbn [nltb nadd nsub nmul ndiv nneg nexp npow nofZ NumR].
      destruct (Rltb _ _); ring.
Qed.

(** The density in the centre does not depend on the scale length of the peanut part; in the code, changing the parameter
    named h_bp changes it *)
Theorem C99_meant : forall J q h h' r_max z_max sigma z0, peanut_part J q h r_max z_max sigma z0 0 0 0 = peanut_part J q h' r_max z_max sigma z0 0 0 0.
Proof.
  intros. unfold peanut_part. do 3 f_equal. unfold Rdiv. rewrite !Rmult_0_l, Rplus_0_l, sqrt_0, Ropp_0. now rewrite !Rmult_0_l.
Qed.

Definition with_param (params : list R) (offset : nat) (name : string) (a : R) : list R :=
  firstn (offset + index_of name BPBar3D_labels) params ++ a :: skipn (S (offset + index_of name BPBar3D_labels)) params.

(** the density at the centre that is handed to the integrator: a way of observing it *)
Definition at_centre : (R -> R) -> R -> R -> R := fun f _ _ => f 0.

Theorem C99_names_refuted : forall params offset x0 y0 a b va vb, (offset + 16 <= List.length params)%nat ->
  let par := named params offset in
  par "J_0_bp"%string <> 0 -> par "r_bp_max"%string <> 0 -> par "sigma_bp"%string <> 0 -> Rabs a <> Rabs b ->
  drawn (make_BPBar3D NumR (with_param params offset "h_bp" a) offset x0 y0 (default_desc NumR)) at_centre x0 y0 va ->
  drawn (make_BPBar3D NumR (with_param params offset "h_bp" b) offset x0 y0 (default_desc NumR)) at_centre x0 y0 vb ->
  va <> vb.
Proof.
  intros params offset x0 y0 a b va vb L par NJ Nz Ns Nab Da Db.
  assert (G : forall c v, drawn (make_BPBar3D NumR (with_param params offset "h_bp" c) offset x0 y0 (default_desc NumR)) at_centre x0 y0 v ->
    exists o, v = o + par "J_0_bp"%string / (par "r_bp_max"%string * (2 * exp (- c² / (2 * (par "sigma_bp"%string)²)))) /\
      o = par "J_0_outer"%string * CalculateIntensity_BrokenExp NumR 0 (par "h1"%string) (par "h2"%string) (par "r_break"%string) (par "alpha"%string)).
  { intros c v (o & E & V).
    assert (L' : (offset + 16 <= List.length (with_param params offset "h_bp" c))%nat).
    { unfold with_param. rewrite app_length, firstn_length. cbn [List.length]. rewrite skipn_length. lia. }
    assert (P : forall i, (i < 16)%nat -> i <> 12%nat -> param (with_param params offset "h_bp" c) offset i = param params offset i).
    { intros i Hi N12. unfold param, with_param. change (index_of "h_bp" BPBar3D_labels) with 12%nat.
      destruct (Nat.lt_ge_cases i 12) as [H|H].
      - rewrite app_nth1 by (rewrite firstn_length; lia). rewrite <- (firstn_skipn (offset + 12) params) at 2. rewrite app_nth1 by (rewrite firstn_length; lia). reflexivity.
      - rewrite app_nth2 by (rewrite firstn_length; lia). rewrite firstn_length, Nat.min_l by lia.
        replace (offset + i - (offset + 12))%nat with (S (i - 13)) by lia. cbn [nth].
        rewrite <- (firstn_skipn (S (offset + 12)) params) at 2. rewrite app_nth2 by (rewrite firstn_length; lia). rewrite firstn_length, Nat.min_l by lia.
        f_equal. lia. }
    assert (P12 : param (with_param params offset "h_bp" c) offset 12 = c).
    { unfold param, with_param. change (index_of "h_bp" BPBar3D_labels) with 12%nat. rewrite app_nth2 by (rewrite firstn_length; lia).
      rewrite firstn_length, Nat.min_l by lia. now rewrite Nat.sub_diag. }
    unfold make_BPBar3D in E. rewrite !(get_param L') in E by lia. rewrite P12, !P in E by lia. cbn [bind] in E.
    match type of E with Ok ?o1 = Ok o => assert (EE : o = o1) by congruence end. rewrite EE in V. clear E EE. subst v.
    set (p := param params offset). unfold at_centre, GetValue3D.
    cbn [o3_x0 o3_y0 o3_cosPA o3_sinPA o3_cosInc o3_sinInc o3_density o3_limit default_desc imageRotation pixelScaling intensityScale].
    cbn [nadd nsub nmul nneg ncos nsin nofZ NumR]. rewrite deg_eq. rewrite !Rmult_1_r, Rminus_0_r.
    unfold LuminosityDensity_BPBar3D.
    pose proof (@coords (p 0%nat) (p 1%nat) (p 2%nat) (x0 - x0) (y0 - y0) 0) as C. cbv zeta in C. rewrite C. clear C.
    assert (Z : forall e, dot (mkvec (x0 - x0) (y0 - y0) 0) e = 0) by (intros e; unfold dot; cbn [vx vy vz]; ring).
    unfold bar_u, bar_w, bar_z. rewrite !Z, Rabs_R0.
    unfold DoubleGaussian2D. cbn [nadd nsub nmul ndiv nneg nexp nsqrt nofZ NumR]. unfold Rdiv.
    rewrite !Rmult_0_l, !Rplus_0_l, sqrt_0, !Ropp_0, !Rmult_0_l, exp_0, !Rmult_1_r, !Rminus_0_r.
    eexists. split; [|reflexivity]. f_equal. unfold Rsqr.
    change (par "J_0_bp"%string) with (p 11%nat). change (par "r_bp_max"%string) with (p 13%nat). change (par "sigma_bp"%string) with (p 15%nat).
    rewrite (Rmult_assoc 2 (p 15%nat)). replace ((0 - c) * (0 - c)) with (c * c) by ring. do 3 f_equal. ring. }
  destruct (G _ _ Da) as (o & -> & Eo). destruct (G _ _ Db) as (o' & -> & Eo'). rewrite <- Eo in Eo'. subst o'. clear G Da Db.
  intros H. apply Rplus_eq_reg_l in H. unfold Rdiv in H. apply Rmult_eq_reg_l in H; [|exact NJ].
  apply (f_equal Rinv) in H. rewrite !Rinv_involutive in H.
  - apply Rmult_eq_reg_l in H; [|exact Nz]. apply Rmult_eq_reg_l in H; [|lra]. apply exp_inv in H.
    apply Rmult_eq_reg_r in H. + apply Ropp_eq_compat in H. rewrite !Ropp_involutive in H. apply Nab. now apply Rsqr_eq_abs_0.
    + apply Rinv_neq_0_compat. apply Rmult_integral_contrapositive. split; [lra|]. intros K. apply Rsqr_eq_0 in K. contradiction.
  - apply Rmult_integral_contrapositive. split; [exact Nz|]. apply Rgt_not_eq. apply Rmult_lt_0_compat; [lra|apply exp_pos].
  - apply Rmult_integral_contrapositive. split; [exact Nz|]. apply Rgt_not_eq. apply Rmult_lt_0_compat; [lra|apply exp_pos].
Qed.

(** Concrete cases *)
Definition case_triax : list R := [7; 30; 0; 45; 100; 1 / 100; 1 / 2; 1 / 3].
Example C98_case : (1 + 7 <= List.length case_triax)%nat /\ accurate 0 (fun f a b => RInt f a b) /\
  let p := param case_triax 1 in
  p 1%nat = 0 /\ 0 < p 3%nat /\ 0 < p 4%nat /\ p 5%nat <> 0 /\ 0 < p 6%nat /\ 8 * (1 + 0) * p 4%nat < p 6%nat * exp (- (1 / 2)).
Proof.
  split; [cbn; lia|]. split.
  - intros f a b _ _ _. rewrite Rminus_diag_eq, Rabs_R0 by reflexivity. lra.
  - unfold param, case_triax. cbn [nth Nat.add]. repeat split; try lra. pose proof (exp_ineq1 (- (1 / 2))) as E. assert (1 + - (1 / 2) < exp (- (1 / 2))) by (apply E; lra). lra.
Qed.
Definition case_bp : list R := [7; 30; 40; 45; 3; 1 / 2; 100; 50; 5; 30; 1; 1 / 4; 80; 6; 12; 2; 4].
Example C99_case : (1 + 16 <= List.length case_bp)%nat /\ let par := named case_bp 1 in
  par "alpha"%string <> 0 /\ par "J_0_bp"%string <> 0 /\ par "r_bp_max"%string <> 0 /\ par "sigma_bp"%string <> 0 /\ Rabs 6 <> Rabs 8 /\
  (forall a, exists v, drawn (make_BPBar3D NumR (with_param case_bp 1 "h_bp" a) 1 50 50 (default_desc NumR)) at_centre 50 50 v).
Proof.
  split; [cbn; lia|]. unfold named, param, case_bp. cbn [index_of BPBar3D_labels String.eqb Ascii.eqb Bool.eqb nth Nat.add]. repeat split; try lra.
  - rewrite !Rabs_pos_eq by lra. lra.
  - intros a. eexists. eexists. split; reflexivity.
Qed.

Print Assumptions C98_column_partial.
Print Assumptions C98_reach_refuted.
Print Assumptions C99_density_partial.
Print Assumptions C99_meant.
Print Assumptions C99_names_refuted.
