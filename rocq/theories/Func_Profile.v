(** Generalised ellipses (C53), profiles (C22) and overflow guards (C24). *)
From Coq Require Import Reals Lra Lia List ZArith.
From Verif Require Import Func_Spec Func_Proof Func_Sym.
Set Implicit Arguments. Unset Strict Implicit.
Local Open Scope R_scope.

(** ---- powers of non-negative numbers ---- *)

Lemma Rpow_eq x y : 0 < x -> Rpow x y = Rpower x y.
Proof. intros H. unfold Rpow. destruct (Req_EM_T x 0); [lra|reflexivity]. Qed.
Lemma Rpow_0 y : y <> 0 -> Rpow 0 y = 0.
Proof. intros H. unfold Rpow. destruct (Req_EM_T 0 0); [|lra]. destruct (Req_EM_T y 0); [contradiction|reflexivity]. Qed.
Lemma Rpow_pos x y : 0 < x -> 0 < Rpow x y.
Proof. intros H. rewrite Rpow_eq by auto. apply exp_pos. Qed.
Lemma Rpow_nonneg x y : 0 <= Rpow x y.
Proof. unfold Rpow. destruct (Req_EM_T x 0); [destruct (Req_EM_T y 0); lra|]. apply Rlt_le, exp_pos. Qed.
Lemma Rpow_1 y : Rpow 1 y = 1.
Proof. rewrite Rpow_eq by lra. unfold Rpower. rewrite ln_1, Rmult_0_r. apply exp_0. Qed.
Lemma Rpow_x0 x : Rpow x 0 = 1.
Proof.
  unfold Rpow. destruct (Req_EM_T x 0); [destruct (Req_EM_T 0 0); lra|]. unfold Rpower.
  rewrite Rmult_0_l. apply exp_0.
Qed.
Lemma Rpow_zero_iff x y : 0 <= x -> y <> 0 -> Rpow x y = 0 -> x = 0.
Proof. intros P Y H. destruct (Req_dec x 0) as [|Z]; auto. pose proof (@Rpow_pos x y). lra. Qed.
Lemma Rpow_le a b e : 0 <= a <= b -> 0 <= e -> Rpow a e <= Rpow b e.
Proof.
  intros (A & B) E. destruct (Req_dec e 0) as [->|Ne]. { rewrite !Rpow_x0. lra. }
  destruct (Req_dec a 0) as [->|Na]. { rewrite Rpow_0 by auto. apply Rpow_nonneg. }
  rewrite !Rpow_eq by lra. apply Rle_Rpower_l; lra.
Qed.
Lemma Rpow_neg x e : 0 < x -> Rpow x (- e) = / Rpow x e.
Proof. intros H. rewrite !Rpow_eq by auto. apply Rpower_Ropp. Qed.
Lemma Rpow_ge_neg a b e : 0 < a <= b -> 0 <= e -> Rpow b (- e) <= Rpow a (- e).
Proof.
  intros (A & B) E. rewrite !Rpow_neg by lra. apply Rinv_le_contravar; [now apply Rpow_pos|].
  apply Rpow_le; lra.
Qed.
Lemma Rpow_mult_base a b e : 0 <= a -> 0 <= b -> e <> 0 -> Rpow (a * b) e = Rpow a e * Rpow b e.
Proof.
  intros A B E. destruct (Req_dec a 0) as [->|Na]. { rewrite Rmult_0_l, Rpow_0 by auto. ring. }
  destruct (Req_dec b 0) as [->|Nb]. { rewrite Rmult_0_r, Rpow_0 by auto. ring. }
  assert (0 < a * b) by nra. rewrite !Rpow_eq by lra. symmetry. apply Rpower_mult_distr; lra.
Qed.
Lemma Rpow_mult_exp x a b : 0 < x -> Rpow (Rpow x a) b = Rpow x (a * b).
Proof. intros H. rewrite !(@Rpow_eq x) by auto. rewrite Rpow_eq by apply exp_pos. apply Rpower_mult. Qed.
Lemma Rpow_root x e : 0 <= x -> e <> 0 -> Rpow (Rpow x e) (1 / e) = x.
Proof.
  intros P E. destruct (Req_dec x 0) as [->|N].
  - assert (1 / e <> 0) by (unfold Rdiv; apply Rmult_integral_contrapositive; split; [lra|now apply Rinv_neq_0_compat]).
    rewrite !Rpow_0 by auto. reflexivity.
  - rewrite Rpow_mult_exp by lra. replace (e * (1 / e)) with 1 by (field; auto).
    rewrite Rpow_eq by lra. apply Rpower_1. lra.
Qed.
Lemma Rpow_2 x : 0 <= x -> Rpow x 2 = x * x.
Proof.
  intros P. destruct (Req_dec x 0) as [->|N]. { rewrite Rpow_0; lra. }
  rewrite Rpow_eq by lra. replace 2 with (INR 2) by (simpl; lra). rewrite Rpower_pow by lra. simpl. ring.
Qed.
Lemma Rpow_half x : 0 <= x -> Rpow x (1 / 2) = sqrt x.
Proof.
  intros P. destruct (Req_dec x 0) as [->|N]. { rewrite sqrt_0, Rpow_0; lra. }
  rewrite Rpow_eq by lra. replace (1 / 2) with (/ 2) by lra. apply Rpower_sqrt. lra.
Qed.
Lemma Rpow_plus x a b : 0 < x -> Rpow x (a + b) = Rpow x a * Rpow x b.
Proof. intros H. rewrite !Rpow_eq by auto. apply Rpower_plus. Qed.

(** ---- C53 ---- *)

Lemma gen_radius_super PA q c0 dx dy :
  GeneralizedRadius NumR PA q (c0 + 2) (1 / (c0 + 2)) dx dy =
  superellipse_radius c0 q (dx * cos ((PA + 90) * deg) + dy * sin ((PA + 90) * deg))
                           (- dx * sin ((PA + 90) * deg) + dy * cos ((PA + 90) * deg)).
Proof.
  unfold GeneralizedRadius, superellipse_radius, cosPA, sinPA.
  cbn [nadd nmul ndiv nneg nabs npow ncos nsin nofZ NumR]. rewrite deg_eq. reflexivity.
Qed.

Lemma super_nonneg c0 q u v : 0 <= superellipse_radius c0 q u v.
Proof. apply Rpow_nonneg. Qed.

Lemma inv_neq x : x <> 0 -> 1 / x <> 0.
Proof. intros H. unfold Rdiv. apply Rmult_integral_contrapositive. split; [lra|now apply Rinv_neq_0_compat]. Qed.

Lemma super_zero c0 q u v : q <> 0 -> -2 < c0 -> superellipse_radius c0 q u v = 0 <-> u = 0 /\ v = 0.
Proof.
  intros Q C. unfold superellipse_radius.
  pose proof (Rpow_nonneg (Rabs u) (c0 + 2)) as A. pose proof (Rpow_nonneg (Rabs (v / q)) (c0 + 2)) as B.
  split.
  - intros H. apply Rpow_zero_iff in H; [|lra|apply inv_neq; lra].
    assert (Eu : Rpow (Rabs u) (c0 + 2) = 0) by lra. assert (Ev : Rpow (Rabs (v / q)) (c0 + 2) = 0) by lra.
    apply Rpow_zero_iff in Eu; [|apply Rabs_pos|lra]. apply Rpow_zero_iff in Ev; [|apply Rabs_pos|lra].
    split. { destruct (Req_dec u 0); auto. pose proof (Rabs_pos_lt _ H0). lra. }
    destruct (Req_dec (v / q) 0) as [E|E]; [|pose proof (Rabs_pos_lt _ E); lra].
    assert (v = v / q * q) by (field; auto). rewrite E in H0. lra.
  - intros (-> & ->). replace (0 / q) with 0 by (field; auto). rewrite Rabs_R0, Rpow_0 by lra.
    rewrite Rplus_0_r. apply Rpow_0, inv_neq. lra.
Qed.

Lemma super_scale c0 q u v s : -2 < c0 -> superellipse_radius c0 q (s * u) (s * v) = Rabs s * superellipse_radius c0 q u v.
Proof.
  intros C. unfold superellipse_radius.
  replace (s * v / q) with (s * (v / q)) by (unfold Rdiv; ring). rewrite !Rabs_mult.
  rewrite !Rpow_mult_base by (try apply Rabs_pos; lra).
  rewrite <- Rmult_plus_distr_l, Rpow_mult_base.
  - f_equal. apply Rpow_root; [apply Rabs_pos|lra].
  - apply Rpow_nonneg.
  - pose proof (Rpow_nonneg (Rabs u) (c0 + 2)). pose proof (Rpow_nonneg (Rabs (v / q)) (c0 + 2)). lra.
  - apply inv_neq; lra.
Qed.

Lemma super_reflect c0 q u v :
  superellipse_radius c0 q (- u) v = superellipse_radius c0 q u v /\
  superellipse_radius c0 q u (- v) = superellipse_radius c0 q u v.
Proof. unfold superellipse_radius. rewrite opp_div, !Rabs_Ropp. auto. Qed.

Lemma super_ellipse q u v : superellipse_radius 0 q u v = sqrt (u * u + (v / q) * (v / q)).
Proof.
  unfold superellipse_radius. rewrite !Rplus_0_l, !Rpow_2 by apply Rabs_pos.
  rewrite <- !Rabs_mult, !(Rabs_pos_eq (_ * _)) by nra. apply Rpow_half. nra.
Qed.

Lemma super_axes c0 q u v : -2 < c0 -> superellipse_radius c0 q u 0 = Rabs u /\ superellipse_radius c0 q 0 v = Rabs (v / q).
Proof.
  intros C. unfold superellipse_radius. replace (0 / q) with 0 by (unfold Rdiv; ring).
  rewrite Rabs_R0, Rpow_0 by lra. rewrite Rplus_0_l, Rplus_0_r.
  split; apply Rpow_root; try apply Rabs_pos; lra.
Qed.

(** the isophote of radius a: |u|^e + |v/q|^e = a^e *)
Lemma super_level c0 q u v a : -2 < c0 -> 0 <= a ->
  (superellipse_radius c0 q u v = a <-> Rpow (Rabs u) (c0 + 2) + Rpow (Rabs (v / q)) (c0 + 2) = Rpow a (c0 + 2)).
Proof.
  intros C A. unfold superellipse_radius.
  pose proof (Rpow_nonneg (Rabs u) (c0 + 2)). pose proof (Rpow_nonneg (Rabs (v / q)) (c0 + 2)).
  split.
  - intros <-. set (s := Rpow (Rabs u) (c0 + 2) + Rpow (Rabs (v / q)) (c0 + 2)).
    assert (Ps : 0 <= s) by (unfold s; lra).
    assert (Nz : c0 + 2 <> 0) by lra.
    pose proof (@Rpow_root s (1 / (c0 + 2)) Ps (inv_neq Nz)) as E.
    replace (1 / (1 / (c0 + 2))) with (c0 + 2) in E by (field; lra). now rewrite E.
  - intros ->. apply Rpow_root; lra.
Qed.

(** Value of a GenExponential component *)
Lemma GenExp_value K1 d ps off xc yc x y : (off + 5 <= length ps)%nat ->
  let p i := nth (i + off) ps 0 in
  let phi := direction (p 0%nat) (imageRotation d) in
  value_at NumR K1 GenExponential d ps off xc yc false x y =
  Ok (p 3%nat * intensityScale d *
      exp (- superellipse_radius (p 2%nat) (1 - p 1%nat)
               ((x - xc) * cos phi + (y - yc) * sin phi) (- (x - xc) * sin phi + (y - yc) * cos phi)
           / (p 4%nat * pixelScaling d))).
Proof.
  intros L p phi. destruct (@Setup_total _ NumR K1 GenExponential d ps off xc yc L) as (o & E).
  unfold value_at. rewrite E. cbn [bind]. rewrite (Setup_plain E). f_equal.
  cbn [Setup] in E. unfold make_GenExponential in E. getsE E. cbv zeta in E. apply Ok_inj in E. subst o. nths.
  unfold plain. cbn [gen_elliptical ob_point ob_x0 ob_y0].
  cbn [nadd nofZ ndiv nsub nmul NumR]. rewrite gen_radius_super. reflexivity.
Qed.

(** ---- C22: profiles along the ellipses ---- *)

Ltac open_setup E :=
  cbn [Setup] in E;
  unfold make_Exponential, make_Gaussian, make_Sersic, make_Moffat, make_ModifiedKing, make_ModifiedKing2,
    make_CoreSersic, make_NukerLaw, make_BrokenExponential, make_DoubleBrokenExponential, make_FlatExponential,
    make_GaussianRing, make_GaussianRing2Side, make_GenExponential, make_GenExponential2, make_GenSersic,
    make_FerrersBar2D, make_GaussianRingAz, make_EdgeOnRing, make_EdgeOnRing2Side, make_EdgeOnDisk,
    make_BrokenExponential2D, make_FlatSky, make_TiltedSkyPlane in E;
  getsE E; cbv zeta in E; apply Ok_inj in E.

Section Profiles.
Variables (d : ImageDesc R) (ps : list R) (off : nat).
Let p i := nth (i + off) ps 0.
Let L i := p i * pixelScaling d.
Let J i := p i * intensityScale d.

(** the profile of each elliptical class, from the raw parameters *)
Definition intensity_of (k : Kind) : R -> R :=
  match k with
  | Exponential => Exp_intensity NumR (J 2) (L 3)
  | Gaussian => Gaussian_intensity NumR (J 2) (2 * L 3 * L 3)
  | Sersic => Sersic_intensity NumR (J 3) (Calculate_bn NumR (p 2)) (L 4) (1 / p 2)
  | Moffat => Moffat_intensity NumR (J 2) (half NumR * L 3 / sqrt (Rpow 2 (1 / p 4) - 1)) (p 4)
  | ModifiedKing =>
      let C := 1 / Rpow (1 + (L 4 / L 3) * (L 4 / L 3)) (1 / p 5) in
      King_intensity NumR (J 2 * Rpow (1 - C) (- p 5)) (L 4) (1 / L 3) (1 / p 5) C (p 5)
  | ModifiedKing2 =>
      let C := 1 / Rpow (1 + (p 4 * L 3 / L 3) * (p 4 * L 3 / L 3)) (1 / p 5) in
      King_intensity NumR (J 2 * Rpow (1 - C) (- p 5)) (p 4 * L 3) (1 / L 3) (1 / p 5) C (p 5)
  | CoreSersic =>
      CoreSersic_intensity NumR
        (J 3 * Rpow 2 (- p 7 / p 6) * exp (Calculate_bn NumR (p 2) * Rpow (Rpow 2 (1 / p 6) * L 5 / L 4) (1 / p 2)))
        (p 2) (Calculate_bn NumR (p 2)) (L 4) (L 5) (p 6) (p 7)
  | NukerLaw =>
      Nuker_intensity NumR (J 2 * Rpow 2 ((p 5 - p 6) / p 4)) (L 3) (p 4) (p 6) ((p 5 - p 6) / p 4)
  | BrokenExponential =>
      let alpha := p 6 / pixelScaling d in
      let ex := 1 / alpha * (1 / L 3 - 1 / L 4) in
      BrokenExp_intensity NumR (J 2 * Rpow (1 + exp (- alpha * L 5)) (- ex)) (L 3) (L 4) (L 5) alpha ex
        (L 5 / L 4 - L 5 / L 3)
  | DoubleBrokenExponential =>
      DoubleBrokenExp_intensity NumR
        (p 2 * CalculateDBEScalingFactor NumR (p 3) (p 4) (p 5) (p 6) (p 7) (p 8) (p 9))
        (p 3) (p 4) (p 5) (p 6) (p 7) (p 8) (p 9)
        (1 / p 8 * (1 / p 3 - 1 / p 4)) (1 / p 9 * (1 / p 4 - 1 / p 5))
        (p 6 / p 4 - p 6 / p 3) (p 7 / p 5 - p 7 / p 4)
  | FlatExponential =>
      let ex := 1 / (p 5 * p 3) in
      FlatExp_intensity NumR (p 2 * Rpow (1 + exp (- p 5 * p 4)) ex) (p 3) (p 4) (p 5) ex
  | GaussianRing => GaussianRing_intensity NumR (J 2) (L 3) (2 * L 4 * L 4)
  | GaussianRing2Side => GaussianRing2Side_intensity NumR (J 2) (L 3) (2 * L 4 * L 4) (2 * L 5 * L 5)
  | _ => fun _ => 0
  end.

Lemma on_ellipse_eq K1 k xc yc a t : (off + nParams k <= length ps)%nat -> has_ellipses k = true ->
  component_axis_ratio ps off <> 0 ->
  on_ellipse K1 k d ps off xc yc a t = Ok (intensity_of k (Rabs a)).
Proof.
  intros Ln Hk Hq. destruct (@Setup_total _ NumR K1 k d ps off xc yc Ln) as (o & E).
  unfold on_ellipse, value_at. rewrite E. cbn [bind]. rewrite (Setup_plain E). f_equal.
  unfold component_direction, direction, component_axis_ratio in *.
  assert (X : forall (PA I : R) Int ns,
     (PA + 90) * deg = (nth off ps 0 - (if uses_description k then imageRotation d else 0) + 90) * deg ->
     plain (elliptical NumR xc yc PA (nth (1 + off) ps 0) Int ns)
       (ellipse_x xc ((nth off ps 0 - (if uses_description k then imageRotation d else 0) + 90) * deg) (1 - nth (1 + off) ps 0) a t)
       (ellipse_y yc ((nth off ps 0 - (if uses_description k then imageRotation d else 0) + 90) * deg) (1 - nth (1 + off) ps 0) a t)
     = Int (Rabs a)).
  { intros PA I Int ns HP. unfold plain. cbn [elliptical ob_point ob_x0 ob_y0]. rewrite <- HP.
    change (nsub NumR (nofZ NumR 1) (nth (1 + off) ps 0)) with (1 - nth (1 + off) ps 0).
    now rewrite radius_on_ellipse. }
  destruct k; try discriminate Hk; open_setup E; subst o; nths;
    (rewrite X; [reflexivity|exact 0|cbn [uses_description nsub NumR]; try reflexivity; ring]).
Qed.

End Profiles.

(** b_n of the Sersic profile *)
Lemma bn_pos n : 6 / 100 <= n -> 0 < Calculate_bn NumR n.
Proof.
  intros H. unfold Calculate_bn. cbn [nltb ndec nofZ nadd nsub nmul ndiv nneg NumR].
  change (IZR (10 ^ 2)) with 100. change (IZR (10 ^ 5)) with 100000. change (IZR (10 ^ 4)) with 10000.
  unfold Rltb. destruct (Rlt_dec (36 / 100) n) as [B|B].
  - assert (P : 0 < n) by lra.
    assert (Q : 0 < n * n) by nra. assert (Q3 : 0 < n * n * n) by nra. assert (Q4 : 0 < n * n * (n * n)) by nra.
    assert (E4 : 1679 / 100000 <= n * n * (n * n)).
    { assert (1296 / 10000 <= n * n) by nra. nra. }
    assert (T1 : 0 <= 9876543209876543 / IZR (10 ^ 18) / n).
    { apply Rmult_le_pos; [|left; now apply Rinv_0_lt_compat]. left. apply Rdiv_lt_0_compat; [lra|]. now apply IZR_lt. }
    assert (T2 : 0 <= 18028610621203215 / IZR (10 ^ 19) / (n * n)).
    { apply Rmult_le_pos; [|left; now apply Rinv_0_lt_compat]. left. apply Rdiv_lt_0_compat; [lra|]. now apply IZR_lt. }
    assert (T3 : 0 <= 11409410586365319 / IZR (10 ^ 20) / (n * n * n)).
    { apply Rmult_le_pos; [|left; now apply Rinv_0_lt_compat]. left. apply Rdiv_lt_0_compat; [lra|]. now apply IZR_lt. }
    assert (T4 : 71510122958919723 / IZR (10 ^ 21) / (n * n * (n * n)) <= 1 / 100).
    { apply Rmult_le_reg_r with (n * n * (n * n)); auto. unfold Rdiv at 1. rewrite Rmult_assoc, Rinv_l by lra.
      change (IZR (10 ^ 21)) with 1000000000000000000000. lra. }
    change (IZR (10 ^ 15)) with 1000000000000000. lra.
  - assert (U : n <= 36 / 100) by lra. clear B.
    set (g := 1095 / 100 - 1967 / 100 * n + 1343 / 100 * (n * n)).
    replace (_ + _ * (n * n) * (n * n)) with (1945 / 100000 - 8902 / 10000 * n + g * (n * n)) by (unfold g; ring).
    assert (K : forall lo hi c, lo <= n <= hi -> 0 <= lo -> 0 < c ->
       c < 1095 / 100 - 1967 / 100 * hi + 1343 / 100 * (lo * lo) ->
       0 < 1945 / 100000 - 8902 / 10000 * lo + c * (lo * lo) -> 8902 / 10000 <= 2 * c * lo ->
       0 < 1945 / 100000 - 8902 / 10000 * n + g * (n * n)).
    { intros lo hi c (A1 & A2) P0 Pc Hc Hv Hd.
      assert (G : c <= g). { unfold g. assert (lo * lo <= n * n) by nra. lra. }
      assert (c * (n * n) <= g * (n * n)) by (apply Rmult_le_compat_r; nra).
      assert (8902 / 10000 * (n - lo) <= c * (n * n) - c * (lo * lo)).
      { replace (c * (n * n) - c * (lo * lo)) with (c * (n + lo) * (n - lo)) by ring.
        apply Rmult_le_compat_r; nra. }
      lra. }
    destruct (Rle_or_lt n (7 / 100)); [apply (K (6/100) (7/100) (962/100)); lra|].
    destruct (Rle_or_lt n (1 / 10)); [apply (K (7/100) (1/10) 9); lra|].
    destruct (Rle_or_lt n (2 / 10)); [apply (K (1/10) (2/10) 7); lra|].
    apply (K (2/10) (36/100) 4); lra.
Qed.

Lemma exp_le x y : x <= y -> exp x <= exp y.
Proof. intros [H| ->]; [left; now apply exp_increasing|right; reflexivity]. Qed.
Lemma div_le a b h : 0 < h -> a <= b -> a / h <= b / h.
Proof. intros H E. apply Rmult_le_compat_r; auto. left. now apply Rinv_0_lt_compat. Qed.
Lemma div_nonneg a h : 0 < h -> 0 <= a -> 0 <= a / h.
Proof. intros H E. apply Rmult_le_pos; auto. left. now apply Rinv_0_lt_compat. Qed.
Lemma scaled_decr I f g : 0 <= I -> 0 <= g <= f -> 0 <= I * g <= I * f.
Proof. intros H (A & B). split; [now apply Rmult_le_pos|now apply Rmult_le_compat_l]. Qed.
Lemma sq_le a b : 0 <= a <= b -> a * a <= b * b. Proof. intros. nra. Qed.

Lemma Exp_decr I h a b : 0 <= I -> 0 < h -> 0 <= a <= b ->
  0 <= Exp_intensity NumR I h b <= Exp_intensity NumR I h a.
Proof.
  intros HI Hh (A & B). unfold Exp_intensity. cbn [nmul nexp ndiv nneg NumR]. apply scaled_decr; auto.
  split; [apply Rlt_le, exp_pos|]. apply exp_le. apply div_le; lra.
Qed.
Lemma Gaussian_decr I s a b : 0 <= I -> 0 < s -> 0 <= a <= b ->
  0 <= Gaussian_intensity NumR I s b <= Gaussian_intensity NumR I s a.
Proof.
  intros HI Hs H. unfold Gaussian_intensity. cbn [nmul nexp ndiv nneg NumR]. apply scaled_decr; auto.
  split; [apply Rlt_le, exp_pos|]. apply exp_le. apply div_le; auto. pose proof (sq_le H). lra.
Qed.
Lemma Sersic_decr I bn re n a b : 0 <= I -> 0 < bn -> 0 < re -> 0 < n -> 0 <= a <= b ->
  0 <= Sersic_intensity NumR I bn re (1 / n) b <= Sersic_intensity NumR I bn re (1 / n) a.
Proof.
  intros HI Hb Hr Hn H. unfold Sersic_intensity. cbn [nmul nexp ndiv nneg nsub npow nofZ NumR]. apply scaled_decr; auto.
  split; [apply Rlt_le, exp_pos|]. apply exp_le.
  assert (Rpow (a / re) (1 / n) <= Rpow (b / re) (1 / n)).
  { apply Rpow_le. - split; [apply div_nonneg|apply div_le]; lra. - apply div_nonneg; lra. }
  nra.
Qed.
Lemma Moffat_decr I al be a b : 0 <= I -> 0 < al -> 0 < be -> 0 <= a <= b ->
  0 <= Moffat_intensity NumR I al be b <= Moffat_intensity NumR I al be a.
Proof.
  intros HI Ha Hb H. unfold Moffat_intensity. cbn [nmul ndiv nadd npow nofZ NumR]. unfold Rdiv at 1 4. apply scaled_decr; auto.
  assert (S : (a / al) * (a / al) <= (b / al) * (b / al)).
  { apply sq_le. split; [apply div_nonneg|apply div_le]; lra. }
  assert (P : forall x, 0 < 1 + x * x) by (intros; nra).
  split. - apply Rlt_le, Rinv_0_lt_compat, Rpow_pos, P.
  - apply Rinv_le_contravar; [apply Rpow_pos, P|]. apply Rpow_le; [|lra]. specialize (P (a / al)). lra.
Qed.

Section King.
Variables (I0 rc rt al : R).
Hypotheses (HI : 0 <= I0) (Hc : 0 < rc) (Ht : 0 < rt) (Ha : 0 < al).
Let C := 1 / Rpow (1 + (rt / rc) * (rt / rc)) (1 / al).
Let V r := 1 / Rpow (1 + (r * (1 / rc)) * (r * (1 / rc))) (1 / al).
Lemma King_ia : 0 < 1 / al. Proof. apply Rdiv_lt_0_compat; lra. Qed.
Lemma King_V a b : 0 <= a <= b -> 0 < V b <= V a.
Proof.
  intros H. unfold V.
  assert (S : (a * (1 / rc)) * (a * (1 / rc)) <= (b * (1 / rc)) * (b * (1 / rc))).
  { apply sq_le. assert (0 < 1 / rc) by (apply Rdiv_lt_0_compat; lra). nra. }
  assert (P : forall x, 0 < 1 + x * x) by (intros; nra).
  pose proof King_ia. split.
  - apply Rdiv_lt_0_compat; [lra|]. apply Rpow_pos, P.
  - unfold Rdiv. rewrite !Rmult_1_l. apply Rinv_le_contravar; [apply Rpow_pos; specialize (P (a * (1 / rc))); unfold Rdiv in P; rewrite !Rmult_1_l in P; exact P|].
    unfold Rdiv in *. rewrite !Rmult_1_l in *. apply Rpow_le; [|lra]. specialize (P (a * / rc)). lra.
Qed.
Lemma King_C : C = V rt. Proof. unfold C, V. replace (rt / rc) with (rt * (1 / rc)) by (field; lra). reflexivity. Qed.
Lemma King_C1 : 0 < C < 1.
Proof.
  rewrite King_C. split; [apply (@King_V rt rt); lra|]. unfold V.
  set (z := rt * (1 / rc)). assert (0 < z). { unfold z. apply Rmult_lt_0_compat; [lra|]. apply Rdiv_lt_0_compat; lra. }
  assert (0 < z * z) by nra. pose proof King_ia.
  assert (1 < Rpow (1 + z * z) (1 / al)).
  { rewrite Rpow_eq by lra. apply Rle_lt_trans with (Rpower (1 + z * z) 0); [right; symmetry; apply Rpower_O; lra|apply Rpower_lt; lra]. }
  set (w := Rpow (1 + z * z) (1 / al)) in *. apply Rmult_lt_reg_r with w; [lra|]. unfold Rdiv. rewrite Rmult_assoc, Rinv_l; lra.
Qed.
Lemma King_decr a b : 0 <= a <= b ->
  let f := King_intensity NumR (I0 * Rpow (1 - C) (- al)) rt (1 / rc) (1 / al) C al in 0 <= f b <= f a.
Proof.
  intros H f. pose proof King_C1 as HC.
  assert (P1 : 0 <= I0 * Rpow (1 - C) (- al)) by (apply Rmult_le_pos; [auto|apply Rpow_nonneg]).
  assert (Q : forall r, 0 <= r -> 0 <= f r).
  { intros r Hr. unfold f, King_intensity. cbn [nltb nsub ndiv nadd nmul npow nofZ NumR].
    unfold Rltb. destruct (Rlt_dec r rt); [|lra]. apply Rmult_le_pos; auto. apply Rpow_nonneg. }
  split; [apply Q; lra|]. unfold f, King_intensity. cbn [nltb nsub ndiv nadd nmul npow nofZ NumR].
  unfold Rltb. destruct (Rlt_dec b rt).
  - destruct (Rlt_dec a rt); [|lra]. apply Rmult_le_compat_l; auto. fold (V a) (V b). apply Rpow_le; [|lra].
    pose proof (@King_V a b H). pose proof (@King_V b rt). rewrite King_C in *. lra.
  - destruct (Rlt_dec a rt); [|lra]. apply Rmult_le_pos; auto. apply Rpow_nonneg.
Qed.
Lemma King_centre : King_intensity NumR (I0 * Rpow (1 - C) (- al)) rt (1 / rc) (1 / al) C al 0 = I0.
Proof.
  pose proof King_C1 as HC. unfold King_intensity. cbn [nltb nsub ndiv nadd nmul npow nofZ NumR].
  replace (Rltb 0 rt) with true by (symmetry; now apply Rltb_true).
  rewrite Rmult_0_l, Rmult_0_l, Rplus_0_r, Rpow_1, Rpow_neg by lra.
  replace (1 / 1) with 1 by lra. field. apply Rgt_not_eq. apply Rpow_pos. lra.
Qed.
Lemma King_outside I1 a : rt <= a -> King_intensity NumR I1 rt (1 / rc) (1 / al) C al a = 0.
Proof.
  intros H. unfold King_intensity. cbn [nltb NumR]. replace (Rltb a rt) with false by (symmetry; apply Rltb_false; lra). reflexivity.
Qed.
(** inside the truncation radius the base of the power is positive (so pow() is defined) *)
Lemma King_inside r : 0 <= r < rt -> 0 < V r - C.
Proof.
  intros H. rewrite King_C. unfold V. pose proof King_ia as Hia.
  assert (A : forall x, 0 < 1 + x * x) by (intros; nra).
  assert (S : r * (1 / rc) < rt * (1 / rc)). { apply Rmult_lt_compat_r; [|lra]. apply Rdiv_lt_0_compat; lra. }
  assert (S0 : 0 <= r * (1 / rc)). { apply Rmult_le_pos; [lra|]. apply Rlt_le, Rdiv_lt_0_compat; lra. }
  assert (S2 : 1 + r * (1 / rc) * (r * (1 / rc)) < 1 + rt * (1 / rc) * (rt * (1 / rc))) by nra.
  apply Rlt_Rminus. set (x := 1 + r * (1 / rc) * (r * (1 / rc))) in *.
  set (y := 1 + rt * (1 / rc) * (rt * (1 / rc))) in *.
  assert (Px : 0 < x) by apply A. assert (Py : 0 < y) by apply A.
  set (u := Rpow x (1 / al)). set (w := Rpow y (1 / al)).
  assert (Pu : 0 < u) by now apply Rpow_pos. assert (Pw : 0 < w) by now apply Rpow_pos.
  assert (u < w). { unfold u, w. rewrite !Rpow_eq by lra. apply Rlt_Rpower_l; lra. }
  unfold Rdiv. rewrite !Rmult_1_l. apply Rinv_lt_contravar; auto. now apply Rmult_lt_0_compat.
Qed.
End King.

Lemma clamp_le a b : a <= b ->
  (if Rltb a (R_MIN NumR) then R_MIN NumR else a) <= (if Rltb b (R_MIN NumR) then R_MIN NumR else b).
Proof. intros H. unfold Rltb. destruct (Rlt_dec a (R_MIN NumR)), (Rlt_dec b (R_MIN NumR)); lra. Qed.
Lemma clamp_pos a : 0 < (if Rltb a (R_MIN NumR) then R_MIN NumR else a).
Proof.
  assert (0 < R_MIN NumR) by (unfold R_MIN; cbn; lra). unfold Rltb. destruct (Rlt_dec a (R_MIN NumR)); lra.
Qed.

Lemma CoreSersic_decr I n bn re rb al ga a b : 0 <= I -> 0 < n -> 0 < bn -> 0 < re -> 0 < rb -> 0 < al -> 0 <= ga -> 0 <= a <= b ->
  0 <= CoreSersic_intensity NumR I n bn re rb al ga b <= CoreSersic_intensity NumR I n bn re rb al ga a.
Proof.
  intros HI Hn Hb Hre Hrb Hal Hga (A & B). unfold CoreSersic_intensity.
  cbn [nltb nadd nmul ndiv nneg nexp npow nofZ NumR].
  pose proof (clamp_le B) as L. pose proof (clamp_pos a) as Pa. pose proof (clamp_pos b) as Pb.
  set (x := if Rltb a _ then _ else a) in *. set (y := if Rltb b _ then _ else b) in *.
  rewrite !Rmult_assoc. apply scaled_decr; auto.
  assert (P1 : Rpow (rb / y) al <= Rpow (rb / x) al).
  { apply Rpow_le; [|lra]. split; [apply div_nonneg; lra|]. apply Rmult_le_compat_l; [lra|]. now apply Rinv_le_contravar. }
  assert (Px : 0 < Rpow (rb / x) al) by (apply Rpow_pos, Rdiv_lt_0_compat; lra).
  assert (Py : 0 < Rpow (rb / y) al) by (apply Rpow_pos, Rdiv_lt_0_compat; lra).
  assert (P2 : Rpow (1 + Rpow (rb / y) al) (ga / al) <= Rpow (1 + Rpow (rb / x) al) (ga / al)).
  { apply Rpow_le; [lra|]. apply div_nonneg; lra. }
  assert (E1 : Rpow x al <= Rpow y al) by (apply Rpow_le; lra).
  assert (Q1 : 0 < Rpow x al) by now apply Rpow_pos. assert (Q2 : 0 < Rpow rb al) by now apply Rpow_pos.
  assert (Q3 : 0 < Rpow re al) by now apply Rpow_pos.
  assert (E2 : Rpow ((Rpow x al + Rpow rb al) / Rpow re al) (1 / (al * n)) <=
               Rpow ((Rpow y al + Rpow rb al) / Rpow re al) (1 / (al * n))).
  { apply Rpow_le. - split; [apply div_nonneg|apply div_le]; lra. - apply div_nonneg; nra. }
  assert (E3 : exp (- bn * Rpow ((Rpow y al + Rpow rb al) / Rpow re al) (1 / (al * n))) <=
               exp (- bn * Rpow ((Rpow x al + Rpow rb al) / Rpow re al) (1 / (al * n)))).
  { apply exp_le. apply Rmult_le_compat_neg_l; lra. }
  split.
  - apply Rmult_le_pos; [apply Rpow_nonneg|]. apply Rlt_le, exp_pos.
  - apply Rmult_le_compat; auto; [apply Rpow_nonneg|apply Rlt_le, exp_pos].
Qed.

Lemma Nuker_decr I rb al be ga a b : 0 <= I -> 0 < rb -> 0 < al -> 0 <= ga <= be -> 0 <= a <= b ->
  0 <= Nuker_intensity NumR I rb al ga ((be - ga) / al) b <= Nuker_intensity NumR I rb al ga ((be - ga) / al) a.
Proof.
  intros HI Hrb Hal Hga (A & B). unfold Nuker_intensity. cbn [nltb nadd nmul ndiv nneg nexp npow nofZ NumR].
  pose proof (clamp_le B) as L. pose proof (clamp_pos a) as Pa. pose proof (clamp_pos b) as Pb.
  set (x := if Rltb a _ then _ else a) in *. set (y := if Rltb b _ then _ else b) in *.
  rewrite !Rmult_assoc. apply scaled_decr; auto.
  assert (P1 : Rpow (rb / y) ga <= Rpow (rb / x) ga).
  { apply Rpow_le; [|lra]. split; [apply div_nonneg; lra|]. apply Rmult_le_compat_l; [lra|]. now apply Rinv_le_contravar. }
  assert (Q : Rpow (x / rb) al <= Rpow (y / rb) al).
  { apply Rpow_le; [|lra]. split; [apply div_nonneg|apply div_le]; lra. }
  assert (Qx : 0 < Rpow (x / rb) al) by (apply Rpow_pos, Rdiv_lt_0_compat; lra).
  assert (P2 : Rpow (1 + Rpow (y / rb) al) (- ((be - ga) / al)) <= Rpow (1 + Rpow (x / rb) al) (- ((be - ga) / al))).
  { apply Rpow_ge_neg; [lra|]. apply div_nonneg; lra. }
  split.
  - apply Rmult_le_pos; apply Rpow_nonneg.
  - apply Rmult_le_compat; auto; apply Rpow_nonneg.
Qed.

Lemma profile_decr k d ps off a b : ordinary_params k d ps off -> 0 <= a <= b ->
  0 <= intensity_of d ps off k b <= intensity_of d ps off k a.
Proof.
  intros H AB. destruct k; cbn [ordinary_params] in H; try contradiction; cbn [intensity_of].
  - now apply Exp_decr.
  - apply Gaussian_decr; try tauto. nra.
  - destruct H as (Hn & HI & Hr). apply Sersic_decr; auto; [now apply bn_pos|lra].
  - destruct H as (HI & Hr & Hb). apply Moffat_decr; auto. rewrite half_eq.
    apply Rdiv_lt_0_compat; [nra|]. apply sqrt_lt_R0.
    enough (1 < Rpow 2 (1 / nth (4 + off) ps 0)) by lra.
    rewrite Rpow_eq by lra. apply Rle_lt_trans with (Rpower 2 0); [right; symmetry; apply Rpower_O; lra|].
    apply Rpower_lt; [lra|]. apply Rdiv_lt_0_compat; lra.
  - destruct H as (HI & Hc & Ht & Ha). apply King_decr; auto.
  - destruct H as (HI & Hc & Ht & Ha). apply King_decr; auto. rewrite Rmult_comm. now apply Rmult_lt_0_compat; [|].
  - destruct H as (Hn & HI & Hre & Hrb & Ha & Hg). apply CoreSersic_decr; auto; try lra; try (now apply bn_pos).
    apply Rmult_le_pos; [|apply Rlt_le, exp_pos]. apply Rmult_le_pos; [auto|apply Rpow_nonneg].
  - destruct H as (HI & Hr & Ha & Hg). apply Nuker_decr; auto. apply Rmult_le_pos; [auto|apply Rpow_nonneg].
Qed.

Lemma ordinary_ellipses k d ps off : ordinary_params k d ps off -> has_ellipses k = true.
Proof. destruct k; cbn; tauto. Qed.

Lemma C22_monotone_proof K1 k d ps off xc yc a b t u :
  (off + nParams k <= length ps)%nat -> component_axis_ratio ps off <> 0 -> ordinary_params k d ps off ->
  0 <= a <= b ->
  exists va vb, on_ellipse K1 k d ps off xc yc a t = Ok va /\ on_ellipse K1 k d ps off xc yc b u = Ok vb /\ 0 <= vb <= va.
Proof.
  intros L Q H (A & B). pose proof (ordinary_ellipses H) as Hk.
  exists (intensity_of d ps off k a), (intensity_of d ps off k b).
  rewrite !on_ellipse_eq by auto. rewrite !Rabs_pos_eq by lra. split; [auto|split; [auto|]].
  apply profile_decr; auto.
Qed.

Lemma C22_brightest_proof K1 k d ps off xc yc s x y v :
  (off + nParams k <= length ps)%nat -> component_axis_ratio ps off <> 0 -> ordinary_params k d ps off ->
  value_at NumR K1 k d ps off xc yc s x y = Ok v ->
  exists c, value_at NumR K1 k d ps off xc yc false xc yc = Ok c /\ 0 <= v <= c.
Proof.
  intros L Q H V. pose proof (ordinary_ellipses H) as Hk.
  assert (Ec : forall a t, on_ellipse K1 k d ps off xc yc a t = Ok (intensity_of d ps off k (Rabs a))) by (intros; now apply on_ellipse_eq).
  exists (intensity_of d ps off k 0). split.
  { rewrite <- (Rabs_R0), <- (Ec 0 0). unfold on_ellipse, ellipse_x, ellipse_y. f_equal; ring. }
  destruct (@Setup_total _ NumR K1 k d ps off xc yc L) as (o & E).
  unfold value_at in V. rewrite E in V. cbn [bind] in V. destruct (GetValue_inv V) as (n & _ & ->).
  apply mean_bounds; [lia|]. intros i j _ _.
  set (px := slice_centre _ x i). set (py := slice_centre _ y j).
  destruct (@ellipses_cover xc yc (component_direction k d ps off) (component_axis_ratio ps off) px py Q) as (a & t & Pa & Ex & Ey).
  specialize (Ec a t). unfold on_ellipse, value_at in Ec. rewrite E in Ec. cbn [bind] in Ec.
  rewrite (Setup_plain E), <- Ex, <- Ey in Ec. apply Ok_inj in Ec. rewrite Ec. apply profile_decr; auto.
  split; [lra|apply Rabs_pos].
Qed.

(** ---- advertised radii ---- *)

Lemma guard_off x : x <= 100 -> Rltb 100 x = false.
Proof. intros H. apply Rltb_false. lra. Qed.
Lemma exp_neg0 x : - 0 / x = 0. Proof. unfold Rdiv. ring. Qed.

Lemma Moffat_root be : 0 < be -> 1 < Rpow 2 (1 / be).
Proof.
  intros H. rewrite Rpow_eq by lra. apply Rle_lt_trans with (Rpower 2 0); [right; symmetry; apply Rpower_O; lra|].
  apply Rpower_lt; [lra|]. apply Rdiv_lt_0_compat; lra.
Qed.

Lemma CoreSersic_break I n bn re rb al ga : 0 < re -> 1 / 1000 <= rb -> 0 < al -> 0 < n ->
  CoreSersic_intensity NumR (I * Rpow 2 (- ga / al) * exp (bn * Rpow (Rpow 2 (1 / al) * rb / re) (1 / n)))
    n bn re rb al ga rb = I.
Proof.
  intros Hre Hrb Hal Hn. unfold CoreSersic_intensity. cbn [nltb nadd nmul ndiv nneg nexp npow nofZ NumR].
  replace (Rltb rb (R_MIN NumR)) with false by (symmetry; apply Rltb_false; unfold R_MIN; cbn; lra).
  replace (rb / rb) with 1 by (field; lra). rewrite Rpow_1. replace (1 + 1) with 2 by ring.
  assert (E : Rpow ((Rpow rb al + Rpow rb al) / Rpow re al) (1 / (al * n)) = Rpow (Rpow 2 (1 / al) * rb / re) (1 / n)).
  { assert (Prb : 0 < rb) by lra.
    replace ((Rpow rb al + Rpow rb al) / Rpow re al) with (Rpow (Rpow 2 (1 / al) * rb / re) al).
    - assert (0 < Rpow 2 (1 / al) * rb / re).
      { apply Rdiv_lt_0_compat; auto. apply Rmult_lt_0_compat; auto. apply Rpow_pos; lra. }
      rewrite Rpow_mult_exp by auto. f_equal. field. lra.
    - unfold Rdiv at 1. rewrite !Rpow_mult_base; try lra; try (apply Rpow_nonneg); try (left; now apply Rinv_0_lt_compat).
      + rewrite Rpow_mult_exp by lra. replace (1 / al * al) with 1 by (field; lra).
        rewrite (@Rpow_eq 2) by lra. rewrite Rpower_1 by lra.
        assert (Ei : Rpow (/ re) al = / Rpow re al).
        { rewrite <- Rpow_neg by auto. replace (/ re) with (Rpow re (-1)).
          - rewrite Rpow_mult_exp by auto. f_equal. ring.
          - rewrite <- (Rpower_1 re) at 2 by auto. rewrite <- (@Rpow_eq re 1), <- Rpow_neg by auto. f_equal. }
        rewrite Ei. field. apply Rgt_not_eq. now apply Rpow_pos.
      + apply Rmult_le_pos; [apply Rpow_nonneg|lra]. }
  rewrite E. set (w := Rpow (Rpow 2 (1 / al) * rb / re) (1 / n)).
  replace (- ga / al) with (- (ga / al)) by (unfold Rdiv; ring). rewrite Rpow_neg by lra.
  transitivity (I * (/ Rpow 2 (ga / al) * Rpow 2 (ga / al)) * (exp (bn * w) * exp (- bn * w))).
  - ring.
  - rewrite <- exp_plus. replace (bn * w + - bn * w) with 0 by ring. rewrite exp_0.
    rewrite Rinv_l by (apply Rgt_not_eq, Rpow_pos; lra). ring.
Qed.

Lemma Nuker_break I rb al ga ex : 1 / 1000 <= rb ->
  Nuker_intensity NumR (I * Rpow 2 ex) rb al ga ex rb = I.
Proof.
  intros H. unfold Nuker_intensity. cbn [nltb nadd nmul ndiv nneg nexp npow nofZ NumR].
  replace (Rltb rb (R_MIN NumR)) with false by (symmetry; apply Rltb_false; unfold R_MIN; cbn; lra).
  replace (rb / rb) with 1 by (field; lra). rewrite !Rpow_1. replace (1 + 1) with 2 by ring.
  rewrite Rpow_neg by lra. field. apply Rgt_not_eq, Rpow_pos; lra.
Qed.

Lemma exp1_pos x : 0 < 1 + exp x. Proof. pose proof (exp_pos x). lra. Qed.

Lemma advertised_intensity k d ps off a v : has_ellipses k = true -> scales_make_sense k d ps off ->
  In (a, v) (advertised k d ps off) -> 0 <= a /\ intensity_of d ps off k a = v.
Proof.
  intros Hk Hs Hin. destruct k; cbn [has_ellipses] in Hk; try discriminate Hk;
    cbn [advertised scales_make_sense intensity_of In] in *;
    repeat (destruct Hin as [Hin|Hin]; [injection Hin as <- <-|]); try contradiction; cbv zeta;
    unfold Exp_intensity, Gaussian_intensity, Sersic_intensity, Moffat_intensity, BrokenExp_intensity,
      DoubleBrokenExp_intensity, FlatExp_intensity, GaussianRing_intensity, GaussianRing2Side_intensity;
    cbn [nltb nadd nsub nmul ndiv nneg nexp npow nabs nofZ NumR]; cbn [Nat.add] in *.
  - split; [lra|]. rewrite exp_neg0, exp_0. ring.
  - split; [lra|]. match type of Hs with 0 < ?l => set (L := l) in * end. f_equal. f_equal. field. lra.
  - split; [lra|]. rewrite Rmult_0_l, exp_neg0, exp_0. ring.
  - split; [lra|]. match type of Hs with 0 < ?l => set (L := l) in * end. f_equal. f_equal. field. lra.
  - split; [lra|]. match type of Hs with 0 < ?l => set (L := l) in * end.
    replace (L / L) with 1 by (field; lra). rewrite Rpow_1.
    replace (1 - 1) with 0 by ring. rewrite Rmult_0_r, exp_0. ring.
  - split; [lra|]. replace (0 / _) with 0 by (unfold Rdiv; ring). rewrite Rmult_0_l, Rplus_0_r, Rpow_1. field.
  - destruct Hs as (Hl & Hb). split; [lra|]. pose proof (Moffat_root Hb) as R2.
    rewrite half_eq. set (L3 := nth (S (S (S off))) ps 0 * pixelScaling d) in *. set (w := Rpow 2 (1 / nth (S (S (S (S off)))) ps 0)) in *.
    assert (Ps : 0 < sqrt (w - 1)) by (apply sqrt_lt_R0; lra).
    replace (L3 / 2 / (1 / 2 * L3 / sqrt (w - 1))) with (sqrt (w - 1)) by (field; split; lra).
    rewrite sqrt_sqrt by lra. replace (1 + (w - 1)) with w by ring. unfold w.
    pose proof (@Rpow_root 2 (1 / nth (S (S (S (S off)))) ps 0) ltac:(lra)) as E.
    replace (1 / (1 / nth (S (S (S (S off)))) ps 0)) with (nth (S (S (S (S off)))) ps 0) in E by (field; lra).
    rewrite E; [reflexivity|]. apply inv_neq. lra.
  - split; [lra|]. apply King_centre; tauto.
  - split; [lra|]. apply King_outside. lra.
  - split; [lra|]. apply King_centre; try tauto. destruct Hs as (A & B & _). now apply Rmult_lt_0_compat.
  - split; [destruct Hs as (A & B & _); apply Rlt_le; now apply Rmult_lt_0_compat|]. apply King_outside. lra.
  - destruct Hs as (A & B & C & D). split; [lra|]. now apply CoreSersic_break.
  - split; [lra|]. now apply Nuker_break.
  - split; [lra|]. rewrite guard_off by lra. rewrite exp_neg0, exp_0.
    match goal with |- context[- ?al * ?rb] => replace (al * (0 - rb)) with (- al * rb) by ring end.
    rewrite Rpow_neg by apply exp1_pos. field. apply Rgt_not_eq, Rpow_pos, exp1_pos.
  - split; [lra|]. rewrite !guard_off by lra. unfold CalculateDBEScalingFactor.
    cbn [nltb nadd nsub nmul ndiv nneg nexp npow nabs nofZ NumR]. rewrite exp_neg0, exp_0.
    repeat match goal with |- context[?al * (0 - ?rb)] => replace (al * (0 - rb)) with (- al * rb) by ring end.
    set (A := Rpow (1 + exp (- nth (S (S (S (S (S (S (S (S off)))))))) ps 0 * _)) _). set (B := Rpow (1 + exp (- nth (S (S (S (S (S (S (S (S (S off))))))))) ps 0 * _)) _).
    assert (0 < A) by apply Rpow_pos, exp1_pos. assert (0 < B) by apply Rpow_pos, exp1_pos. field. lra.
  - split; [lra|]. rewrite guard_off by lra.
    match goal with |- context[- ?al * ?rb] => replace (al * (0 - rb)) with (- al * rb) by ring end.
    rewrite Rpow_neg by apply exp1_pos. field. apply Rgt_not_eq, Rpow_pos, exp1_pos.
  - split; [lra|]. unfold Rminus. rewrite Rplus_opp_r, Rabs_R0, Rmult_0_l, exp_neg0, exp_0. ring.
  - split; [lra|]. unfold Rminus. rewrite Rplus_opp_r, Rabs_R0, Rmult_0_l, exp_neg0, exp_0. ring.
Qed.

Lemma C22_advertised_proof K1 k d ps off xc yc a v t :
  (off + nParams k <= length ps)%nat -> has_ellipses k = true -> component_axis_ratio ps off <> 0 ->
  scales_make_sense k d ps off -> In (a, v) (advertised k d ps off) ->
  on_ellipse K1 k d ps off xc yc a t = Ok v.
Proof.
  intros L Hk Hq Hs Hin. destruct (advertised_intensity Hk Hs Hin) as (P & E).
  rewrite on_ellipse_eq by auto. now rewrite Rabs_pos_eq, E.
Qed.

Lemma C22_efold_proof K1 d ps off xc yc a t u :
  (off + 4 <= length ps)%nat -> component_axis_ratio ps off <> 0 ->
  0 <= a -> 0 < nth (3 + off) ps 0 * pixelScaling d ->
  exists v, on_ellipse K1 Exponential d ps off xc yc a t = Ok v /\
    on_ellipse K1 Exponential d ps off xc yc (a + nth (3 + off) ps 0 * pixelScaling d) u = Ok (v * exp (-1)).
Proof.
  intros L Q A H. rewrite !on_ellipse_eq by auto. eexists. split; [reflexivity|]. f_equal.
  rewrite !Rabs_pos_eq by lra. cbn [intensity_of]. unfold Exp_intensity. cbn [nmul nexp ndiv nneg NumR].
  set (h := nth (3 + off) ps 0 * pixelScaling d) in *.
  replace (exp (- (a + h) / h)) with (exp (- a / h) * exp (-1)) by (rewrite <- exp_plus; f_equal; field; lra). ring.
Qed.

Lemma C22_king_edge_proof K1 d ps off xc yc a t :
  (off + 6 <= length ps)%nat -> component_axis_ratio ps off <> 0 ->
  0 <= nth (4 + off) ps 0 * pixelScaling d <= a ->
  on_ellipse K1 ModifiedKing d ps off xc yc a t = Ok 0.
Proof.
  intros L Q A. rewrite on_ellipse_eq by auto. f_equal. rewrite Rabs_pos_eq by lra.
  apply King_outside. lra.
Qed.

(** the b_n approximation goes negative for some small n *)
Lemma bn_negative : Calculate_bn NumR (46 / 1000) < 0.
Proof.
  unfold Calculate_bn. cbn [nltb ndec nofZ nadd nsub nmul ndiv nneg NumR].
  change (IZR (10 ^ 2)) with 100. change (IZR (10 ^ 5)) with 100000. change (IZR (10 ^ 4)) with 10000.
  rewrite (proj2 (Rltb_false (36 / 100) (46 / 1000))) by lra. lra.
Qed.

Lemma C22_sersic_rises K1 xc yc t u : exists vc ve,
  on_ellipse K1 Sersic (default_desc NumR) [0; 0; 46 / 1000; 1; 10] 0 xc yc 0 t = Ok vc /\
  on_ellipse K1 Sersic (default_desc NumR) [0; 0; 46 / 1000; 1; 10] 0 xc yc 10 u = Ok ve /\ vc < ve.
Proof.
  assert (Q : component_axis_ratio [0; 0; 46 / 1000; 1; 10] 0 <> 0) by (unfold component_axis_ratio; cbn; lra).
  rewrite !on_ellipse_eq by (auto; cbn; lia).
  eexists. eexists. split; [reflexivity|]. split; [reflexivity|].
  cbn [intensity_of nth Nat.add default_desc pixelScaling intensityScale nofZ NumR].
  unfold Sersic_intensity. cbn [nmul nexp ndiv nneg nsub npow nofZ NumR].
  rewrite Rabs_R0, (Rabs_pos_eq 10) by lra. pose proof bn_negative as B.
  set (b := Calculate_bn NumR (46 / 1000)) in *.
  replace (0 / (10 * 1)) with 0 by lra. replace (10 / (10 * 1)) with 1 by lra. rewrite Rpow_1, Rpow_0 by lra.
  apply Rmult_lt_compat_l; [lra|]. apply exp_increasing. lra.
Qed.

(** ---- C24 ---- *)

Lemma exp_two x : 2 <= exp x + exp (- x).
Proof.
  rewrite exp_Ropp. pose proof (exp_pos x) as P. set (e := exp x) in *.
  apply Rmult_le_reg_r with e; auto. rewrite Rmult_plus_distr_r, Rinv_l by lra.
  pose proof (Rle_0_sqr (e - 1)) as S. unfold Rsqr in S. lra.
Qed.
Lemma close_exp w x e : Rabs x <= e -> relatively_close e (w * exp x) w.
Proof.
  intros H. unfold relatively_close. replace (w * exp x - w) with (w * (exp x - 1)) by ring.
  rewrite Rabs_mult. apply Rmult_le_compat_l; [apply Rabs_pos|].
  assert (exp (Rabs x) <= exp e) by now apply exp_le.
  destruct (Rle_or_lt 0 x) as [P|P].
  - rewrite (Rabs_pos_eq x) in * by auto. rewrite Rabs_pos_eq; [lra|]. pose proof (exp_le P). rewrite exp_0 in *. lra.
  - rewrite (Rabs_left x) in * by auto. rewrite Rabs_left1. { pose proof (exp_two x). lra. }
    pose proof (@exp_le x 0 ltac:(lra)). rewrite exp_0 in *. lra.
Qed.
Lemma close_refl e w : 0 <= e -> relatively_close e w w.
Proof. intros H. replace w with (w * exp 0) at 1 by (rewrite exp_0; ring). apply close_exp. now rewrite Rabs_R0. Qed.

Lemma ln_1p x : 0 < x -> 0 < ln (1 + x) <= x.
Proof.
  intros H. split. - rewrite <- ln_1. apply ln_increasing; lra.
  - rewrite <- (ln_exp x) at 2. destruct (Req_dec (1 + x) (exp x)) as [->|N]; [lra|].
    left. apply ln_increasing; [lra|]. apply exp_ineq1. lra.
Qed.

(** (1 + e^u)^ex is e^(u ex), up to a tiny factor, for u > 100 *)
Lemma guard_factor u ex : 100 < u -> exists x, Rabs x <= Rabs ex * exp (-100) /\
  exp (u * ex) = Rpow (1 + exp u) ex * exp x.
Proof.
  intros H. exists (- (ex * ln (1 + exp (- u)))).
  pose proof (ln_1p (exp_pos (- u))) as Hl.
  split.
  - rewrite Rabs_Ropp, Rabs_mult. apply Rmult_le_compat_l; [apply Rabs_pos|]. rewrite Rabs_pos_eq by lra.
    apply Rle_trans with (exp (- u)); [lra|]. apply exp_le. lra.
  - rewrite Rpow_eq by apply exp1_pos. unfold Rpower. rewrite <- exp_plus. f_equal.
    replace (1 + exp u) with (exp u * (1 + exp (- u))).
    + rewrite ln_mult by (try apply exp_pos; apply exp1_pos). rewrite ln_exp. ring.
    + rewrite Rmult_plus_distr_l, <- exp_plus, Rplus_opp_r, exp_0. ring.
Qed.

Lemma BrokenExp_close I h1 h2 rb al r : al <> 0 ->
  let ex := 1 / al * (1 / h1 - 1 / h2) in
  relatively_close (Rabs ex * exp (-100))
    (BrokenExp_intensity NumR (I * Rpow (1 + exp (- al * rb)) (- ex)) h1 h2 rb al ex (rb / h2 - rb / h1) r)
    (broken_exp I h1 h2 rb al r).
Proof.
  intros Ha ex. unfold BrokenExp_intensity, broken_exp. cbn [nltb nadd nsub nmul ndiv nneg nexp npow nofZ NumR].
  fold ex. rewrite <- !Rpow_eq by apply exp1_pos. unfold Rltb. destruct (Rlt_dec 100 (al * (r - rb))) as [G|G].
  - destruct (@guard_factor _ ex G) as (x & Hx & Ex).
    match goal with |- relatively_close _ ?v ?w => replace v with (w * exp x) end; [now apply close_exp|].
    transitivity (I * Rpow (1 + exp (- al * rb)) (- ex) * (exp (- r / h1) * exp (al * (r - rb) * ex))).
    + rewrite Ex. ring.
    + rewrite <- exp_plus. do 2 f_equal. unfold ex, Rdiv.
      transitivity (- r * / h1 + (al * / al) * (r - rb) * (/ h1 - / h2)); [ring|]. rewrite Rinv_r by auto. ring.
  - match goal with |- relatively_close _ ?v ?w => replace v with w by ring end. apply close_refl.
    apply Rmult_le_pos; [apply Rabs_pos|apply Rlt_le, exp_pos].
Qed.

Lemma DoubleBroken_close I h1 h2 h3 rb1 rb2 al1 al2 r : al1 <> 0 -> al2 <> 0 ->
  let ex2 := 1 / al1 * (1 / h1 - 1 / h2) in
  let ex3 := 1 / al2 * (1 / h2 - 1 / h3) in
  relatively_close ((Rabs ex2 + Rabs ex3) * exp (-100))
    (DoubleBrokenExp_intensity NumR (I * CalculateDBEScalingFactor NumR h1 h2 h3 rb1 rb2 al1 al2) h1 h2 h3 rb1 rb2 al1 al2 ex2 ex3
       (rb1 / h2 - rb1 / h1) (rb2 / h3 - rb2 / h2) r)
    (double_broken_exp I h1 h2 h3 rb1 rb2 al1 al2 r).
Proof.
  intros Ha1 Ha2 ex2 ex3.
  assert (G : forall al rb h h' ex, al <> 0 -> ex = 1 / al * (1 / h - 1 / h') -> exists x, Rabs x <= Rabs ex * exp (-100) /\
     (if Rltb 100 (al * (r - rb)) then exp (r / h - r / h' + (rb / h' - rb / h)) else Rpow (1 + exp (al * (r - rb))) ex)
     = Rpow (1 + exp (al * (r - rb))) ex * exp x).
  { intros al rb h h' ex Ha Hex. unfold Rltb. destruct (Rlt_dec 100 (al * (r - rb))) as [G|G].
    - destruct (@guard_factor _ ex G) as (x & Hx & Ex). exists x. split; auto. rewrite <- Ex. f_equal. rewrite Hex. unfold Rdiv.
      transitivity ((al * / al) * (r - rb) * (/ h - / h')); [rewrite Rinv_r by auto; ring|]. ring.
    - exists 0. rewrite Rabs_R0, exp_0, Rmult_1_r. split; auto. apply Rmult_le_pos; [apply Rabs_pos|apply Rlt_le, exp_pos]. }
  unfold DoubleBrokenExp_intensity, double_broken_exp, CalculateDBEScalingFactor.
  cbn [nltb nadd nsub nmul ndiv nneg nexp npow nofZ NumR]. fold ex2 ex3. rewrite <- !Rpow_eq by apply exp1_pos.
  destruct (G al1 rb1 h1 h2 ex2 Ha1 eq_refl) as (x & Hx & Ex). destruct (G al2 rb2 h2 h3 ex3 Ha2 eq_refl) as (y & Hy & Ey).
  rewrite Ex, Ey. rewrite !Rpow_neg by apply exp1_pos.
  set (A := Rpow (1 + exp (- al1 * rb1)) ex2). set (B := Rpow (1 + exp (- al2 * rb2)) ex3).
  assert (0 < A) by apply Rpow_pos, exp1_pos. assert (0 < B) by apply Rpow_pos, exp1_pos.
  match goal with |- relatively_close _ ?v ?w => replace v with (w * exp (x + y)) by (rewrite exp_plus; field; lra) end.
  apply close_exp. apply Rle_trans with (1 := Rabs_triang x y). lra.
Qed.

Lemma FlatExp_close I h rb al r : al <> 0 ->
  let ex := 1 / (al * h) in
  h <> 0 ->
  let v := FlatExp_intensity NumR (I * Rpow (1 + exp (- al * rb)) ex) h rb al ex r in
  (al * (r - rb) <= 100 -> v = flat_exp I h rb al r) /\
  (100 < al * (r - rb) -> relatively_close (Rabs ex * exp (-100)) v (flat_exp I h rb al r * exp (- rb / h))).
Proof.
  intros Ha ex Hh v. unfold v, FlatExp_intensity, flat_exp. cbn [nltb nadd nsub nmul ndiv nneg nexp npow nofZ NumR].
  fold ex. rewrite <- !Rpow_eq by apply exp1_pos. split; intros G.
  - rewrite (proj2 (Rltb_false _ _)) by lra. ring.
  - rewrite (proj2 (Rltb_true _ _)) by lra. destruct (@guard_factor _ (- ex) G) as (x & Hx & Ex).
    rewrite Rabs_Ropp in Hx.
    match goal with |- relatively_close _ ?v ?w => replace v with (w * exp x) end; [now apply close_exp|].
    transitivity (I * Rpow (1 + exp (- al * rb)) ex * (exp (- rb / h) * exp (al * (r - rb) * - ex))).
    + rewrite Ex. ring.
    + rewrite <- exp_plus. do 2 f_equal. unfold ex. field. auto.
Qed.

Lemma EdgeOnDisk_close K1 L0 h n z0 r z : n <> 0 -> z0 <> 0 ->
  relatively_close (Rabs (2 / n) * exp (-200))
    (EdgeOnDisk_intensity NumR K1 (2 * h * L0) h z0 (2 / n * z0) (Rpow 2 (2 / n)) (2 / n) r z)
    (edge_on_disk K1 L0 h n z0 r z).
Proof.
  intros Hn Hz. unfold EdgeOnDisk_intensity, edge_on_disk.
  cbn [nltb nadd nsub nmul ndiv nneg nexp npow ncosh neqb nofZ NumR].
  set (rad := if Reqb r 0 then 2 * h * L0 else 2 * h * L0 * (r / h) * K1 (r / h)).
  assert (Er : (2 * h * L0 * if Req_EM_T r 0 then 1 else r / h * K1 (r / h)) = rad).
  { unfold rad. destruct (Req_EM_T r 0) as [E|E].
    - rewrite (proj2 (Reqb_true r 0)) by auto. ring.
    - rewrite (proj2 (Reqb_false r 0)) by auto. ring. }
  rewrite Er. clearbody rad. clear Er.
  assert (Et : n * z / (2 * z0) = z / (2 / n * z0)) by (field; auto). rewrite Et. set (t := z / (2 / n * z0)).
  assert (Pc : 0 < cosh t) by (unfold cosh; pose proof (exp_pos t); pose proof (exp_pos (- t)); lra).
  assert (Ps : 0 < 1 / cosh t) by (apply Rdiv_lt_0_compat; lra).
  unfold Rltb. destruct (Rlt_dec 100 t) as [G|G].
  - set (x := 2 / n * ln (1 + exp (- (2 * t)))).
    assert (Hx : Rabs x <= Rabs (2 / n) * exp (-200)).
    { unfold x. rewrite Rabs_mult. apply Rmult_le_compat_l; [apply Rabs_pos|].
      pose proof (ln_1p (exp_pos (- (2 * t)))). rewrite Rabs_pos_eq by lra.
      apply Rle_trans with (exp (- (2 * t))); [lra|]. apply exp_le. lra. }
    match goal with |- relatively_close _ ?v ?w => replace v with (w * exp x) end; [now apply close_exp|].
    rewrite Rmult_assoc. f_equal. rewrite Rpow_eq by lra. unfold Rpower. rewrite <- !exp_plus. f_equal.
    assert (El : ln (1 / cosh t) = ln 2 - t - ln (1 + exp (- (2 * t)))).
    { replace (1 / cosh t) with (2 * (exp (- t) * / (1 + exp (- (2 * t))))).
      - rewrite ln_mult, ln_mult, ln_Rinv, ln_exp; try lra; try apply exp_pos; try apply exp1_pos.
        + apply Rinv_0_lt_compat, exp1_pos.
        + apply Rmult_lt_0_compat; [apply exp_pos|]. apply Rinv_0_lt_compat, exp1_pos.
      - unfold cosh. replace (exp t) with (/ exp (- t)) by (rewrite <- exp_Ropp; f_equal; ring).
        replace (- (2 * t)) with (- t + - t) by ring. rewrite exp_plus. pose proof (exp_pos (- t)).
        field. repeat split; nra. }
    rewrite El. unfold x. replace (- z / z0) with (- (2 / n * t)) by (unfold t; field; auto). ring.
  - rewrite Rpow_eq by auto. apply close_refl. apply Rmult_le_pos; [apply Rabs_pos|apply Rlt_le, exp_pos].
Qed.

Lemma frame_back phi r z :
  (r * cos phi - z * sin phi) * cos phi + (r * sin phi + z * cos phi) * sin phi = r /\
  - (r * cos phi - z * sin phi) * sin phi + (r * sin phi + z * cos phi) * cos phi = z.
Proof.
  pose proof (sin2_cos2 phi) as S. unfold Rsqr in S. split.
  - transitivity (r * (sin phi * sin phi + cos phi * cos phi)); [ring|rewrite S; ring].
  - transitivity (z * (sin phi * sin phi + cos phi * cos phi)); [ring|rewrite S; ring].
Qed.

Lemma C24_edge_on_proof K1 d ps off xc yc r z : (off + 5 <= length ps)%nat ->
  let p i := nth (i + off) ps 0 in
  let phi := direction (p 0%nat) (imageRotation d) in
  p 3%nat <> 0 -> p 4%nat * pixelScaling d <> 0 ->
  exists v,
    value_at NumR K1 EdgeOnDisk d ps off xc yc false
      (xc + (r * cos phi - z * sin phi)) (yc + (r * sin phi + z * cos phi)) = Ok v /\
    relatively_close (Rabs (2 / p 3%nat) * exp (-200)) v
      (edge_on_disk K1 (p 1%nat * intensityScale d) (p 2%nat * pixelScaling d) (p 3%nat) (p 4%nat * pixelScaling d)
         (Rabs r) (Rabs z)).
Proof.
  intros L p phi Hn Hz. destruct (@Setup_total _ NumR K1 EdgeOnDisk d ps off xc yc L) as (o & E).
  unfold value_at. rewrite E. cbn [bind]. rewrite (Setup_plain E). eexists. split; [reflexivity|].
  open_setup E. subst o. nths. unfold plain. cbn [ob_point ob_x0 ob_y0 fst snd].
  unfold cosPA, sinPA. cbn [nadd nmul nsub nneg nabs ncos nsin nofZ NumR]. rewrite deg_eq.
  change ((nth off ps 0 - imageRotation d + 90) * deg) with phi.
  replace (xc + (r * cos phi - z * sin phi) - xc) with (r * cos phi - z * sin phi) by ring.
  replace (yc + (r * sin phi + z * cos phi) - yc) with (r * sin phi + z * cos phi) by ring.
  destruct (frame_back phi r z) as (-> & ->).
  apply EdgeOnDisk_close; auto.
Qed.

Lemma C24_broken_proof K1 d ps off xc yc a t : (off + 7 <= length ps)%nat -> component_axis_ratio ps off <> 0 ->
  let p i := nth (i + off) ps 0 in
  let len i := p i * pixelScaling d in
  let alpha := p 6%nat / pixelScaling d in
  alpha <> 0 -> 0 <= a ->
  exists v, on_ellipse K1 BrokenExponential d ps off xc yc a t = Ok v /\
    relatively_close (Rabs (1 / alpha * (1 / len 3%nat - 1 / len 4%nat)) * exp (-100)) v
      (broken_exp (p 2%nat * intensityScale d) (len 3%nat) (len 4%nat) (len 5%nat) alpha a).
Proof.
  intros L Q p len alpha Ha Pa. rewrite on_ellipse_eq by auto. eexists. split; [reflexivity|].
  rewrite (Rabs_pos_eq a) by auto. exact (@BrokenExp_close (p 2%nat * intensityScale d) (len 3%nat) (len 4%nat) (len 5%nat) alpha a Ha).
Qed.

Lemma C24_slope_proof K1 d ps off xc yc a b t u : (off + 7 <= length ps)%nat -> component_axis_ratio ps off <> 0 ->
  let p i := nth (i + off) ps 0 in
  let len i := p i * pixelScaling d in
  let alpha := p 6%nat / pixelScaling d in
  0 <= a -> 0 <= b -> 100 < alpha * (a - len 5%nat) -> 100 < alpha * (b - len 5%nat) ->
  exists v, on_ellipse K1 BrokenExponential d ps off xc yc a t = Ok v /\
    on_ellipse K1 BrokenExponential d ps off xc yc b u = Ok (v * exp (- (b - a) / len 4%nat)).
Proof.
  intros L Q p len alpha Pa Pb Ga Gb. rewrite !on_ellipse_eq by auto. eexists. split; [reflexivity|].
  rewrite (Rabs_pos_eq a), (Rabs_pos_eq b) by auto. f_equal. cbn [intensity_of]. unfold BrokenExp_intensity. cbn [nltb nadd nsub nmul ndiv nneg nexp npow nofZ NumR].
  fold (p 3%nat) (p 4%nat) (p 5%nat) (p 6%nat) (p 2%nat). fold (len 3%nat) (len 4%nat) (len 5%nat) alpha.
  rewrite !(proj2 (Rltb_true _ _)) by assumption. rewrite (Rmult_assoc _ (exp _) (exp _)), <- exp_plus. do 2 f_equal. unfold Rdiv. ring.
Qed.

Lemma C24_double_broken_proof K1 d ps off xc yc a t : (off + 10 <= length ps)%nat -> component_axis_ratio ps off <> 0 ->
  let p i := nth (i + off) ps 0 in
  p 8%nat <> 0 -> p 9%nat <> 0 -> 0 <= a ->
  exists v, on_ellipse K1 DoubleBrokenExponential d ps off xc yc a t = Ok v /\
    relatively_close ((Rabs (1 / p 8%nat * (1 / p 3%nat - 1 / p 4%nat)) + Rabs (1 / p 9%nat * (1 / p 4%nat - 1 / p 5%nat))) * exp (-100)) v
      (double_broken_exp (p 2%nat) (p 3%nat) (p 4%nat) (p 5%nat) (p 6%nat) (p 7%nat) (p 8%nat) (p 9%nat) a).
Proof.
  intros L Q p H1 H2 Pa. rewrite on_ellipse_eq by auto. eexists. split; [reflexivity|].
  rewrite (Rabs_pos_eq a) by auto. exact (@DoubleBroken_close (p 2%nat) (p 3%nat) (p 4%nat) (p 5%nat) (p 6%nat) (p 7%nat) (p 8%nat) (p 9%nat) a H1 H2).
Qed.

Lemma C24_flat_proof K1 d ps off xc yc a t : (off + 6 <= length ps)%nat -> component_axis_ratio ps off <> 0 ->
  let p i := nth (i + off) ps 0 in
  p 5%nat <> 0 -> p 3%nat <> 0 -> 0 <= a ->
  exists v, on_ellipse K1 FlatExponential d ps off xc yc a t = Ok v /\
    (p 5%nat * (a - p 4%nat) <= 100 -> v = flat_exp (p 2%nat) (p 3%nat) (p 4%nat) (p 5%nat) a) /\
    (100 < p 5%nat * (a - p 4%nat) ->
      relatively_close (Rabs (1 / (p 5%nat * p 3%nat)) * exp (-100)) v
        (flat_exp (p 2%nat) (p 3%nat) (p 4%nat) (p 5%nat) a * exp (- p 4%nat / p 3%nat))).
Proof.
  intros L Q p H1 H2 Pa. rewrite on_ellipse_eq by auto. eexists. split; [reflexivity|].
  rewrite (Rabs_pos_eq a) by auto. exact (@FlatExp_close (p 2%nat) (p 3%nat) (p 4%nat) (p 5%nat) a H1 H2).
Qed.

(** a flat-exponential disk with h = 1, r_b = 1, alpha = 1 at radius 102: less
    than half of the documented value *)
Lemma C24_flat_wrong K1 xc yc t : exists v,
  on_ellipse K1 FlatExponential (default_desc NumR) [0; 0; 1; 1; 1; 1] 0 xc yc 102 t = Ok v /\
  0 < flat_exp 1 1 1 1 102 /\ v < flat_exp 1 1 1 1 102 / 2.
Proof.
  assert (Q : component_axis_ratio [0; 0; 1; 1; 1; 1] 0 <> 0) by (unfold component_axis_ratio; cbn; lra).
  destruct (@C24_flat_proof K1 (default_desc NumR) [0; 0; 1; 1; 1; 1] 0 xc yc 102 t) as (v & E & _ & H);
    [cbn [length]; lia|exact Q|cbn [nth Nat.add]; lra|cbn [nth Nat.add]; lra|lra|].
  exists v. split; auto. cbn [nth Nat.add] in H. specialize (H ltac:(lra)).
  set (w := flat_exp 1 1 1 1 102) in *.
  assert (Pw : 0 < w).
  { unfold w, flat_exp, Rpower. apply Rmult_lt_0_compat; [lra|]. apply Rmult_lt_0_compat; apply exp_pos. }
  split; auto. unfold relatively_close in H.
  replace (Ropp 1 / 1) with (-1) in H by lra.
  replace (1 / (1 * 1)) with 1 in H by lra. rewrite Rabs_R1, Rmult_1_l in H.
  assert (E1 : exp (-1) <= 5 / 12).
  { replace (-1) with (Ropp 1) by lra. rewrite exp_Ropp.
    assert (X : 12 / 5 <= exp 1).
    { assert (A8 : 1 + 1 / 8 < exp (1 / 8)) by (apply exp_ineq1; lra).
      assert (A4 : 5 / 4 < exp (1 / 4)). { replace (1 / 4) with (1 / 8 + 1 / 8) by lra. rewrite exp_plus. nra. }
      assert (A2 : 25 / 16 < exp (1 / 2)). { replace (1 / 2) with (1 / 4 + 1 / 4) by lra. rewrite exp_plus. nra. }
      replace 1 with (1 / 2 + 1 / 2) by lra. rewrite exp_plus. nra. }
    apply Rmult_le_reg_r with (exp 1); [apply exp_pos|]. rewrite Rinv_l by (apply Rgt_not_eq, exp_pos). lra. }
  assert (E2 : exp (exp (-100)) - 1 <= 1 / 10).
  { assert (S : exp (-100) <= / 100).
    { replace (-100) with (Ropp 100) by lra. rewrite exp_Ropp. apply Rinv_le_contravar; [lra|]. left.
      apply Rlt_trans with (1 + 100); [lra|]. apply exp_ineq1. lra. }
    apply exp_le in S. assert (exp (/ 100) <= 1 + 1 / 10); [|lra].
    assert (T : 1 - / 100 <= exp (- / 100)). { left. replace (1 - / 100) with (1 + - / 100) by ring. apply exp_ineq1. lra. }
    rewrite exp_Ropp in T. pose proof (exp_pos (/ 100)) as P.
    assert ((1 - / 100) * exp (/ 100) <= 1). { apply Rmult_le_compat_r with (r := exp (/ 100)) in T; [|lra]. rewrite Rinv_l in T; lra. }
    lra. }
  assert (Pe : 0 < exp (-1)) by apply exp_pos.
  rewrite (Rabs_pos_eq (w * exp (-1))) in H by nra.
  assert (U : v - w * exp (-1) <= w * exp (-1) * (exp (exp (-100)) - 1)) by (apply Rle_trans with (2 := H); apply Rle_abs).
  assert (w * exp (-1) * (exp (exp (-100)) - 1) <= w * exp (-1) * (1 / 10)) by (apply Rmult_le_compat_l; nra). nra.
Qed.

(** The generalised-ellipse classes: the value depends on the position only
    through the superellipse radius *)
Lemma gen_profile K1 k d ps off xc yc : (off + nParams k <= length ps)%nat ->
  k = GenExponential \/ k = GenSersic \/ k = FerrersBar2D ->
  let p i := nth (i + off) ps 0 in
  let phi := direction (p 0%nat) (imageRotation d) in
  exists profile : R -> R, forall x y,
  value_at NumR K1 k d ps off xc yc false x y =
  Ok (profile (superellipse_radius (p 2%nat) (1 - p 1%nat)
               ((x - xc) * cos phi + (y - yc) * sin phi) (- (x - xc) * sin phi + (y - yc) * cos phi))).
Proof.
  intros L Hk p phi. destruct (@Setup_total _ NumR K1 k d ps off xc yc L) as (o & E).
  assert (V : forall x y, value_at NumR K1 k d ps off xc yc false x y = Ok (ob_point o (x - xc) (y - yc))).
  { intros x y. unfold value_at. rewrite E. cbn [bind]. rewrite (Setup_plain E). unfold plain.
    destruct (Setup_basic E) as (-> & -> & _). reflexivity. }
  destruct Hk as [ -> | [ -> | -> ] ]; cbn [Setup] in E; unfold make_GenExponential, make_GenSersic, make_FerrersBar2D in E;
    getsE E; cbv zeta in E; apply Ok_inj in E; subst o; nths;
    cbn [gen_elliptical ob_point nadd nsub ndiv nmul nofZ NumR] in V; eexists; intros x y; rewrite V;
    rewrite gen_radius_super; unfold phi, p, direction; reflexivity.
Qed.

(** A scale length too small for the conversion to int *)
Lemma C20_undefined_proof K1 d ps off xc yc : (off + 4 <= length ps)%nat ->
  0 < nth (3 + off) ps 0 * pixelScaling d <= 9 / 10 ^ 9 ->
  value_at NumR K1 Exponential d ps off xc yc true xc yc = Undef.
Proof.
  intros L H. destruct (@Setup_total _ NumR K1 Exponential d ps off xc yc L) as (o & E).
  unfold value_at. rewrite E. cbn [bind]. cbn [Setup] in E. unfold make_Exponential in E.
  getsE E; cbv zeta in E; apply Ok_inj in E; subst o; nths. unfold GetValue.
  cbn [elliptical ob_x0 ob_y0 ob_nsub nsub nmul nofZ NumR]. rewrite !Rminus_eq_0.
  assert (Z : elliptical_radius NumR (nth off ps 0 - imageRotation d) (1 - nth (S off) ps 0) 0 0 = 0).
  { unfold elliptical_radius. cbn [nadd nmul ndiv nneg nsqrt NumR]. rewrite Ropp_0, !Rmult_0_l, Rplus_0_l. unfold Rdiv.
    rewrite ?Rmult_0_l, ?Rplus_0_l, ?Rmult_0_l. apply sqrt_0. }
  rewrite Z. cbn [Nat.add] in H. rewrite subsamples_undef; [reflexivity|lia| |lra|].
  - split; [lra|]. destruct H as (_ & H). eapply Rle_trans; [exact H|]. cbn [pow]. lra.
  - destruct H as (P & H). apply Rmult_le_reg_r with (nth (S (S (S off))) ps 0 * pixelScaling d); auto.
    unfold Rdiv. rewrite Rmult_assoc, Rinv_l by lra.
    assert (2 ^ 31 * (nth (S (S (S off))) ps 0 * pixelScaling d) <= 2 ^ 31 * (9 / 10 ^ 9)).
    { apply Rmult_le_compat_l; auto. apply pow_le. lra. }
    eapply Rle_trans; [eassumption|]. cbn [pow]. lra.
Qed.
