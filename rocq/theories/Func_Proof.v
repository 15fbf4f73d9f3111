(** Proofs about the image functions in exact arithmetic: sub-sampling,
    symmetry, isophotes. *)
From Coq Require Import Reals Lra Lia List ZArith.
From Flocq Require Import Core.Core.
From Verif Require Import Func_Spec.
Set Implicit Arguments. Unset Strict Implicit.
Local Open Scope R_scope.

Lemma for_rsum n (f : nat -> R -> res R) v : (forall k a, (k < n)%nat -> f k a = Ok (a + v k)%R) ->
  forall a, for_ n f a = Ok (a + rsum n v)%R.
Proof.
  intros H a.
  destruct (@for_inv R (fun k s => s = (a + rsum k v)%R) f n a) as (s & E & ->); auto.
  - simpl. ring.
  - intros k s Hk ->. exists (a + rsum k v + v k)%R. split; [now apply H|]. simpl. ring.
Qed.

Lemma deg_eq : DEG2RAD NumR = deg.
Proof.
  unfold DEG2RAD, deg. cbn [ndec NumR]. f_equal.
  change (10 ^ 18)%Z with (10 ^ Z.of_nat 18)%Z. rewrite <- pow_IZR. reflexivity.
Qed.
Lemma half_eq : half NumR = 1 / 2.
Proof. unfold half. cbn. lra. Qed.

(** ---- GetValue() is a mean over sub-pixel centres ---- *)

Lemma mean_1 f x y : mean_over_pixel 1 f x y = f x y.
Proof.
  unfold mean_over_pixel, slice_centre. cbn [rsum INR].
  replace (x - 1 / 2 + (0 + 1 / 2) / 1) with x by lra.
  replace (y - 1 / 2 + (0 + 1 / 2) / 1) with y by lra. field.
Qed.

Definition plain (o : Obj R) (x y : R) : R := ob_point o (x - ob_x0 o) (y - ob_y0 o).

Lemma GetValue_mean o s x y n :
  ob_nsub o s (x - ob_x0 o) (y - ob_y0 o) = Ok n ->
  GetValue NumR o s x y = Ok (mean_over_pixel (Z.to_nat (Z.max 1 n)) (plain o) x y).
Proof.
  intros H. unfold GetValue. cbn [nsub NumR]. rewrite H. cbn [bind].
  destruct (Z.ltb_spec 1 n) as [Hn|Hn].
  2:{ replace (Z.max 1 n) with 1%Z by lia. change (Z.to_nat 1) with 1%nat. rewrite mean_1. reflexivity. }
  replace (Z.max 1 n) with n by lia.
  set (m := Z.to_nat n). assert (Em : IZR n = INR m).
  { unfold m. rewrite INR_IZR_INZ. rewrite Z2Nat.id by lia. reflexivity. }
  assert (Pm : 0 < INR m) by (rewrite <- Em; apply IZR_lt; lia).
  rewrite (@for_rsum m _ (fun i => rsum m (fun j => plain o (slice_centre m x i) (slice_centre m y j)))).
  - cbn [bind ndiv nofZ NumR]. rewrite mult_IZR, Em. rewrite Rplus_0_l. reflexivity.
  - intros i a Hi. apply for_rsum. intros j b Hj. unfold plain.
    cbn [nadd nsub nmul ndiv nofZ NumR]. rewrite Em, half_eq, <- !INR_IZR_INZ.
    assert (E : forall z k, z - 1 / 2 + 1 / 2 * (1 / INR m) + INR k * (1 / INR m) = slice_centre m z k).
    { intros z k. unfold slice_centre. field. lra. }
    rewrite !E. reflexivity.
Qed.

Lemma GetValue_inv o s x y v :
  GetValue NumR o s x y = Ok v -> exists n,
  ob_nsub o s (x - ob_x0 o) (y - ob_y0 o) = Ok n /\
  v = mean_over_pixel (Z.to_nat (Z.max 1 n)) (plain o) x y.
Proof.
  intros H. destruct (ob_nsub o s (x - ob_x0 o) (y - ob_y0 o)) as [n| | |] eqn:E.
  - exists n. split; auto. rewrite (GetValue_mean E) in H. now apply Ok_inj in H.
  - unfold GetValue in H. cbn [nsub NumR] in H. rewrite E in H. discriminate.
  - unfold GetValue in H. cbn [nsub NumR] in H. rewrite E in H. discriminate.
  - unfold GetValue in H. cbn [nsub NumR] in H. rewrite E in H. discriminate.
Qed.

(** ---- sub-pixel centres ---- *)

Lemma slice_inside n c i : (i < n)%nat -> Rabs (slice_centre n c i - c) < 1 / 2.
Proof.
  intros H. unfold slice_centre. apply lt_INR in H as H'.
  pose proof (pos_INR i) as Pi.
  assert (Hi : INR i + 1 <= INR n).
  { replace (INR i + 1) with (INR (S i)) by (rewrite S_INR; ring). apply le_INR. lia. }
  assert (A : 0 < (INR i + 1 / 2) / INR n < 1).
  { split.
    - apply Rdiv_lt_0_compat; lra.
    - apply Rmult_lt_reg_r with (INR n); [lra|]. unfold Rdiv. rewrite Rmult_assoc, Rinv_l by lra. lra. }
  apply Rabs_def1; lra.
Qed.

Lemma slice_mirror n c i : (i < n)%nat -> slice_centre n c (n - 1 - i) = 2 * c - slice_centre n c i.
Proof.
  intros H. unfold slice_centre. rewrite !minus_INR by lia. cbn [INR].
  assert (0 < INR n) by (apply lt_0_INR; lia). field. lra.
Qed.

Lemma slice_mean n c : (0 < n)%nat -> rsum n (slice_centre n c) = INR n * c.
Proof.
  intros H.
  assert (E : rsum n (slice_centre n c) = rsum n (fun i => 2 * c - slice_centre n c i)).
  { rewrite rsum_rev at 1. apply rsum_ext. intros i Hi. now apply slice_mirror. }
  rewrite rsum_minus, rsum_const in E. lra.
Qed.

Lemma mean_bounds n f x y lo hi : (0 < n)%nat ->
  (forall i j, (i < n)%nat -> (j < n)%nat -> lo <= f (slice_centre n x i) (slice_centre n y j) <= hi) ->
  lo <= mean_over_pixel n f x y <= hi.
Proof.
  intros Hn H. unfold mean_over_pixel.
  assert (P : 0 < INR n) by (apply lt_0_INR; lia).
  assert (P2 : 0 < INR n * INR n) by (apply Rmult_lt_0_compat; lra).
  assert (A : (INR n * INR n) * lo <=
    rsum n (fun i => rsum n (fun j => f (slice_centre n x i) (slice_centre n y j))) <= (INR n * INR n) * hi).
  { split.
    - apply Rle_trans with (rsum n (fun _ => rsum n (fun _ => lo))).
      + rewrite (rsum_ext n _ (fun _ => INR n * lo)) by (intros; apply rsum_const). rewrite rsum_const. lra.
      + apply rsum_le. intros i Hi. apply rsum_le. intros j Hj. now apply H.
    - apply Rle_trans with (rsum n (fun _ => rsum n (fun _ => hi))).
      + apply rsum_le. intros i Hi. apply rsum_le. intros j Hj. now apply H.
      + rewrite (rsum_ext n _ (fun _ => INR n * hi)) by (intros; apply rsum_const). rewrite rsum_const. lra. }
  split.
  - apply Rmult_le_reg_r with (INR n * INR n); auto. unfold Rdiv. rewrite Rmult_assoc, Rinv_l by lra. lra.
  - apply Rmult_le_reg_r with (INR n * INR n); auto. unfold Rdiv. rewrite Rmult_assoc, Rinv_l by lra. lra.
Qed.

Lemma mean_ext n f g x y :
  (forall i j, (i < n)%nat -> (j < n)%nat ->
     f (slice_centre n x i) (slice_centre n y j) = g (slice_centre n x i) (slice_centre n y j)) ->
  mean_over_pixel n f x y = mean_over_pixel n g x y.
Proof.
  intros H. unfold mean_over_pixel. f_equal. apply rsum_ext. intros i Hi. apply rsum_ext. auto.
Qed.

Lemma mean_linear n a b c x y : (0 < n)%nat ->
  mean_over_pixel n (fun x y => a + b * x + c * y) x y = a + b * x + c * y.
Proof.
  intros Hn. unfold mean_over_pixel. assert (P : 0 < INR n) by (apply lt_0_INR; lia).
  rewrite (rsum_ext n _ (fun i => (INR n * a + INR n * c * y) + (INR n * b) * slice_centre n x i)).
  - rewrite rsum_plus, rsum_const, rsum_scal, slice_mean by lia. field. lra.
  - intros i Hi. rewrite rsum_plus, rsum_scal, slice_mean, rsum_const by lia. ring.
Qed.

Lemma mean_mirror n f x y cx cy : (0 < n)%nat ->
  (forall u v, f (2 * cx - u) (2 * cy - v) = f u v) ->
  mean_over_pixel n f (2 * cx - x) (2 * cy - y) = mean_over_pixel n f x y.
Proof.
  intros Hn H. unfold mean_over_pixel. f_equal.
  rewrite rsum_rev. apply rsum_ext. intros i Hi.
  rewrite rsum_rev. apply rsum_ext. intros j Hj.
  rewrite !slice_mirror by lia.
  rewrite <- (H (slice_centre n x i)). f_equal; unfold slice_centre; ring.
Qed.

(** ---- Setup() ---- *)

Ltac getsE H :=
  repeat match type of H with
  | bind (get ?l ?i) _ = Ok _ => destruct (get l i) eqn:?; cbn [bind] in H; try discriminate H
  end.

Ltac kinds H k :=
  destruct k; cbn [Setup] in H;
  unfold make_Exponential, make_Gaussian, make_Sersic, make_Moffat, make_ModifiedKing, make_ModifiedKing2,
    make_CoreSersic, make_NukerLaw, make_BrokenExponential, make_DoubleBrokenExponential, make_FlatExponential,
    make_GaussianRing, make_GaussianRing2Side, make_GenExponential, make_GenExponential2, make_GenSersic,
    make_FerrersBar2D, make_GaussianRingAz, make_EdgeOnRing, make_EdgeOnRing2Side, make_EdgeOnDisk,
    make_BrokenExponential2D, make_FlatSky, make_TiltedSkyPlane in H;
  getsE H; cbv zeta in H; apply Ok_inj in H; subst.

Lemma Setup_total T (N : Num T) K1 k d ps off xc yc : (off + nParams k <= length ps)%nat ->
  exists o, Setup N K1 k d ps off xc yc = Ok o.
Proof.
  intros L.
  assert (G : forall i, (i < nParams k)%nat -> exists v, get ps (i + off) = Ok v).
  { intros i Hi. apply get_lt. lia. }
  destruct k; cbn [Setup nParams] in *;
  unfold make_Exponential, make_Gaussian, make_Sersic, make_Moffat, make_ModifiedKing, make_ModifiedKing2,
    make_CoreSersic, make_NukerLaw, make_BrokenExponential, make_DoubleBrokenExponential, make_FlatExponential,
    make_GaussianRing, make_GaussianRing2Side, make_GenExponential, make_GenExponential2, make_GenSersic,
    make_FerrersBar2D, make_GaussianRingAz, make_EdgeOnRing, make_EdgeOnRing2Side, make_EdgeOnDisk,
    make_BrokenExponential2D, make_FlatSky, make_TiltedSkyPlane; clear L;
  repeat match goal with
  | |- exists o, bind (get ps (?i + off)) _ = Ok o =>
      let v := fresh "v" in let E := fresh "E" in
      destruct (G i) as (v & E); [lia | rewrite E; cbn [bind]]
  end; eexists; reflexivity.
Qed.

Lemma Setup_basic T (N : Num T) K1 k d ps off xc yc o : Setup N K1 k d ps off xc yc = Ok o ->
  ob_x0 o = xc /\ ob_y0 o = yc /\ forall dx dy, ob_nsub o false dx dy = Ok 1%Z.
Proof. intros H. kinds H k; auto. Qed.

Lemma Setup_plain K1 k d ps off xc yc o : Setup NumR K1 k d ps off xc yc = Ok o ->
  forall x y, GetValue NumR o false x y = Ok (plain o x y).
Proof.
  intros H x y. destruct (Setup_basic H) as (Ex & Ey & En).
  rewrite (GetValue_mean (En _ _)). change (Z.to_nat (Z.max 1 1)) with 1%nat. now rewrite mean_1.
Qed.

Lemma C19_mean_proof K1 k d ps off xc yc : (off + nParams k <= length ps)%nat ->
  exists f, plain_image (value_at NumR K1 k d ps off xc yc) f /\
  forall x y v, value_at NumR K1 k d ps off xc yc true x y = Ok v ->
  exists n, (0 < n)%nat /\ v = mean_over_pixel n f x y.
Proof.
  intros L. destruct (@Setup_total _ NumR K1 k d ps off xc yc L) as (o & E).
  exists (plain o). unfold plain_image, value_at. rewrite E. cbn [bind]. split.
  - intros x y. exact (Setup_plain E x y).
  - intros x y v H. destruct (GetValue_inv H) as (n & En & ->).
    exists (Z.to_nat (Z.max 1 n)). split; [lia|reflexivity].
Qed.

(** ---- the sub-sampling factor ---- *)

Lemma to_int_R x : - 2 ^ 31 < x < 2 ^ 31 -> to_int NumR x = Ok (Ztrunc x).
Proof.
  intros (A & B). unfold to_int. cbn [ntrunc NumR].
  assert (E31 : 2 ^ 31 = IZR (2 ^ 31)) by (change (2 ^ 31)%Z with (2 ^ Z.of_nat 31)%Z; now rewrite <- pow_IZR).
  assert (L : (- 2 ^ 31 <= Ztrunc x)%Z /\ (Ztrunc x <= 2 ^ 31 - 1)%Z).
  { rewrite E31 in *. destruct (Rle_or_lt 0 x) as [P|P].
    - rewrite Ztrunc_floor by lra. split.
      + apply Z.le_trans with 0%Z; [lia|]. apply Zfloor_lub. exact P.
      + apply Z.lt_le_pred. apply lt_IZR. apply Rle_lt_trans with x; auto. apply Zfloor_lb.
    - rewrite Ztrunc_ceil by lra. split.
      + apply Z.lt_le_incl. apply lt_IZR. rewrite opp_IZR.
        apply Rlt_le_trans with x; auto. apply Zceil_ub.
      + apply Z.le_trans with 0%Z; [|lia]. apply Zceil_glb. simpl. lra. }
  destruct L as (L1 & L2). apply Z.leb_le in L1, L2. rewrite L1, L2. reflexivity.
Qed.

Lemma to_int_big x : 2 ^ 31 <= x -> to_int NumR x = Undef.
Proof.
  intros A. unfold to_int. cbn [ntrunc NumR].
  assert (E31 : 2 ^ 31 = IZR (2 ^ 31)) by (change (2 ^ 31)%Z with (2 ^ Z.of_nat 31)%Z; now rewrite <- pow_IZR).
  assert (L : (2 ^ 31 <= Ztrunc x)%Z).
  { rewrite Ztrunc_floor. - apply Zfloor_lub. now rewrite <- E31. - apply Rle_trans with (2 ^ 31); auto. apply pow_le. lra. }
  replace (Ztrunc x <=? 2 ^ 31 - 1)%Z with false by (symmetry; apply Z.leb_gt; lia).
  now rewrite andb_false_r.
Qed.

Lemma trunc_ge x k : (0 <= k)%Z -> IZR k <= x -> (k <= Ztrunc x)%Z.
Proof.
  intros P H. rewrite Ztrunc_floor.
  - now apply Zfloor_lub.
  - apply Rle_trans with (IZR k); auto. now apply IZR_le.
Qed.

Lemma pow31_pos : 1000000000 < 2 ^ 31. Proof. simpl. lra. Qed.

Lemma div_pos_bounds k h : 0 < k -> 0 < h <= 1 -> k <= k / h.
Proof.
  intros K (A & B). apply Rmult_le_reg_r with h; auto. unfold Rdiv. rewrite Rmult_assoc, Rinv_l by lra. nra.
Qed.

Lemma far_int r : 3 < r -> exists n, to_int NumR (20 / r) = Ok n /\ (r < 10 -> (2 <= n)%Z).
Proof.
  intros H.
  assert (P : 0 < 20 / r) by (apply Rdiv_lt_0_compat; lra).
  assert (Q : 20 / r < 20).
  { apply Rmult_lt_reg_r with r; [lra|]. unfold Rdiv. rewrite Rmult_assoc, Rinv_l by lra. lra. }
  pose proof pow31_pos. exists (Ztrunc (20 / r)). split.
  - apply to_int_R. lra.
  - intros L. apply trunc_ge; [lia|]. apply Rmult_le_reg_r with r; [lra|].
    unfold Rdiv. rewrite Rmult_assoc, Rinv_l by lra. lra.
Qed.

Lemma subsamples_R k near h s r : (k = 20 \/ k = 40)%Z -> (near = 3 \/ near = 4)%Z ->
  0 < h -> IZR k / h < 2 ^ 31 ->
  exists n, subsamples NumR k near h s r = Ok n /\ (1 <= n <= 100)%Z /\
    (s = false \/ 10 <= r -> n = 1%Z) /\ (s = true -> r < 10 -> (2 <= n)%Z).
Proof.
  intros Hk Hn Ph Bh. unfold subsamples. cbn [nltb nleb nofZ ndiv NumR].
  destruct s; cbn [andb].
  2:{ exists 1%Z. repeat split; try lia; try discriminate. }
  destruct (Rltb r 10) eqn:E10.
  2:{ apply Rltb_false in E10. exists 1%Z. repeat split; try lia. intros _ L. exfalso. lra. }
  apply Rltb_true in E10.
  assert (NF : true = false \/ 10 <= r -> forall n : Z, n = 1%Z) by (intros [A|A]; [discriminate|exfalso; lra]).
  assert (K20 : 20 <= IZR k) by (destruct Hk as [-> | ->]; lra).
  assert (N3 : 3 <= IZR near) by (destruct Hn as [-> | ->]; lra).
  destruct (Rleb h 1 && Rleb r 1)%bool eqn:EE.
  - apply andb_prop in EE as (A & B). apply Rleb_true in A. apply Rleb_true in B.
    pose proof (@div_pos_bounds (IZR k) h ltac:(lra) (conj Ph A)) as LL. pose proof pow31_pos.
    rewrite to_int_R by lra. cbn [bind].
    assert (20 <= Ztrunc (IZR k / h))%Z by (apply trunc_ge; [lia|lra]).
    exists (Z.min 100 (Ztrunc (IZR k / h))). repeat split; try lia. intros X. now apply NF.
  - destruct (Rleb r (IZR near)) eqn:EN.
    + exists 20%Z. repeat split; try lia. intros X. now apply NF.
    + apply Rleb_false in EN. destruct (@far_int r ltac:(lra)) as (n & -> & L). cbn [bind].
      specialize (L E10). exists (Z.min 100 n). repeat split; try lia. intros X. now apply NF.
Qed.

Lemma subsamples_undef k near h r : (0 < k)%Z -> 0 < h <= 1 -> r <= 1 -> 2 ^ 31 <= IZR k / h ->
  subsamples NumR k near h true r = Undef.
Proof.
  intros Hk Hh Hr B. unfold subsamples. cbn [nltb nleb nofZ ndiv NumR andb].
  replace (Rltb r 10) with true by (symmetry; apply Rltb_true; lra).
  replace (Rleb h 1) with true by (symmetry; apply Rleb_true; lra).
  replace (Rleb r 1) with true by (symmetry; apply Rleb_true; lra). cbn [andb].
  now rewrite to_int_big.
Qed.

Lemma Nuker_subsamples_R s r :
  exists n, Nuker_subsamples NumR s r = Ok n /\ (1 <= n <= 100)%Z /\
    (s = false \/ 10 <= r -> n = 1%Z).
Proof.
  unfold Nuker_subsamples. cbn [nltb nleb nofZ ndiv NumR].
  destruct s; cbn [andb].
  2:{ exists 1%Z. repeat split; lia. }
  destruct (Rltb r 10) eqn:E10.
  2:{ exists 1%Z. repeat split; lia. }
  apply Rltb_true in E10.
  assert (NF : true = false \/ 10 <= r -> forall n : Z, n = 1%Z) by (intros [A|A]; [discriminate|exfalso; lra]).
  destruct (Rleb r 4) eqn:EN.
  + exists 20%Z. repeat split; try lia. intros X. now apply NF.
  + apply Rleb_false in EN. destruct (@far_int r ltac:(lra)) as (n & -> & L). cbn [bind].
    specialize (L E10). exists (Z.min 100 n). repeat split; try lia. intros X. now apply NF.
Qed.

Lemma FlatExp_subsamples_R h r_b s r : 0 < h -> 20 / h < 2 ^ 31 ->
  exists n, FlatExp_subsamples NumR h r_b s r = Ok n /\ (1 <= n <= 100)%Z /\
    (s = false \/ 10 <= r -> n = 1%Z).
Proof.
  intros Ph Bh.
  destruct (@subsamples_R 20 3 h s r) as (n & E & B & F & _); auto.
  unfold FlatExp_subsamples. unfold subsamples in E. cbn [nltb nleb nofZ ndiv nmul NumR] in *.
  destruct (Rltb (half NumR * r_b) r) eqn:Eb.
  - rewrite andb_true_r. exists n. auto.
  - rewrite andb_false_r. cbn [andb]. exists 1%Z. repeat split; lia.
Qed.

Lemma EdgeOnDisk_subsamples_R h z_0 s r z : 0 < h -> 20 / h < 2 ^ 31 -> 0 < z_0 -> 20 / z_0 < 2 ^ 31 ->
  exists n, EdgeOnDisk_subsamples NumR h z_0 s r z = Ok n /\ (1 <= n <= 100)%Z /\
    (s = false \/ (10 <= Rabs r /\ 10 <= Rabs z) -> n = 1%Z).
Proof.
  intros Ph Bh Pz Bz. unfold EdgeOnDisk_subsamples. cbn [nltb nleb nofZ ndiv nabs NumR].
  pose proof pow31_pos as P31.
  destruct s; cbn [andb].
  2:{ exists 1%Z. repeat split; lia. }
  destruct (Rltb (Rabs r) 10 || Rltb (Rabs z) 10)%bool eqn:E10.
  2:{ exists 1%Z. repeat split; lia. }
  assert (NF : true = false \/ (10 <= Rabs r /\ 10 <= Rabs z) -> forall n : Z, n = 1%Z).
  { intros [A|(A & B)]; [discriminate|]. exfalso. apply orb_prop in E10 as [E|E]; apply Rltb_true in E; lra. }
  assert (G : forall x, 0 < x -> 0 < 20 / x) by (intros; apply Rdiv_lt_0_compat; lra).
  assert (T0 : forall x, 0 < x -> 20 / x < 2 ^ 31 -> (0 <= Ztrunc (20 / x))%Z).
  { intros x P _. apply trunc_ge; [lia|]. apply Rlt_le. now apply G. }
  destruct ((Rleb h 1 && Rleb (Rabs r) 1) || (Rleb z_0 1 && Rleb (Rabs z) 1))%bool eqn:EE.
  - rewrite !to_int_R by (specialize (G _ Ph) as G1; specialize (G _ Pz) as G2; lra). cbn [bind].
    eexists. split; [reflexivity|]. split; [|intros X; now apply NF].
    assert (20 <= Ztrunc (20 / h) \/ 20 <= Ztrunc (20 / z_0))%Z.
    { apply orb_prop in EE as [E|E]; apply andb_prop in E as (A & _); apply Rleb_true in A; [left|right];
        apply trunc_ge; try lia; apply div_pos_bounds; lra. }
    specialize (T0 _ Ph Bh) as T1. specialize (T0 _ Pz Bz) as T2. lia.
  - destruct (Rleb (Rabs r) 3 || Rleb (Rabs z) 3)%bool eqn:E3.
    + exists 20%Z. repeat split; try lia. intros X. now apply NF.
    + apply orb_false_iff in E3 as (A & B). apply Rleb_false in A. apply Rleb_false in B.
      destruct (@far_int _ A) as (n1 & E1 & L1). destruct (@far_int _ B) as (n2 & E2 & L2).
      rewrite E1, E2. cbn [bind]. eexists. split; [reflexivity|]. split; [|intros X; now apply NF].
      apply orb_prop in E10 as [E|E]; apply Rltb_true in E; [specialize (L1 E)|specialize (L2 E)]; lia.
Qed.

Lemma get_nth_ok (ps : list R) i v : get ps i = Ok v -> nth i ps 0 = v.
Proof. intros H. apply get_Ok_iff in H. now apply nth_error_nth. Qed.

Ltac nths := repeat match goal with H : get ?ps ?i = Ok ?v |- _ => apply get_nth_ok in H; cbn [Nat.add] in H; subst v end.

Lemma Setup_nsub K1 k d ps off xc yc o s dx dy : Setup NumR K1 k d ps off xc yc = Ok o ->
  2 / 10 ^ 8 <= scale_length k d ps off -> 2 / 10 ^ 8 <= vertical_scale k d ps off ->
  exists n, ob_nsub o s dx dy = Ok n /\ (1 <= n <= 100)%Z.
Proof.
  intros H Hs Hv.
  assert (B : forall kk h, (kk = 20 \/ kk = 40) -> 2 / 10 ^ 8 <= h -> 0 < h /\ kk / h < 2 ^ 31).
  { intros kk h Hk Hh. assert (P : 0 < h) by (simpl in Hh; lra). split; auto.
    apply Rmult_lt_reg_r with h; auto. unfold Rdiv at 1. rewrite Rmult_assoc, Rinv_l by lra.
    simpl in *. destruct Hk as [-> | ->]; lra. }
  assert (Sx : forall kk nr h r, (kk = 20 \/ kk = 40)%Z -> (nr = 3 \/ nr = 4)%Z -> 2 / 10 ^ 8 <= h ->
     exists n, subsamples NumR kk nr h s r = Ok n /\ (1 <= n <= 100)%Z).
  { intros kk nr h r Hk Hn Hh. destruct (B (IZR kk) h) as (P & Q); auto.
    { destruct Hk as [-> | ->]; auto. }
    destruct (@subsamples_R kk nr h s r) as (n & E & L & _); auto. eauto. }
  kinds H k; cbn [elliptical gen_elliptical ob_nsub scale_length vertical_scale nmul nofZ NumR] in *; nths;
    try (now (exists 1%Z; split; [reflexivity|lia])); try (apply Sx; auto; fail).
  - (* Moffat *) cbn [ndiv nsub nsqrt npow nofZ NumR] in *. rewrite half_eq. apply Sx; auto.
    eapply Rle_trans; [apply Hs|]. right. cbn [Nat.add]. unfold Rdiv. ring.
  - (* Nuker *) destruct (@Nuker_subsamples_R s (elliptical_radius NumR (nsub NumR (nth off ps 0) (imageRotation d)) (nsub NumR 1 (nth (1 + off) ps 0)) dx dy)) as (n & E & L & _). eauto.
  - (* Flat *) destruct (B 20 (nth (3 + off) ps 0)) as (P & Q); auto.
    destruct (@FlatExp_subsamples_R (nth (3 + off) ps 0) (nth (4 + off) ps 0) s (elliptical_radius NumR (nth off ps 0) (nsub NumR 1 (nth (1 + off) ps 0)) dx dy)) as (n & E & L & _); auto. eauto.
  - (* Edge *) 
    destruct (B 20 (nth (2 + off) ps 0 * pixelScaling d)) as (P & Q); auto.
    destruct (B 20 (nth (4 + off) ps 0 * pixelScaling d)) as (P' & Q'); auto.
    match goal with |- exists n, EdgeOnDisk_subsamples NumR ?h ?z ?s ?r ?zz = Ok n /\ _ =>
      destruct (@EdgeOnDisk_subsamples_R h z s r zz) as (nn & E & L & _); auto end. eauto.
Qed.

Lemma C20_defined_proof K1 k d ps off xc yc x y : (off + nParams k <= length ps)%nat ->
  2 / 10 ^ 8 <= scale_length k d ps off -> 2 / 10 ^ 8 <= vertical_scale k d ps off ->
  exists f n v, plain_image (value_at NumR K1 k d ps off xc yc) f /\ (1 <= n <= 100)%nat /\
    value_at NumR K1 k d ps off xc yc true x y = Ok v /\ v = mean_over_pixel n f x y.
Proof.
  intros L Hs Hv. destruct (@Setup_total _ NumR K1 k d ps off xc yc L) as (o & E).
  destruct (@Setup_nsub _ _ _ _ _ _ _ _ true (x - ob_x0 o) (y - ob_y0 o) E Hs Hv) as (n & En & B).
  exists (plain o), (Z.to_nat (Z.max 1 n)). unfold plain_image, value_at. rewrite E. cbn [bind].
  rewrite (GetValue_mean En). eexists. split; [|split; [lia|split; reflexivity]].
  exact (Setup_plain E).
Qed.

(** ---- elliptical components ---- *)

Lemma Setup_ellipses K1 k d ps off xc yc o : Setup NumR K1 k d ps off xc yc = Ok o -> has_ellipses k = true ->
  exists PA I nsub, o = elliptical NumR xc yc PA (nth (1 + off) ps 0) I nsub /\
    (PA + 90) * deg = component_direction k d ps off /\
    (forall r, 10 <= r -> nsub true r = Ok 1%Z).
Proof.
  intros H Hk. unfold component_direction, direction.
  assert (Far : forall kk nr h r, 10 <= r -> subsamples NumR kk nr h true r = Ok 1%Z).
  { intros kk nr h r Hr. unfold subsamples. cbn [nltb nofZ NumR andb].
    now replace (Rltb r 10) with false by (symmetry; apply Rltb_false; lra). }
  destruct k; try discriminate Hk; cbn [uses_description]; clear Hk;
  cbn [Setup] in H;
  unfold make_Exponential, make_Gaussian, make_Sersic, make_Moffat, make_ModifiedKing, make_ModifiedKing2,
    make_CoreSersic, make_NukerLaw, make_BrokenExponential, make_DoubleBrokenExponential, make_FlatExponential,
    make_GaussianRing, make_GaussianRing2Side in H;
  getsE H; cbv zeta in H; apply Ok_inj in H; nths;
  match type of H with elliptical _ _ _ ?PA _ ?I ?ns = _ => exists PA, I, ns end;
  (split; [symmetry; exact H|]); (split; [cbn [nsub NumR]; rewrite ?Rminus_0_r; reflexivity|]);
  try (intros r Hr; apply Far; exact Hr); try (intros; reflexivity); intros r Hr.
  - unfold Nuker_subsamples. cbn [nltb nofZ NumR andb].
    now replace (Rltb r 10) with false by (symmetry; apply Rltb_false; lra).
  - unfold FlatExp_subsamples. cbn [nltb nofZ NumR].
    replace (Rltb r 10) with false by (symmetry; apply Rltb_false; lra). now rewrite andb_false_r.
Qed.

Lemma radius_on_ellipse PA q a t x0 y0 : q <> 0 ->
  elliptical_radius NumR PA q (ellipse_x x0 ((PA + 90) * deg) q a t - x0) (ellipse_y y0 ((PA + 90) * deg) q a t - y0)
  = Rabs a.
Proof.
  intros Hq. unfold elliptical_radius, cosPA, sinPA. cbn [nadd nsub nmul ndiv nneg nsqrt ncos nsin nofZ NumR].
  rewrite deg_eq. set (phi := (PA + 90) * deg). unfold ellipse_x, ellipse_y.
  pose proof (sin2_cos2 phi) as S1. pose proof (sin2_cos2 t) as S2. unfold Rsqr in *.
  assert (E1 : (x0 + a * cos t * cos phi - q * a * sin t * sin phi - x0) * cos phi +
               (y0 + a * cos t * sin phi + q * a * sin t * cos phi - y0) * sin phi = a * cos t).
  { replace (a * cos t) with (a * cos t * (sin phi * sin phi + cos phi * cos phi)) at 3 by (rewrite S1; ring). ring. }
  assert (E2 : (- (x0 + a * cos t * cos phi - q * a * sin t * sin phi - x0) * sin phi +
               (y0 + a * cos t * sin phi + q * a * sin t * cos phi - y0) * cos phi) / q = a * sin t).
  { transitivity (q * a * sin t * (sin phi * sin phi + cos phi * cos phi) / q).
    - f_equal. ring.
    - rewrite S1. field. exact Hq. }
  rewrite E1, E2. rewrite <- sqrt_Rsqr_abs. f_equal. unfold Rsqr.
  transitivity (a * a * (sin t * sin t + cos t * cos t)); [ring|rewrite S2; ring].
Qed.

Lemma plain_on_ellipse K1 k d ps off xc yc o : Setup NumR K1 k d ps off xc yc = Ok o -> has_ellipses k = true ->
  component_axis_ratio ps off <> 0 ->
  exists I, forall a t,
    plain o (ellipse_x xc (component_direction k d ps off) (component_axis_ratio ps off) a t)
            (ellipse_y yc (component_direction k d ps off) (component_axis_ratio ps off) a t) = I (Rabs a).
Proof.
  intros H Hk Hq. destruct (Setup_ellipses H Hk) as (PA & I & ns & -> & <- & _).
  exists I. intros a t. unfold plain. cbn [elliptical ob_point ob_x0 ob_y0].
  change (nsub NumR (nofZ NumR 1) (nth (1 + off) ps 0)) with (component_axis_ratio ps off).
  now rewrite radius_on_ellipse.
Qed.

Lemma C21_isophotes_proof K1 k d ps off xc yc a b t u :
  (off + nParams k <= length ps)%nat -> has_ellipses k = true -> component_axis_ratio ps off <> 0 ->
  Rabs a = Rabs b ->
  let X r s := ellipse_x xc (component_direction k d ps off) (component_axis_ratio ps off) r s in
  let Y r s := ellipse_y yc (component_direction k d ps off) (component_axis_ratio ps off) r s in
  value_at NumR K1 k d ps off xc yc false (X a t) (Y a t) =
  value_at NumR K1 k d ps off xc yc false (X b u) (Y b u).
Proof.
  intros L Hk Hq Hab X Y. destruct (@Setup_total _ NumR K1 k d ps off xc yc L) as (o & E).
  unfold value_at. rewrite E. cbn [bind]. rewrite !(Setup_plain E).
  destruct (plain_on_ellipse E Hk Hq) as (I & HI). unfold X, Y. now rewrite !HI, Hab.
Qed.

Lemma C20_far_proof K1 k d ps off xc yc a t :
  (off + nParams k <= length ps)%nat -> has_ellipses k = true -> component_axis_ratio ps off <> 0 ->
  10 <= Rabs a ->
  let X := ellipse_x xc (component_direction k d ps off) (component_axis_ratio ps off) a t in
  let Y := ellipse_y yc (component_direction k d ps off) (component_axis_ratio ps off) a t in
  value_at NumR K1 k d ps off xc yc true X Y = value_at NumR K1 k d ps off xc yc false X Y.
Proof.
  intros L Hk Hq Ha X Y. destruct (@Setup_total _ NumR K1 k d ps off xc yc L) as (o & E).
  unfold value_at. rewrite E. cbn [bind]. rewrite (Setup_plain E).
  destruct (Setup_ellipses E Hk) as (PA & I & ns & -> & Hd & Far).
  assert (En : ob_nsub (elliptical NumR xc yc PA (nth (1 + off) ps 0) I ns) true
     (X - ob_x0 (elliptical NumR xc yc PA (nth (1 + off) ps 0) I ns))
     (Y - ob_y0 (elliptical NumR xc yc PA (nth (1 + off) ps 0) I ns)) = Ok 1%Z).
  { cbn [elliptical ob_nsub ob_x0 ob_y0]. unfold X, Y. rewrite <- Hd.
    change (nsub NumR (nofZ NumR 1) (nth (1 + off) ps 0)) with (component_axis_ratio ps off).
    rewrite radius_on_ellipse by exact Hq. now apply Far. }
  rewrite (GetValue_mean En). change (Z.to_nat (Z.max 1 1)) with 1%nat. now rewrite mean_1.
Qed.

(** every point is on one of the ellipses *)
Lemma unit_circle u v : u * u + v * v = 1 -> exists t, cos t = u /\ sin t = v.
Proof.
  intros H.
  assert (Hu : -1 <= u <= 1) by (split; nra).
  destruct (Rle_or_lt 0 v) as [P|P].
  - exists (acos u). split; [now apply cos_acos|]. rewrite sin_acos by exact Hu.
    replace (1 - u²) with (v²) by (unfold Rsqr; lra). now apply sqrt_Rsqr.
  - exists (- acos u). rewrite cos_neg, sin_neg. split; [now apply cos_acos|]. rewrite sin_acos by exact Hu.
    replace (1 - u²) with ((-v)²) by (unfold Rsqr; lra). rewrite sqrt_Rsqr by lra. lra.
Qed.

Lemma ellipses_cover x0 y0 phi q x y : q <> 0 ->
  exists a t, 0 <= a /\ x = ellipse_x x0 phi q a t /\ y = ellipse_y y0 phi q a t.
Proof.
  intros Hq.
  set (u := (x - x0) * cos phi + (y - y0) * sin phi).
  set (v := (- (x - x0) * sin phi + (y - y0) * cos phi) / q).
  pose proof (sin2_cos2 phi) as S1. unfold Rsqr in S1.
  assert (Ex : x = x0 + u * cos phi - q * v * sin phi).
  { unfold u, v. field_simplify; [|exact Hq]. rewrite <- !Rsqr_pow2. unfold Rsqr.
    transitivity (x0 + (x - x0) * (sin phi * sin phi + cos phi * cos phi)); [rewrite S1; ring|]. ring. }
  assert (Ey : y = y0 + u * sin phi + q * v * cos phi).
  { unfold u, v. field_simplify; [|exact Hq]. rewrite <- !Rsqr_pow2. unfold Rsqr.
    transitivity (y0 + (y - y0) * (sin phi * sin phi + cos phi * cos phi)); [rewrite S1; ring|]. ring. }
  set (a := sqrt (u * u + v * v)).
  assert (Pa : 0 <= u * u + v * v) by nra.
  assert (Ea : a * a = u * u + v * v) by (unfold a; now apply sqrt_sqrt).
  exists a. destruct (Req_dec a 0) as [Z|NZ].
  - exists 0. split; [apply sqrt_pos|]. assert (u = 0 /\ v = 0) as (-> & ->) by (split; nra).
    unfold ellipse_x, ellipse_y. rewrite Z. split; [rewrite Ex|rewrite Ey]; ring.
  - destruct (@unit_circle (u / a) (v / a)) as (t & Ct & St).
    { transitivity ((u * u + v * v) / (a * a)); [field; auto|]. rewrite <- Ea. field. auto. }
    exists t. split; [apply sqrt_pos|]. unfold ellipse_x, ellipse_y. rewrite Ct, St.
    split; [rewrite Ex at 1|rewrite Ey at 1]; field; auto.
Qed.
