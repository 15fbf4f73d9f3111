From Coq Require Import Reals ZArith List Lra Lia Bool String.
From Flocq Require Import Core.
From Verif Require Import Interp_Spec Func_Sym.
Import ListNotations.
Open Scope list_scope.
Open Scope R_scope.
Set Implicit Arguments. Unset Strict Implicit.

(** ---- sums over a window ---- *)
Definition inrange (W : nat) (z : Z) : bool := (0 <=? z)%Z && (z <? Z.of_nat W)%Z.
Definition wg (W : nat) (g : nat -> R) (z : Z) : R := if inrange W z then g (Z.to_nat z) else 0.

Lemma rsum_part p M q h :
  (forall k, (k < p)%nat -> h k = 0) -> (forall k, (p + M <= k < p + M + q)%nat -> h k = 0) ->
  rsum (p + M + q) h = rsum M (fun k => h (p + k)%nat).
Proof.
  intros A B. rewrite !rsum_app. rewrite (@rsum_zero p) by auto.
  rewrite (@rsum_zero q); [ring|]. intros i Hi. apply B. lia.
Qed.

Lemma window_all (W M : nat) (a : Z) (g : nat -> R) :
  (forall c, (c < W)%nat -> (Z.of_nat c < a \/ a + Z.of_nat M <= Z.of_nat c)%Z -> g c = 0) ->
  rsum M (fun k => wg W g (a + Z.of_nat k)) = rsum W g.
Proof.
  intros Hz. pose (lo := Z.min a 0).
  pose (L := Z.to_nat (Z.max (a + Z.of_nat M) (Z.of_nat W) - lo)).
  pose (h := fun k => wg W g (lo + Z.of_nat k)).
  assert (Z1 : forall z, inrange W z = false -> wg W g z = 0) by (intros z E; unfold wg; now rewrite E).
  transitivity (rsum L h).
  - pose (p := Z.to_nat (a - lo)). pose (q := (L - p - M)%nat).
    replace L with (p + M + q)%nat by (unfold q, p, L, lo; lia).
    rewrite rsum_part.
    + apply rsum_ext. intros k Hk. unfold h. f_equal. unfold p, lo; lia.
    + intros k Hk. unfold h, wg. destruct (inrange _ _) eqn:E; auto. unfold inrange in E.
      apply andb_true_iff in E. rewrite Z.leb_le, Z.ltb_lt in E. apply Hz; unfold p, lo in *; lia.
    + intros k Hk. unfold h, wg. destruct (inrange _ _) eqn:E; auto. unfold inrange in E.
      apply andb_true_iff in E. rewrite Z.leb_le, Z.ltb_lt in E. apply Hz; unfold q, p, L, lo in *; lia.
  - pose (p := Z.to_nat (- lo)). pose (q := (L - p - W)%nat).
    replace L with (p + W + q)%nat by (unfold q, p, L, lo; lia).
    rewrite rsum_part.
    + apply rsum_ext. intros k Hk. unfold h, wg. replace (lo + Z.of_nat (p + k))%Z with (Z.of_nat k) by (unfold p, lo; lia).
      unfold inrange. destruct (andb_true_iff (0 <=? Z.of_nat k)%Z (Z.of_nat k <? Z.of_nat W)%Z) as (_ & ->).
      * now rewrite Nat2Z.id.
      * rewrite Z.leb_le, Z.ltb_lt. lia.
    + intros k Hk. unfold h. apply Z1. unfold inrange. apply andb_false_iff. rewrite Z.leb_gt, Z.ltb_ge. unfold p, lo in *; lia.
    + intros k Hk. unfold h. apply Z1. unfold inrange. apply andb_false_iff. rewrite Z.leb_gt, Z.ltb_ge. unfold q, p, L, lo in *; lia.
Qed.

Lemma for_sum_ok (n : nat) (f : nat -> R -> res R) (g : nat -> R) s :
  (forall i s, (i < n)%nat -> f i s = Ok (s + g i)) -> for_ n f s = Ok (s + rsum n g).
Proof.
  intros H. induction n as [|n IH].
  - cbn. f_equal. ring.
  - rewrite for_S, IH by (intros; apply H; lia). cbn [bind]. rewrite H by lia.
    cbn [rsum]. f_equal. ring.
Qed.

(** ---- positions ---- *)
Lemma coordinates_nth W k b : (k < W)%nat ->
  get (coordinates NumR (Z.of_nat W) b) k = Ok (INR k - b).
Proof.
  intros H. unfold coordinates. rewrite Nat2Z.id.
  rewrite (get_nth 0) by (rewrite map_length, seq_length; lia).
  rewrite (nth_indep _ 0 (INR 0 - b)) by (rewrite map_length, seq_length; lia).
  f_equal. change (INR 0 - b) with ((fun k => nsub NumR (nofZ NumR (Z.of_nat k)) b) 0%nat).
  rewrite map_nth, seq_nth by lia. cbn. now rewrite <- INR_IZR_INZ.
Qed.

Definition bnd (n : nat) : R := (INR n - 1) / 2.
Lemma bnd_eq n : nofZ NumR (Z.of_nat n - 1) / nofZ NumR 2 = bnd n.
Proof. cbn. unfold bnd. rewrite minus_IZR, <- INR_IZR_INZ. reflexivity. Qed.

Lemma getZ_nat {A} (l : list A) z : (0 <= z)%Z -> getZ l z = get l (Z.to_nat z).
Proof. intros H. unfold getZ. destruct (Z.ltb_spec z 0); [lia|reflexivity]. Qed.

Lemma coord_getZ W z : (0 <= z < Z.of_nat W)%Z ->
  getZ (coordinates NumR (Z.of_nat W) (bnd W)) z = Ok (position W (Z.to_nat z)).
Proof. intros H. rewrite getZ_nat by lia. rewrite coordinates_nth by lia. reflexivity. Qed.

Lemma FindIndex_ok W x : (2 <= W)%nat -> (Z.of_nat W < 2 ^ 31)%Z -> - bnd W <= x <= bnd W ->
  exists z, FindIndex NumR (coordinates NumR (Z.of_nat W) (bnd W)) x = Ok z
    /\ (0 <= z < Z.of_nat W)%Z /\ IZR z <= x + bnd W < IZR z + 1.
Proof.
  intros HW HM Hx. unfold FindIndex.
  rewrite !coordinates_nth by lia. cbn [bind]. cbn [ntrunc nsub ndiv nltb nofZ NumR].
  assert (E : (x - (INR 0 - bnd W)) / (INR 1 - bnd W - (INR 0 - bnd W)) = x + bnd W).
  { cbn [INR]. field. lra. }
  rewrite E. set (v := x + bnd W) in *.
  assert (V : 0 <= v) by (unfold v; lra).
  assert (V2 : v <= INR W - 1) by (unfold v, bnd in *; lra).
  rewrite Ztrunc_floor by auto.
  pose proof (Zfloor_lb v) as L. pose proof (Zfloor_ub v) as U.
  destruct (Rltb v (IZR (Zfloor v))) eqn:B; [apply Rltb_true in B; lra|].
  assert (Z0 : (0 <= Zfloor v)%Z) by (apply Zfloor_lub; auto).
  assert (Z1 : (Zfloor v < Z.of_nat W)%Z).
  { apply lt_IZR. rewrite <- INR_IZR_INZ. lra. }
  exists (Zfloor v). split; [|split; [lia|lra]].
  rewrite (proj2 (Z.leb_le _ _)) by lia. rewrite (proj2 (Z.leb_le _ _)) by lia. reflexivity.
Qed.

Lemma Lanczos_sinc n t : Lanczos NumR t (Z.of_nat n) = windowed_sinc n t.
Proof.
  unfold Lanczos, windowed_sinc. cbn [nltb nabs ndec nofZ nmul ndiv nsin NumR PI_lit PI_SQUARED].
  unfold Rltb, PI_lit, PI_SQUARED. cbn [ndec NumR]. rewrite <- INR_IZR_INZ.
  destruct (Rlt_dec _ _); auto. destruct (Rlt_dec _ _); auto.
Qed.

Lemma sinc_far n t : (1 <= n)%nat -> INR n < Rabs t -> windowed_sinc n t = 0.
Proof.
  intros Hn H. unfold windowed_sinc. cbv zeta.
  assert (1 <= INR n) by (apply (le_INR 1); lia).
  destruct (Rlt_dec (Rabs t) _) as [A|A].
  - exfalso. assert (1 / IZR (10 ^ 6) <= 1) by (cbn; lra). lra.
  - destruct (Rlt_dec _ _); [reflexivity|lra].
Qed.

Lemma outside_false W H pix x y : - bnd W <= x <= bnd W -> - bnd H <= y <= bnd H ->
  outside NumR (make_psf NumR pix (Z.of_nat W) (Z.of_nat H)) x y = false.
Proof.
  intros Hx Hy. unfold outside, make_psf. cbn [xBound yBound]. 
  change (ndiv NumR) with Rdiv. rewrite !bnd_eq. cbn [nltb nneg NumR].
  rewrite !orb_false_iff. repeat split; apply Rltb_false; lra.
Qed.

Lemma psf_outside (W H : nat) pix x y : beyond W x \/ beyond H y ->
  outside NumR (make_psf NumR pix (Z.of_nat W) (Z.of_nat H)) x y = true.
Proof.
  intros B. unfold outside, make_psf. cbn [xBound yBound].
  change (ndiv NumR) with Rdiv. rewrite !bnd_eq. cbn [nltb nneg NumR].
  unfold beyond in B. fold (bnd W) in B. fold (bnd H) in B.
  rewrite !orb_true_iff, !Rltb_true.
  destruct B as [B|B]; unfold Rabs in B; destruct (Rcase_abs _); try lra; try (left; left; lra); auto.
Qed.

(** ---- the interpolated value ---- *)
Definition wsum (n W H : nat) (pix : list R) (x y : R) : R :=
  rsum W (fun c => rsum H (fun r =>
    windowed_sinc n (x - position W c) * windowed_sinc n (y - position H r) * nth (c * W + r) pix 0)).

Lemma far_position n W (z : Z) (x : R) c : (1 <= n)%nat -> (c < W)%nat ->
  IZR z <= x + bnd W < IZR z + 1 ->
  (Z.of_nat c < z + - Z.of_nat n \/ z + - Z.of_nat n + Z.of_nat (2 * n + 1) <= Z.of_nat c)%Z ->
  windowed_sinc n (x - position W c) = 0.
Proof.
  intros Hn Hc Hz Hf. apply sinc_far; auto. unfold position. fold (bnd W).
  rewrite !INR_IZR_INZ. destruct Hf as [Hf|Hf].
  - assert (IZR (Z.of_nat c) <= IZR z - IZR (Z.of_nat n) - 1) by (rewrite <- !minus_IZR; apply IZR_le; lia).
    rewrite Rabs_pos_eq; [lra|]. assert (0 <= IZR (Z.of_nat n)) by (apply IZR_le; lia). lra.
  - assert (IZR z + IZR (Z.of_nat n) + 1 <= IZR (Z.of_nat c)) by (rewrite <- !plus_IZR; apply IZR_le; lia).
    rewrite Rabs_left1; [lra|]. assert (0 <= IZR (Z.of_nat n)) by (apply IZR_le; lia). lra.
Qed.

Lemma wg_out W g z : ((z <? 0)%Z || (Z.of_nat W <=? z)%Z)%bool = true -> wg W g z = 0.
Proof.
  intros E. unfold wg, inrange. rewrite orb_true_iff, Z.ltb_lt, Z.leb_le in E.
  destruct (_ && _) eqn:F; auto. rewrite andb_true_iff, Z.leb_le, Z.ltb_lt in F. lia.
Qed.
Lemma wg_in W g z : ((z <? 0)%Z || (Z.of_nat W <=? z)%Z)%bool = false ->
  wg W g z = g (Z.to_nat z) /\ (0 <= z < Z.of_nat W)%Z.
Proof.
  intros E. unfold wg, inrange. rewrite orb_false_iff, Z.ltb_ge, Z.leb_gt in E.
  destruct (_ && _) eqn:F; [split; auto; lia|]. rewrite andb_false_iff, Z.leb_gt, Z.ltb_ge in F. lia.
Qed.

Lemma lanczos_tall (n W H : nat) pix x y :
  (1 <= n)%nat -> (2 <= W)%nat -> (W <= H)%nat -> psf_image W H pix ->
  - bnd W <= x <= bnd W -> - bnd H <= y <= bnd H ->
  lanczos_value NumR (Z.of_nat n) (make_psf NumR pix (Z.of_nat W) (Z.of_nat H)) x y
  = Ok (wsum n W H pix x y).
Proof.
  intros Hn HW HH (HL & HM1 & HM2) Hx Hy. unfold lanczos_value.
  rewrite outside_false by auto. unfold make_psf. cbn [xArray yArray psfData nColumns nRows].
  change (ndiv NumR) with Rdiv. rewrite !bnd_eq.
  destruct (FindIndex_ok HW HM1 Hx) as (mx & -> & Rx & Bx). cbn [bind].
  destruct (@FindIndex_ok H y) as (my & -> & Ry & By); [lia|auto|auto|]. cbn [bind].
  unfold forZ. replace (Z.to_nat (Z.of_nat n + 1 - - Z.of_nat n)) with (2 * n + 1)%nat by lia.
  pose (G := fun c => rsum H (fun r =>
    windowed_sinc n (x - position W c) * windowed_sinc n (y - position H r) * nth (c * W + r) pix 0)).
  rewrite (for_sum_ok (g := fun k => wg W G (mx + - Z.of_nat n + Z.of_nat k))).
  - rewrite window_all.
    + unfold wsum. cbn [nofZ NumR]. f_equal. unfold G. ring.
    + intros c Hc Hf. unfold G. apply rsum_zero. intros r Hr.
      rewrite (far_position Hn Hc Bx Hf). ring.
  - intros i s Hi. cbv zeta.
    rewrite <- Z.add_assoc. set (ix := (mx + (- Z.of_nat n + Z.of_nat i))%Z).
    destruct ((ix <? 0)%Z || (Z.of_nat W <=? ix)%Z)%bool eqn:E.
    + rewrite (wg_out G E). reflexivity.
    + destruct (wg_in G E) as (-> & Rix). rewrite coord_getZ by auto. cbn [bind].
      set (c := Z.to_nat ix). 
      pose (g := fun r => windowed_sinc n (x - position W c) * windowed_sinc n (y - position H r) * nth (c * W + r) pix 0).
      rewrite (for_sum_ok (g := fun k => wg H g (my + - Z.of_nat n + Z.of_nat k))).
      * rewrite window_all; [reflexivity|]. intros r Hr Hf. unfold g.
        rewrite (far_position Hn Hr By Hf). ring.
      * intros j s' Hj. rewrite <- Z.add_assoc. set (iy := (my + (- Z.of_nat n + Z.of_nat j))%Z).
        destruct ((iy <? 0)%Z || (Z.of_nat H <=? iy)%Z)%bool eqn:E'.
        -- rewrite (wg_out g E'). reflexivity.
        -- destruct (wg_in g E') as (-> & Riy). rewrite coord_getZ by auto. cbn [bind].
           rewrite getZ_nat by lia.
           assert (EI : Z.to_nat (ix * Z.of_nat W + iy) = (c * W + Z.to_nat iy)%nat) by (unfold c; lia).
           rewrite EI. rewrite (get_nth 0).
           ++ cbn [bind nadd nmul nsub NumR]. rewrite !Lanczos_sinc. reflexivity.
           ++ rewrite HL. assert (c < W)%nat by (unfold c; lia). assert (Z.to_nat iy < H)%nat by lia. nia.
Qed.

(** ---- at the pixel centres ---- *)
Lemma abs_sin_shift (k : nat) u : Rabs (sin (INR k * PI - u)) = Rabs (sin u).
Proof.
  induction k as [|k IH].
  - cbn [INR]. replace (0 * PI - u) with (- u) by ring. rewrite sin_neg. apply Rabs_Ropp.
  - rewrite S_INR. replace ((INR k + 1) * PI - u) with (INR k * PI - u + PI) by ring.
    rewrite neg_sin, Rabs_Ropp. exact IH.
Qed.

Lemma abs_sin_le u : 0 <= u <= 1 -> Rabs (sin u) <= u.
Proof.
  intros H. pose proof PI2_1. rewrite Rabs_pos_eq by (apply sin_ge_0; lra).
  destruct (Req_dec u 0) as [->|E]; [rewrite sin_0; lra|]. left. apply sin_lt_x. lra.
Qed.

Definition e0 : R := / 10 ^ 15.
Lemma sinc_node n (k : nat) : (1 <= n <= 3)%nat -> (1 <= k)%nat -> Rabs (windowed_sinc n (INR k)) <= e0.
Proof.
  intros Hn Hk. assert (K1 : 1 <= INR k) by (apply (le_INR 1); lia).
  unfold windowed_sinc. cbv zeta. rewrite (Rabs_pos_eq (INR k)) by lra.
  destruct (Rlt_dec (INR k) _) as [A|A].
  { exfalso. assert (1 / IZR (10 ^ 6) <= 1) by (cbn; lra). lra. }
  destruct (Rlt_dec _ _) as [B|B]. { rewrite Rabs_R0. unfold e0. left. apply Rinv_0_lt_compat. lra. }
  assert (K2 : INR k <= INR n) by lra.
  assert (N3 : INR n <= 3) by (change 3 with (INR 3) || idtac; replace 3 with (INR 3) by (cbn; ring); apply le_INR; lia).
  assert (N1 : 1 <= INR n) by (apply (le_INR 1); lia).
  set (p := 314159265358979 / IZR (10 ^ 14)).
  set (q := 986960440108936 / IZR (10 ^ 14)).
  assert (Q : 9.8 <= q) by (unfold q; change (10 ^ 14)%Z with 100000000000000%Z; lra).
  destruct PI_digits as (D1 & D2). cbn [pow] in D1, D2.
  pose (d := PI - p).
  assert (Dd : 0 <= d <= 324 / 100000000000000000) by (unfold d, p; change (10 ^ 14)%Z with 100000000000000%Z; lra).
  replace (p * INR k) with (INR k * PI - INR k * d) by (unfold d; ring).
  unfold Rdiv at 1. rewrite !Rabs_mult.
  rewrite abs_sin_shift. rewrite (Rabs_pos_eq (INR n)) by lra.
  assert (S1 : Rabs (sin (INR k * d)) <= INR k * d).
  { apply abs_sin_le. split; [apply Rmult_le_pos; lra|]. apply Rle_trans with (3 * d); [|lra].
    apply Rmult_le_compat_r; lra. }
  set (s2 := sin ((INR k * PI - INR k * d) / INR n)).
  assert (S2 : Rabs s2 <= 1) by (unfold s2; apply Rabs_le; pose proof (SIN_bound ((INR k * PI - INR k * d) / INR n)); lra).
  assert (P : 9.8 * INR k <= q * INR k * INR k).
  { replace (q * INR k * INR k) with ((q * INR k) * INR k) by ring. 
    apply Rle_trans with (9.8 * INR k * 1); [lra|].
    apply Rmult_le_compat; try lra. apply Rmult_le_compat_r; lra. }
  assert (P0 : 0 < q * INR k * INR k) by lra.
  rewrite (Rabs_pos_eq (/ _)) by (left; apply Rinv_0_lt_compat; lra).
  apply Rmult_le_reg_r with (q * INR k * INR k); auto.
  rewrite Rmult_assoc, Rinv_l by lra. rewrite Rmult_1_r.
  apply Rle_trans with (INR n * (INR k * d) * 1).
  - apply Rmult_le_compat; auto using Rabs_pos.
    + apply Rmult_le_pos; [lra|apply Rabs_pos].
    + apply Rmult_le_compat_l; lra.
  - rewrite Rmult_1_r. apply Rle_trans with (e0 * (9.8 * INR k)).
    + replace (INR n * (INR k * d)) with ((INR n * d) * INR k) by ring.
      replace (e0 * (9.8 * INR k)) with ((e0 * 9.8) * INR k) by ring.
      apply Rmult_le_compat_r; [lra|]. apply Rle_trans with (3 * d); [apply Rmult_le_compat_r; lra|].
      unfold e0. cbn [pow]. lra.
    + apply Rmult_le_compat_l; [|lra]. unfold e0. left. apply Rinv_0_lt_compat. lra.
Qed.

Lemma sinc_even n t : windowed_sinc n (- t) = windowed_sinc n t.
Proof. unfold windowed_sinc. now rewrite Rabs_Ropp. Qed.
Lemma sinc_0 n : windowed_sinc n 0 = 1.
Proof.
  unfold windowed_sinc. cbv zeta. rewrite Rabs_R0. destruct (Rlt_dec _ _) as [A|A]; auto.
  exfalso. apply A. cbn. lra.
Qed.

Lemma sinc_nodes n W c0 c : (1 <= n <= 3)%nat -> c <> c0 ->
  Rabs (windowed_sinc n (position W c0 - position W c)) <= e0.
Proof.
  intros Hn Hc. unfold position.
  replace (INR c0 - (INR W - 1) / 2 - (INR c - (INR W - 1) / 2)) with (INR c0 - INR c) by ring.
  destruct (le_lt_dec c c0) as [L|L].
  - rewrite <- minus_INR by lia. apply sinc_node; lia.
  - replace (INR c0 - INR c) with (- (INR c - INR c0)) by ring. rewrite sinc_even.
    rewrite <- minus_INR by lia. apply sinc_node; lia.
Qed.

Lemma rsum_abs n f : Rabs (rsum n f) <= rsum n (fun i => Rabs (f i)).
Proof.
  induction n as [|n IH]; cbn [rsum]; [rewrite Rabs_R0; lra|].
  apply Rle_trans with (Rabs (rsum n f) + Rabs (f n)); [apply Rabs_triang|lra].
Qed.

Lemma e0_pos : 0 < e0. Proof. unfold e0. apply Rinv_0_lt_compat. apply pow_lt. lra. Qed.

Lemma nodes_1d n W c0 (q : nat -> R) B : (1 <= n <= 3)%nat -> (c0 < W)%nat ->
  (forall c, (c < W)%nat -> Rabs (q c) <= B) ->
  Rabs (rsum W (fun c => windowed_sinc n (position W c0 - position W c) * q c) - q c0) <= 7 * e0 * B.
Proof.
  intros Hn Hc HB. pose proof e0_pos.
  assert (B0 : 0 <= B) by (apply Rle_trans with (Rabs (q c0)); auto using Rabs_pos).
  pose (g := fun c => if Nat.eqb c c0 then 0 else windowed_sinc n (position W c0 - position W c) * q c).
  assert (Hg : forall c, (c < W)%nat -> Rabs (g c) <= e0 * B).
  { intros c Hc'. unfold g. destruct (Nat.eqb_spec c c0).
    - rewrite Rabs_R0. apply Rmult_le_pos; lra.
    - rewrite Rabs_mult. apply Rmult_le_compat; auto using Rabs_pos. now apply sinc_nodes. }
  replace (rsum W _ - q c0) with (rsum W g).
  2:{ assert (E : rsum W (fun c => windowed_sinc n (position W c0 - position W c) * q c - g c) = q c0).
      { rewrite (@rsum_single W c0); auto.
        - unfold g. rewrite Nat.eqb_refl. rewrite Rminus_eq_0, sinc_0. ring.
        - intros i Hi Hne. unfold g. destruct (Nat.eqb_spec i c0); [lia|]. ring. }
      rewrite rsum_minus in E. rewrite <- E. ring. }
  rewrite <- (@window_all W (2 * n + 1) (Z.of_nat c0 - Z.of_nat n)).
  - apply Rle_trans with (rsum (2 * n + 1) (fun k => e0 * B)).
    + apply Rle_trans with (1 := rsum_abs _ _). apply rsum_le. intros k Hk. unfold wg.
      destruct (inrange _ _) eqn:E.
      * unfold inrange in E. rewrite andb_true_iff, Z.leb_le, Z.ltb_lt in E. apply Hg. lia.
      * rewrite Rabs_R0. apply Rmult_le_pos; lra.
    + rewrite rsum_const. rewrite Rmult_assoc. apply Rmult_le_compat_r; [apply Rmult_le_pos; lra|].
      replace 7 with (INR 7) by (cbn; ring). apply le_INR. lia.
  - intros c Hc' Hf. unfold g. destruct (Nat.eqb_spec c c0); auto. rewrite sinc_far; [ring|lia|].
    unfold position. replace (INR c0 - (INR W - 1) / 2 - (INR c - (INR W - 1) / 2)) with (INR c0 - INR c) by ring.
    destruct Hf as [Hf|Hf].
    + assert (c + n + 1 <= c0)%nat as L by lia. apply le_INR in L. rewrite !plus_INR in L. cbn [INR] in L.
      pose proof (pos_INR n). rewrite Rabs_pos_eq; lra.
    + assert (c0 + n + 1 <= c)%nat as L by lia. apply le_INR in L. rewrite !plus_INR in L. cbn [INR] in L.
      pose proof (pos_INR n). rewrite Rabs_left1; lra.
Qed.

Lemma nodes_2d n W H (P : nat -> nat -> R) B c0 r0 : (1 <= n <= 3)%nat -> (c0 < W)%nat -> (r0 < H)%nat ->
  (forall c r, (c < W)%nat -> (r < H)%nat -> Rabs (P c r) <= B) ->
  Rabs (rsum W (fun c => rsum H (fun r =>
    windowed_sinc n (position W c0 - position W c) * windowed_sinc n (position H r0 - position H r) * P c r)) - P c0 r0)
  <= B / IZR (10 ^ 13).
Proof.
  intros Hn Hc Hr HB. assert (B0 : 0 <= B) by (apply Rle_trans with (Rabs (P c0 r0)); auto using Rabs_pos).
  pose proof e0_pos.
  pose (Q := fun c => rsum H (fun r => windowed_sinc n (position H r0 - position H r) * P c r)).
  rewrite (@rsum_ext W _ (fun c => windowed_sinc n (position W c0 - position W c) * Q c)).
  2:{ intros c _. unfold Q. rewrite <- rsum_scal. apply rsum_ext. intros; ring. }
  assert (HQ : forall c, (c < W)%nat -> Rabs (Q c - P c r0) <= 7 * e0 * B).
  { intros c Hc'. unfold Q. apply (@nodes_1d n H r0 (P c) B); auto. }
  assert (HQB : forall c, (c < W)%nat -> Rabs (Q c) <= 2 * B).
  { intros c Hc'. replace (Q c) with ((Q c - P c r0) + P c r0) by ring.
    apply Rle_trans with (1 := Rabs_triang _ _). specialize (HQ c Hc'). specialize (HB c r0 Hc' Hr).
    assert (7 * e0 * B <= B); [|lra]. apply Rle_trans with (1 * B); [|lra].
    apply Rmult_le_compat_r; auto. unfold e0. cbn [pow]. lra. }
  pose proof (@nodes_1d n W c0 Q (2 * B) Hn Hc HQB) as E. specialize (HQ c0 Hc).
  replace (_ - P c0 r0) with ((rsum W (fun c => windowed_sinc n (position W c0 - position W c) * Q c) - Q c0) + (Q c0 - P c0 r0)) by ring.
  apply Rle_trans with (1 := Rabs_triang _ _).
  apply Rle_trans with (21 * e0 * B); [lra|]. unfold Rdiv. rewrite (Rmult_comm B).
  apply Rmult_le_compat_r; auto. unfold e0. change (10 ^ 13)%Z with 10000000000000%Z. cbn [pow]. lra.
Qed.

Lemma position_in n k : (k < n)%nat -> - bnd n <= position n k <= bnd n.
Proof.
  intros Hk. unfold bnd, position. assert (L : (k + 1 <= n)%nat) by lia. apply le_INR in L.
  rewrite plus_INR in L. cbn [INR] in L. pose proof (pos_INR k). lra.
Qed.

(** ---- too few rows ---- *)
Lemma for_undef {S} (f : nat -> S -> res S) n k : (k < n)%nat ->
  (forall i s, (i < n)%nat -> f i s = Undef \/ exists s', f i s = Ok s') ->
  (forall s, f k s = Undef) -> forall s, for_ n f s = Undef.
Proof.
  intros Hk Hd Hu. assert (G : forall m s, (m <= n)%nat -> for_ m f s = Undef \/ exists s', for_ m f s = Ok s').
  { induction m as [|m IH]; intros s Hm; [right; exists s; reflexivity|].
    rewrite for_S. destruct (IH s) as [->|(s1 & ->)]; [lia|left; reflexivity|]. cbn [bind]. apply Hd. lia. }
  assert (G2 : forall m s, (k < m <= n)%nat -> for_ m f s = Undef).
  { induction m as [|m IH]; intros s Hm; [lia|]. rewrite for_S.
    destruct (Nat.eq_dec m k) as [->|Hne].
    - destruct (G k s) as [->|(s1 & ->)]; [lia|reflexivity|]. cbn [bind]. apply Hu.
    - rewrite IH by lia. reflexivity. }
  intros s. apply G2. lia.
Qed.

Lemma for_def {S} (f : nat -> S -> res S) n :
  (forall i s, (i < n)%nat -> f i s = Undef \/ exists s', f i s = Ok s') -> 
  forall s, for_ n f s = Undef \/ exists s', for_ n f s = Ok s'.
Proof.
  intros Hd. induction n as [|n IH]; intros s; [right; exists s; reflexivity|].
  rewrite for_S. destruct (IH (fun i s Hi => Hd i s (Nat.lt_lt_succ_r _ _ Hi)) s) as [->|(s1 & ->)]; [left; reflexivity|].
  cbn [bind]. apply Hd. lia.
Qed.

Lemma lanczos_wide (n W H : nat) pix y :
  (1 <= n)%nat -> (2 <= H)%nat -> (H < W)%nat -> psf_image W H pix -> - bnd H <= y <= bnd H ->
  lanczos_value NumR (Z.of_nat n) (make_psf NumR pix (Z.of_nat W) (Z.of_nat H)) (bnd W) y = Undef.
Proof.
  intros Hn HH HW (HL & HM1 & HM2) Hy. unfold lanczos_value.
  assert (Hx : - bnd W <= bnd W <= bnd W).
  { assert (2 <= INR W) by (apply (le_INR 2); lia). unfold bnd. lra. }
  rewrite outside_false by auto. unfold make_psf. cbn [xArray yArray psfData nColumns nRows].
  change (ndiv NumR) with Rdiv. rewrite !bnd_eq.
  destruct (@FindIndex_ok W (bnd W)) as (mx & -> & Rx & Bx); [lia|auto|auto|]. cbn [bind].
  destruct (@FindIndex_ok H y) as (my & -> & Ry & By); [lia|auto|auto|]. cbn [bind].
  assert (Mx : mx = (Z.of_nat W - 1)%Z).
  { replace (bnd W + bnd W) with (INR W - 1) in Bx by (unfold bnd; lra). rewrite INR_IZR_INZ in Bx.
    assert (mx <= Z.of_nat W - 1)%Z by lia. assert (Z.of_nat W - 1 < mx + 1)%Z; [|lia].
    apply lt_IZR. rewrite minus_IZR, plus_IZR. lra. }
  unfold forZ. replace (Z.to_nat (Z.of_nat n + 1 - - Z.of_nat n)) with (2 * n + 1)%nat by lia.
  assert (Inner : forall ix x_dat i s, (0 <= ix < Z.of_nat W)%Z ->
    let b := (fun (k : nat) (newVal : R) =>
      if ((my + (- Z.of_nat n + Z.of_nat k) <? 0)%Z || (Z.of_nat H <=? my + (- Z.of_nat n + Z.of_nat k))%Z)%bool
      then Ok (nadd NumR newVal (nofZ NumR 0))
      else do y_dat <- getZ (coordinates NumR (Z.of_nat H) (bnd H)) (my + (- Z.of_nat n + Z.of_nat k));
           do d <- getZ pix (ix * Z.of_nat W + (my + (- Z.of_nat n + Z.of_nat k)));
           Ok (nadd NumR newVal (nmul NumR (nmul NumR (Lanczos NumR (nsub NumR (bnd W) x_dat) (Z.of_nat n)) (Lanczos NumR (nsub NumR y y_dat) (Z.of_nat n))) d))) in
    (b i s = Undef \/ exists s', b i s = Ok s')).
  { intros ix x_dat i s Hix b. unfold b. set (iy := (my + _)%Z).
    destruct ((iy <? 0)%Z || (Z.of_nat H <=? iy)%Z)%bool eqn:E; [right; eauto|].
    rewrite orb_false_iff, Z.ltb_ge, Z.leb_gt in E. rewrite coord_getZ by lia. cbn [bind].
    rewrite getZ_nat by lia. unfold get. destruct (nth_error pix _); cbn [bind]; [right; eauto|left; auto]. }
  apply for_undef with (k := n); [lia| |].
  - intros i s Hi. cbv zeta. set (ix := (mx + _)%Z).
    destruct ((ix <? 0)%Z || (Z.of_nat W <=? ix)%Z)%bool eqn:E; [right; eauto|].
    rewrite orb_false_iff, Z.ltb_ge, Z.leb_gt in E. rewrite coord_getZ by lia. cbn [bind].
    apply for_def. intros j s' Hj. apply Inner. lia.
  - intros s. cbv zeta. replace (mx + (- Z.of_nat n + Z.of_nat n))%Z with (Z.of_nat W - 1)%Z by lia.
    set (ix := (Z.of_nat W - 1)%Z).
    destruct ((ix <? 0)%Z || (Z.of_nat W <=? ix)%Z)%bool eqn:E.
    { rewrite orb_true_iff, Z.ltb_lt, Z.leb_le in E. unfold ix in E. lia. }
    rewrite coord_getZ by (unfold ix; lia). cbn [bind].
    apply for_undef with (k := n); [lia| |].
    + intros j s' Hj. apply Inner. unfold ix. lia.
    + intros s'. replace (my + (- Z.of_nat n + Z.of_nat n))%Z with my by lia.
      destruct ((my <? 0)%Z || (Z.of_nat H <=? my)%Z)%bool eqn:E'.
      { rewrite orb_true_iff, Z.ltb_lt, Z.leb_le in E'. lia. }
      rewrite coord_getZ by lia. cbn [bind].
      rewrite getZ_nat by (unfold ix; nia). rewrite get_ge; [reflexivity|].
      rewrite HL. unfold ix.
      assert (Z.of_nat (W * H) <= (Z.of_nat W - 1) * Z.of_nat W + my)%Z; [|lia].
      rewrite Nat2Z.inj_mul. nia.
Qed.

(** ---- the statements ---- *)
Lemma kind_value spline k n W H pix x y : lobes k = Some n ->
  psf_at spline k W H pix x y = lanczos_value NumR (Z.of_nat n) (make_psf NumR pix (Z.of_nat W) (Z.of_nat H)) x y
  /\ (1 <= n <= 3)%nat.
Proof. destruct k; cbn [lobes]; intros E; try discriminate; injection E as <-; split; try reflexivity; lia. Qed.

Lemma outside_proof spline k W H pix x y : beyond W x \/ beyond H y -> psf_at spline k W H pix x y = Ok 0.
Proof.
  intros B. unfold psf_at, interp_value, lanczos_value, bicubic_value. rewrite (@psf_outside W H pix x y B).
  destruct k; reflexivity.
Qed.

Lemma bicubic_proof spline W H pix c r : psf_image W H pix -> passes_through_data spline ->
  (c < W)%nat -> (r < H)%nat ->
  psf_at spline Bicubic W H pix (position W c) (position H r) = Ok (pixel W pix c r).
Proof.
  intros (HL & _) HS Hc Hr. unfold psf_at, interp_value, bicubic_value.
  rewrite outside_false by now apply position_in. unfold make_psf. cbn [xArray yArray psfData].
  change (ndiv NumR) with Rdiv. rewrite !bnd_eq. f_equal.
  assert (L : forall n b, List.length (coordinates NumR (Z.of_nat n) b) = n).
  { intros n b. unfold coordinates. rewrite map_length, seq_length. lia. }
  assert (P : forall n k, (k < n)%nat -> position n k = nth k (coordinates NumR (Z.of_nat n) (bnd n)) 0).
  { intros n k Hk. pose proof (@coordinates_nth n k (bnd n) Hk) as E. rewrite (get_nth 0) in E by (rewrite L; auto).
    apply Ok_inj in E. rewrite E. reflexivity. }
  assert (ND : forall n, NoDup (coordinates NumR (Z.of_nat n) (bnd n))).
  { intros n. apply NoDup_nth with (d := 0). intros i j Hi Hj E. rewrite L in Hi, Hj.
    rewrite <- !P in E by auto. unfold position in E. apply INR_eq. lra. }
  rewrite (P W c Hc), (P H r Hr), HS; rewrite ?L; auto.
Qed.

Lemma index_of_nth l : NoDup l -> forall i, (i < List.length l)%nat -> index_of (nth i l 0) l = i.
Proof.
  induction 1 as [|a l Hn Hd IH]; intros i Hi; [cbn in Hi; lia|]. cbn [index_of].
  destruct i as [|i]; cbn [nth].
  - destruct (Req_EM_T a a); [reflexivity|lra].
  - cbn in Hi. destruct (Req_EM_T (nth i l 0) a) as [E|E].
    + exfalso. apply Hn. rewrite <- E. apply nth_In. lia.
    + f_equal. apply IH. lia.
Qed.
Lemma lookup_spline_ok : passes_through_data lookup_spline.
Proof. intros xs ys z i j Hx Hy Hz Hi Hj. unfold lookup_spline. rewrite !index_of_nth; auto. Qed.

Lemma lanczos_formula_proof spline k n W H pix x y : lobes k = Some n ->
  (2 <= W <= H)%nat -> psf_image W H pix -> ~ beyond W x -> ~ beyond H y ->
  psf_at spline k W H pix x y = Ok (rsum W (fun c => rsum H (fun r =>
    windowed_sinc n (x - position W c) * windowed_sinc n (y - position H r) * nth (c * W + r) pix 0))).
Proof.
  intros Hk HW HI Bx By. destruct (@kind_value spline k n W H pix x y Hk) as (-> & Hn).
  unfold beyond in Bx, By. apply Rnot_lt_le in Bx, By. apply Rabs_le_inv in Bx, By.
  apply lanczos_tall; auto; try lia; unfold bnd; lra.
Qed.

Lemma not_beyond n k : (k < n)%nat -> ~ beyond n (position n k).
Proof. intros Hk B. apply position_in in Hk. unfold beyond, bnd in *. revert B. apply Rle_not_lt. now apply Rabs_le. Qed.

Lemma square_proof spline k n W pix B c r : lobes k = Some n -> (2 <= W)%nat -> psf_image W W pix ->
  (forall i j, (i < W)%nat -> (j < W)%nat -> Rabs (pixel W pix i j) <= B) -> (c < W)%nat -> (r < W)%nat ->
  exists v, psf_at spline k W W pix (position W c) (position W r) = Ok v
    /\ Rabs (v - pixel W pix r c) <= B / IZR (10 ^ 13).
Proof.
  intros Hk HW HI HB Hc Hr. eexists. split.
  - apply (@lanczos_formula_proof spline k n); auto; try lia; now apply not_beyond.
  - destruct (@kind_value spline k n W W pix 0 0 Hk) as (_ & Hn).
    apply (@nodes_2d n W W (fun c r => pixel W pix r c) B); auto.
Qed.

Lemma tall_proof spline k n W H pix B c r : lobes k = Some n -> (2 <= W <= H)%nat -> psf_image W H pix ->
  (forall i j, (i < W)%nat -> (j < H)%nat -> Rabs (pixel W pix i j) <= B) -> (c < W)%nat -> (r < H)%nat ->
  exists v, psf_at spline k W H pix (position W c) (position H r) = Ok v
    /\ Rabs (v - nth (c * W + r) pix 0) <= B / IZR (10 ^ 13).
Proof.
  intros Hk HW HI HB Hc Hr. eexists. split.
  - apply (@lanczos_formula_proof spline k n); auto; try lia; now apply not_beyond.
  - destruct (@kind_value spline k n W H pix 0 0 Hk) as (_ & Hn).
    apply (@nodes_2d n W H (fun c r => nth (c * W + r) pix 0) B); auto.
    intros i j Hi Hj. destruct HI as (HL & _).
    assert (Hq : (i * W + j < W * H)%nat) by nia.
    assert (E : (i * W + j)%nat = ((i * W + j) / W * W + (i * W + j) mod W)%nat).
    { rewrite (Nat.mul_comm ((i * W + j) / W) W). apply Nat.div_mod. lia. }
    specialize (HB ((i * W + j) mod W)%nat ((i * W + j) / W)%nat).
    unfold pixel in HB. rewrite <- E in HB. apply HB.
    + apply Nat.mod_upper_bound. lia.
    + apply Nat.div_lt_upper_bound; lia.
Qed.

Lemma wide_proof spline k n W H pix r : lobes k = Some n -> (2 <= H < W)%nat -> psf_image W H pix ->
  (r < H)%nat -> psf_at spline k W H pix (position W (W - 1)) (position H r) = Undef.
Proof.
  intros Hk HW HI Hr. destruct (@kind_value spline k n W H pix (position W (W - 1)) (position H r) Hk) as (-> & Hn).
  replace (position W (W - 1)) with (bnd W).
  - apply lanczos_wide; auto; try lia. now apply position_in.
  - unfold bnd, position. rewrite minus_INR by lia. cbn [INR]. lra.
Qed.

Lemma point_source_proof spline W H pix I x0 y0 s c r : psf_image W H pix -> passes_through_data spline ->
  (1 <= s)%Z -> (c < W)%nat -> (r < H)%nat ->
  PointSource_value NumR I x0 y0 s (psf_at spline Bicubic W H pix)
    (x0 + position W c / IZR s) (y0 + position H r / IZR s) = Ok (I * pixel W pix c r).
Proof.
  intros HI HS Hs Hc Hr. unfold PointSource_value. cbn [nmul nsub nofZ NumR].
  assert (0 < IZR s) by (apply IZR_lt; lia).
  replace (IZR s * (x0 + position W c / IZR s - x0)) with (position W c) by (field; lra).
  replace (IZR s * (y0 + position H r / IZR s - y0)) with (position H r) by (field; lra).
  rewrite bicubic_proof by auto. reflexivity.
Qed.

Lemma transposed_proof spline k n : lobes k = Some n ->
  exists W pix c r v, psf_image W W pix /\ (4 <= W)%nat /\ (c < W)%nat /\ (r < W)%nat
    /\ psf_at spline k W W pix (position W c) (position W r) = Ok v
    /\ pixel W pix c r = 1 /\ v < 1 / 2.
Proof.
  intros Hk. exists 4%nat, [0; 1; 0; 0; 0; 0; 0; 0; 0; 0; 0; 0; 0; 0; 0; 0], 1%nat, 0%nat.
  assert (HI : psf_image 4 4 [0; 1; 0; 0; 0; 0; 0; 0; 0; 0; 0; 0; 0; 0; 0; 0]) by (split; [reflexivity|lia]).
  destruct (@square_proof spline k n 4 _ 1 1 0 Hk ltac:(lia) HI) as (v & E & Hv); try lia.
  - intros i j Hi Hj. unfold pixel.
    do 4 (destruct i as [|i]; [do 4 (destruct j as [|j]; [cbn; rewrite ?Rabs_R0, ?Rabs_R1; lra|]); lia|]). lia.
  - exists v. split; [exact HI|]. split; [lia|]. split; [lia|]. split; [lia|]. split; [exact E|]. split; [reflexivity|].
    unfold pixel in Hv. cbn [nth Nat.mul Nat.add] in Hv. apply Rabs_le_inv in Hv.
    change (10 ^ 13)%Z with 10000000000000%Z in Hv. lra.
Qed.

Lemma symmetric_proof spline k n W pix B c r : lobes k = Some n -> (2 <= W)%nat -> psf_image W W pix ->
  diagonal_symmetric W pix ->
  (forall i j, (i < W)%nat -> (j < W)%nat -> Rabs (pixel W pix i j) <= B) -> (c < W)%nat -> (r < W)%nat ->
  exists v, psf_at spline k W W pix (position W c) (position W r) = Ok v
    /\ Rabs (v - pixel W pix c r) <= B / IZR (10 ^ 13).
Proof. intros Hk HW HI HS HB Hc Hr. rewrite (HS c r Hc Hr). now apply (@square_proof spline k n). Qed.

Lemma AddPointSources_some {T} (psf : option (list T * Z * Z)) i ks :
  forall N, AddPointSources N psf (Some i) ks = (0%Z, repeat (Some i) (List.length ks)).
Proof.
  intros N. induction ks as [|k ks IH]; cbn [AddPointSources AddPointSource List.length repeat]; auto.
  cbn [Z.ltb Z.compare]. rewrite IH. reflexivity.
Qed.
Lemma shared_proof pix W H k ks : (4 <= W)%Z -> (4 <= H)%Z ->
  AddPointSources NumR (Some (pix, W, H)) None (k :: ks)
  = (0%Z, repeat (Some (k, make_psf NumR pix W H)) (S (List.length ks))).
Proof.
  intros HW HH. cbn [AddPointSources AddPointSource SetupPsfInterpolation].
  destruct (Z.ltb_spec W 4); [lia|]. destruct (Z.ltb_spec H 4); [lia|]. cbn [orb Z.ltb Z.compare].
  rewrite AddPointSources_some. reflexivity.
Qed.
Lemma too_small_proof psf k ks :
  (match psf with None => True | Some (_, W, H) => (W < 4 \/ H < 4)%Z end) ->
  AddPointSources NumR psf None (k :: ks) = ((-1)%Z, nil).
Proof.
  intros HP. cbn [AddPointSources AddPointSource SetupPsfInterpolation].
  destruct psf as [((pix & W) & H)|]; [|reflexivity].
  destruct ((W <? 4)%Z || (H <? 4)%Z)%bool eqn:E; [cbn; rewrite E; reflexivity|].
  rewrite orb_false_iff, !Z.ltb_ge in E. lia.
Qed.

Lemma region_proof normalise spline W H pix flag c r : psf_image W H pix -> passes_through_data spline ->
  (4 <= W)%nat -> (4 <= H)%nat -> (c < W)%nat -> (r < H)%nat ->
  exists k p, snd (region_AddPSFVector NumR normalise pix (Z.of_nat W) (Z.of_nat H) flag) = Some (k, p)
    /\ interp_value NumR spline k p (position W c) (position H r) = Ok (pixel W pix c r).
Proof.
  intros HI HS HW HH Hc Hr. exists Bicubic, (make_psf NumR pix (Z.of_nat W) (Z.of_nat H)). split.
  - unfold region_AddPSFVector. cbn [snd]. rewrite !(proj2 (Z.leb_le _ _)) by lia. reflexivity.
  - now apply bicubic_proof.
Qed.

Lemma method_proof : forall v rest current,
  SetExtraParams (("method"%string, v) :: rest) current =
    if in_dec string_dec v ["bicubic"; "Bicubic"]%string then (1%Z, Bicubic)
    else if in_dec string_dec v ["lanczos2"; "Lanczos2"]%string then (1%Z, Lanczos2)
    else if in_dec string_dec v ["lanczos3"; "Lanczos3"]%string then (1%Z, Lanczos3)
    else ((-3)%Z, current).
Proof.
  intros v rest current. unfold SetExtraParams. cbn [String.eqb Ascii.eqb Bool.eqb].
  change (String.eqb "method" "method") with true. cbv iota.
  assert (G : forall a b, (String.eqb v a || String.eqb v b)%bool
    = if in_dec string_dec v [a; b] then true else false).
  { intros a b. destruct (in_dec string_dec v [a; b]) as [I|I].
    - destruct I as [<-|[<-|[]]]; rewrite String.eqb_refl; auto using orb_true_r.
    - apply orb_false_iff. split; apply String.eqb_neq; intros ->; apply I; cbn; auto. }
  rewrite !G. do 3 (destruct (in_dec _ _ _); [reflexivity|]). reflexivity.
Qed.
