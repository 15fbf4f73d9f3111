(** Proofs about line-of-sight integration: the image description, and the orientation of
    the bars. *)
From Coq Require Import Reals Lra Lia List ZArith.
From Coquelicot Require Import Coquelicot.
From Verif Require Import Los_Spec Func_Proof Func_Profile Func_Image Los_Proof Los_Value Los_Column.
Import ListNotations.
Set Implicit Arguments. Unset Strict Implicit.
Local Open Scope R_scope.

(** ---- scaling ---- *)

Section Scale.
Variables c g : R.
Hypothesis Hc : 0 < c.

Lemma sech_scale n z0 z : 0 < z0 -> sech_profile n (z0 * c) (c * z) = sech_profile n z0 z.
Proof. intros H. unfold sech_profile. do 3 f_equal. field. lra. Qed.
Lemma exponential_scale J h n z0 r z : 0 < h -> 0 < z0 ->
  exponential_disc (J * g) (h * c) n (z0 * c) (c * r) (c * z) = g * exponential_disc J h n z0 r z.
Proof.
  intros Hh Hz. unfold exponential_disc. rewrite sech_scale by auto.
  replace (- (c * r) / (h * c)) with (- r / h) by (field; lra). ring.
Qed.
Lemma broken_scale J h1 h2 rb al n z0 r z : 0 < h1 -> 0 < h2 -> 0 < al -> 0 < z0 ->
  broken_disc (J * g) (h1 * c) (h2 * c) (rb * c) (al / c) n (z0 * c) (c * r) (c * z) = g * broken_disc J h1 h2 rb al n z0 r z.
Proof.
  intros H1 H2 Ha Hz. unfold broken_disc, broken_exp. cbv zeta. rewrite sech_scale by auto.
  replace (- (c * r) / (h1 * c)) with (- r / h1) by (field; lra).
  replace (1 / (al / c) * (1 / (h1 * c) - 1 / (h2 * c))) with (1 / al * (1 / h1 - 1 / h2)) by (field; lra).
  replace (- (al / c) * (rb * c)) with (- al * rb) by (field; lra).
  replace (al / c * (c * r - rb * c)) with (al * (r - rb)) by (field; lra). ring.
Qed.
Lemma ring_scale J a sg hz q u w z : 0 < sg -> 0 < hz -> q <> 0 ->
  gaussian_ring (J * g) (a * c) (sg * c) (hz * c) q (c * u) (c * w) (c * z) = g * gaussian_ring J a sg hz q u w z.
Proof.
  intros Hs Hz Hq. unfold gaussian_ring. cbv zeta.
  replace (c * u * (c * u) + c * w / q * (c * w / q)) with (c * c * (u * u + w / q * (w / q))) by (field; auto).
  assert (0 <= u * u + w / q * (w / q)) by nra.
  rewrite sqrt_mult by nra. rewrite sqrt_square by lra. set (r := sqrt _).
  replace (- ((c * r - a * c) * (c * r - a * c)) / (2 * (sg * c * (sg * c)))) with (- ((r - a) * (r - a)) / (2 * (sg * sg)))
    by (field; lra).
  rewrite Rabs_mult, (Rabs_pos_eq c) by lra. replace (- (c * Rabs z) / (hz * c)) with (- Rabs z / hz) by (field; lra). ring.
Qed.
Lemma ferrers_scale J Rb q qz n u w z : 0 < Rb -> 0 < q -> 0 < qz ->
  ferrers (J * g) (Rb * c) q qz n (c * u) (c * w) (c * z) = g * ferrers J Rb q qz n u w z.
Proof.
  intros HR Hq Hz. unfold ferrers. cbv zeta.
  replace (c * u / (Rb * c)) with (u / Rb) by (field; lra).
  replace (c * w / (q * (Rb * c))) with (w / (q * Rb)) by (field; lra).
  replace (c * z / (qz * (Rb * c))) with (z / (qz * Rb)) by (field; lra).
  destruct (Rlt_dec _ 1); ring.
Qed.
Lemma peanut_scale J Rx q qz Rp A sg c1 c2 u w z : 0 < Rx -> 0 < q -> 0 < qz -> 0 <= A -> 0 < sg ->
  peanut (J * g) (Rx * c) q qz (Rp * c) (A * c) (sg * c) c1 c2 (c * u) (c * w) (c * z) = g * peanut J Rx q qz Rp A sg c1 c2 u w z.
Proof.
  intros HR Hq Hz HA Hs. unfold peanut. cbv zeta.
  assert (E : peanut_height (A * c) (Rp * c) (sg * c) (qz * (Rx * c)) (c * u) (c * w) = c * peanut_height A Rp sg (qz * Rx) u w).
  { unfold peanut_height.
    replace (((c * u - Rp * c) ^ 2 + (c * w) ^ 2) / (2 * (sg * c) ^ 2)) with (((u - Rp) ^ 2 + w ^ 2) / (2 * sg ^ 2)) by (field; lra).
    replace (((c * u + Rp * c) ^ 2 + (c * w) ^ 2) / (2 * (sg * c) ^ 2)) with (((u + Rp) ^ 2 + w ^ 2) / (2 * sg ^ 2)) by (field; lra).
    ring. }
  rewrite E. set (H := peanut_height A Rp sg (qz * Rx) u w).
  assert (PH : 0 < H).
  { unfold H, peanut_height. match goal with |- 0 < _ * exp ?a + _ * exp ?b + _ => pose proof (exp_pos a); pose proof (exp_pos b) end. nra. }
  rewrite !Rabs_mult, (Rabs_pos_eq c) by lra.
  replace (c * Rabs u / (Rx * c)) with (Rabs u / Rx) by (field; lra).
  replace (c * Rabs w / (q * (Rx * c))) with (Rabs w / (q * Rx)) by (field; lra).
  replace (c * Rabs z / (c * H)) with (Rabs z / H) by (field; lra). unfold Rdiv. ring.
Qed.
End Scale.

Lemma seen_nodes d PA u v s :
  dot (mkvec (seen_x d u v) (seen_y d u v) (pixelScaling d * s)) (nodes (direction PA (imageRotation d)))
  = pixelScaling d * dot (mkvec u v s) (nodes (direction PA 0)).
Proof.
  unfold dot, nodes, seen_x, seen_y. cbn [vx vy vz].
  replace (direction PA (imageRotation d)) with (direction PA 0 - imageRotation d * deg) by (unfold direction; ring).
  set (f := direction PA 0). set (r := imageRotation d * deg). rewrite cos_minus, sin_minus.
  pose proof (sin2_cos2 r) as E. unfold Rsqr in E.
  transitivity (pixelScaling d * ((u * cos f + v * sin f) * (sin r * sin r + cos r * cos r))); [ring|rewrite E; ring].
Qed.
Lemma seen_perp d PA u v :
  - seen_x d u v * sin (direction PA (imageRotation d)) + seen_y d u v * cos (direction PA (imageRotation d))
  = pixelScaling d * (- u * sin (direction PA 0) + v * cos (direction PA 0)).
Proof.
  unfold seen_x, seen_y.
  replace (direction PA (imageRotation d)) with (direction PA 0 - imageRotation d * deg) by (unfold direction; ring).
  set (f := direction PA 0). set (r := imageRotation d * deg). rewrite cos_minus, sin_minus.
  pose proof (sin2_cos2 r) as E. unfold Rsqr in E.
  transitivity (pixelScaling d * ((- u * sin f + v * cos f) * (sin r * sin r + cos r * cos r))); [ring|rewrite E; ring].
Qed.
Lemma seen_across d PA i u v s :
  dot (mkvec (seen_x d u v) (seen_y d u v) (pixelScaling d * s)) (across (direction PA (imageRotation d)) i)
  = pixelScaling d * dot (mkvec u v s) (across (direction PA 0) i).
Proof.
  pose proof (seen_perp d PA u v) as E. unfold dot, across. cbn [vx vy vz].
  transitivity ((- seen_x d u v * sin (direction PA (imageRotation d)) + seen_y d u v * cos (direction PA (imageRotation d))) * cos i
    + pixelScaling d * s * sin i); [ring|rewrite E; ring].
Qed.
Lemma seen_pole d PA i u v s :
  dot (mkvec (seen_x d u v) (seen_y d u v) (pixelScaling d * s)) (pole (direction PA (imageRotation d)) i)
  = pixelScaling d * dot (mkvec u v s) (pole (direction PA 0) i).
Proof.
  pose proof (seen_perp d PA u v) as E. unfold dot, pole. cbn [vx vy vz].
  transitivity ((- seen_x d u v * sin (direction PA (imageRotation d)) + seen_y d u v * cos (direction PA (imageRotation d))) * sin i
    - pixelScaling d * s * cos i); [ring|rewrite E; ring].
Qed.
Lemma seen_plane d PA i t u v s :
  dot (mkvec (seen_x d u v) (seen_y d u v) (pixelScaling d * s)) (in_plane (direction PA (imageRotation d)) i t)
  = pixelScaling d * dot (mkvec u v s) (in_plane (direction PA 0) i t).
Proof.
  pose proof (seen_nodes d PA u v s) as E1. pose proof (seen_across d PA i u v s) as E2.
  assert (G : forall w f, dot w (in_plane f i t) = cos t * dot w (nodes f) + sin t * dot w (across f i)).
  { intros. unfold dot, in_plane, combine. cbn [vx vy vz]. ring. }
  rewrite !G, E1, E2. ring.
Qed.

Section Seen.
Variable k : Kind3.
Variable d : ImageDesc R.
Variable ps : list R.
Variable off : nat.
Hypothesis Hc : 0 < pixelScaling d.
Hypothesis Hg : 0 <= intensityScale d.
Hypothesis S : sensible3 k (default_desc NumR) ps off.

Lemma sensible_seen : sensible3 k d ps off.
Proof.
  assert (L : forall x, 0 < x * 1 -> 0 < x * pixelScaling d) by (intros; nra).
  assert (L' : forall x, 0 <= x * 1 -> 0 <= x * pixelScaling d) by (intros; nra).
  assert (G : forall x, 0 <= x * 1 -> 0 <= x * intensityScale d) by (intros; nra).
  assert (V : forall x, 0 < x / 1 -> 0 < x / pixelScaling d) by (intros; apply Rdiv_lt_0_compat; lra).
  revert S. unfold sensible3. cbn [default_desc pixelScaling intensityScale nofZ NumR].
  destruct k; intros Q; repeat match type of Q with _ /\ _ => destruct Q as (? & Q) end; repeat split; auto.
Qed.

Lemma lum_seen t u v s :
  luminosity k d ps off t (mkvec (seen_x d u v) (seen_y d u v) (pixelScaling d * s))
  = intensityScale d * luminosity k (default_desc NumR) ps off t (mkvec u v s).
Proof.
  unfold luminosity. cbv zeta. rewrite seen_nodes, seen_across, seen_pole, !seen_plane.
  replace ((pixelScaling d * dot (mkvec u v s) (nodes (direction (nth (0 + off) ps 0) 0))) ^ 2 +
           (pixelScaling d * dot (mkvec u v s) (across (direction (nth (0 + off) ps 0) 0) (nth (1 + off) ps 0 * deg))) ^ 2)
    with (pixelScaling d * pixelScaling d * (dot (mkvec u v s) (nodes (direction (nth (0 + off) ps 0) 0)) ^ 2 +
           dot (mkvec u v s) (across (direction (nth (0 + off) ps 0) 0) (nth (1 + off) ps 0 * deg)) ^ 2)) by ring.
  rewrite sqrt_mult by (try nra; apply Rplus_le_le_0_compat; apply pow2_ge_0). rewrite sqrt_square by lra.
  pose proof S as Q. revert Q. unfold sensible3. cbn [default_desc pixelScaling intensityScale imageRotation nofZ NumR].
  rewrite !Rmult_1_r, ?Rdiv_1. destruct k; intros Q; repeat match type of Q with _ /\ _ => destruct Q as (? & Q) end.
  - apply exponential_scale; auto.
  - replace (nth (6 + off) ps 0 / 1) with (nth (6 + off) ps 0) in * by field. apply broken_scale; auto.
  - apply ring_scale; auto. intros X. apply Q. lra.
  - apply ferrers_scale; auto.
  - apply peanut_scale; auto.
Qed.

Lemma reach_seen : reach k d ps off = pixelScaling d * reach k (default_desc NumR) ps off.
Proof.
  unfold reach. cbv zeta. cbn [default_desc pixelScaling nofZ NumR]. rewrite !Rmult_1_r. destruct k; try ring.
  - rewrite <- RmaxRmult by lra. f_equal; ring.
  - match goal with |- _ = ?c * (?e * ?M) => replace (c * (e * M)) with (e * (c * M)) by ring end.
    apply (f_equal2 Rmult); [reflexivity|]. rewrite <- RmaxRmult by lra. apply (f_equal2 Rmax); ring.
Qed.
Lemma guard_seen : guard_error k d ps off = guard_error k (default_desc NumR) ps off.
Proof.
  pose proof S as Q. revert Q. unfold guard_error, sensible3. cbv zeta. cbn [default_desc pixelScaling intensityScale nofZ NumR]. rewrite !Rmult_1_r.
  destruct k; auto. intros (_ & H2 & Ha & _ & _ & H1). replace (nth (6 + off) ps 0 / 1) with (nth (6 + off) ps 0) in Ha by field.
  do 2 f_equal. f_equal. field. repeat split; lra.
Qed.

Lemma column_seen t u v :
  column k d ps off t (seen_x d u v) (seen_y d u v)
  = pixelScaling d * intensityScale d * column k (default_desc NumR) ps off t u v.
Proof.
  unfold column. rewrite reach_seen. set (a := reach k (default_desc NumR) ps off). set (c := pixelScaling d) in *.
  set (F := fun s => luminosity k d ps off t (mkvec (seen_x d u v) (seen_y d u v) s)).
  set (G := fun s => luminosity k (default_desc NumR) ps off t (mkvec u v s)).
  assert (IF : integrable F) by (apply lum_integrable, sensible_seen).
  assert (IG : integrable G) by now apply lum_integrable.
  replace (- (c * a)) with (c * - a + 0) by ring. replace (c * a) with (c * a + 0) at 1 by ring.
  rewrite <- (RInt_comp_lin F c 0 (- a) a) by apply IF.
  replace (c * intensityScale d * RInt G (- a) a) with (RInt (fun s => scal (c * intensityScale d) (G s)) (- a) a)
    by (rewrite (RInt_scal G) by apply IG; reflexivity).
  apply RInt_ext. intros s _. unfold F. rewrite Rplus_0_r. unfold c. rewrite lum_seen. fold (G s).
  match goal with |- scal ?x (?y * ?z) = scal ?w ?t => change (x * (y * z) = w * t) end. ring.
Qed.
End Seen.

(** ---- AdjustParametersForImage() ---- *)

Lemma adjust_list (adjs : list Adj) d input adj off :
  (off + length adjs <= length input)%nat -> (off + length adjs <= length adj)%nat ->
  exists adj', for_ (length adjs) (fun i adjusted =>
      do a <- get adjs i; do v <- get input (Nat.add i off); set adjusted (Nat.add i off) (adjust1 NumR d a v)) adj = Ok adj' /\
  length adj' = length adj /\
  (forall i, (i < length adjs)%nat -> nth (i + off) adj' 0 = adjust1 NumR d (nth i adjs Keep) (nth (i + off) input 0)) /\
  (forall j, (j < off \/ off + length adjs <= j)%nat -> nth j adj' 0 = nth j adj 0).
Proof.
  intros Li La.
  destruct (@for_inv (list R) (fun j a => length a = length adj /\
     (forall i, (i < j)%nat -> nth (i + off) a 0 = adjust1 NumR d (nth i adjs Keep) (nth (i + off) input 0)) /\
     (forall m, (m < off \/ off + j <= m)%nat -> nth m a 0 = nth m adj 0))
   (fun i adjusted => do a <- get adjs i; do v <- get input (Nat.add i off); set adjusted (Nat.add i off) (adjust1 NumR d a v))
   (length adjs) adj) as (r & Er & I).
  - split; auto. split; [intros; lia|auto].
  - intros j a Hj (L & A & B). destruct (@get_lt _ adjs j) as (x & Ex); [lia|]. rewrite Ex. cbn [bind].
    destruct (@get_lt _ input (j + off)) as (v & Ev); [lia|]. rewrite Ev. cbn [bind].
    rewrite set_lt by lia. eexists. split; [reflexivity|]. rewrite upd_length. split; auto. split.
    + intros i Hi. rewrite nth_upd_R by lia. destruct (Nat.eqb_spec (i + off) (j + off)).
      * assert (i = j) by lia. subst i. rewrite (get_nth_ok Ev). f_equal. apply get_Ok_iff in Ex.
        symmetry. apply nth_error_nth. exact Ex.
      * apply A. lia.
    + intros m Hm. rewrite nth_upd_R by lia. destruct (Nat.eqb_spec m (j + off)); [lia|]. apply B. lia.
  - exists r. tauto.
Qed.

Lemma Setup3D_adjusted k d ps ps' off xc yc : (off + nParams3 k <= length ps)%nat -> length ps' = length ps ->
  (forall i, (i < nParams3 k)%nat -> nth (i + off) ps' 0 = adjust1 NumR d (nth i (adjustments3 k) Keep) (nth (i + off) ps 0)) ->
  Setup3D NumR k (default_desc NumR) ps' off xc yc = Setup3D NumR k d ps off xc yc.
Proof.
  intros L L' A.
  destruct k; cbn [nParams3] in *; cbn [Setup3D];
    unfold make_ExponentialDisk3D, make_BrokenExponentialDisk3D, make_GaussianRing3D, make_FerrersBar3D, make_DattathriPeanut3D;
    repeat match goal with |- context [get ps ?i] => rewrite (@get_nth_in ps i) by lia; cbn [bind] end;
    repeat match goal with |- context [get ps' ?i] => rewrite (@get_nth_in ps' i) by lia; cbn [bind] end;
    rewrite !A by lia; cbn [adjustments3 nth];
    cbn [default_desc imageRotation pixelScaling intensityScale nsub nmul ndiv nofZ NumR];
    rewrite ?adj_PA, ?adj_len, ?adj_inv, ?adj_int; reflexivity.
Qed.

Lemma adjust3_proof Q k d ps off xc yc : (off + nParams3 k <= length ps)%nat ->
  exists ps', AdjustParametersForImage3D NumR k d ps ps off = Ok ps' /\ length ps' = length ps /\
  (forall j, (j < off \/ off + nParams3 k <= j)%nat -> nth j ps' 0 = nth j ps 0) /\
  forall x y, value3D NumR Q k (default_desc NumR) ps' off xc yc x y = value3D NumR Q k d ps off xc yc x y.
Proof.
  intros L. assert (En : length (adjustments3 k) = nParams3 k) by (destruct k; reflexivity).
  destruct (@adjust_list (adjustments3 k) d ps ps off) as (ps' & E & Ll & A & B); try lia.
  exists ps'. rewrite En in *. unfold AdjustParametersForImage3D. rewrite En. repeat split; auto.
  intros x y. unfold value3D. now rewrite (@Setup3D_adjusted k d ps ps').
Qed.
