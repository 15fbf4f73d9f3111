(** Model images with oversampled regions (exact arithmetic). *)
From Coq Require Import Reals Lra List Arith ZArith Lia Bool.
From Verif Require Import Base Num Sums Params_Model Params_Spec Params_Proof Conv_Model Conv_Spec Conv_Proof
  Downsample_Model Downsample_Spec Downsample_Proof Image_Model Image_Spec Image_Proof Image_History.
Import ListNotations.
Set Implicit Arguments.
Unset Strict Implicit.
Local Open Scope nat_scope.

(** coordinate of oversampled column (row) [j], with padding [p] *)
Definition sub_coord (x1 : Z) (p s j : nat) : R := (IZR x1 - 1 / 2 + (INR j - INR p + 1 / 2) / INR s)%R.

Definition ext_at (fs : list (fobj R)) x y := rsuml (map (fun f => fo_value f x y) (filter (fun f => negb (fo_point f)) fs)).
Definition pts_at (fs : list (fobj R)) x y := rsuml (map (fun f => fo_value f x y) (filter (fun f => fo_point f) fs)).

Lemma nth_map_comb {A B} (h : nat * A -> B) l d d0 n k : k < n -> length l = n ->
  nth k (map h (combine (seq 0 n) l)) d = h (k, nth k l d0).
Proof.
  intros Hk Hl. assert (Lc : length (combine (seq 0 n) l) = n) by (rewrite combine_length, seq_length; lia).
  rewrite (nth_indep _ d (h (0, d0))) by (rewrite map_length; lia). rewrite map_nth. f_equal.
  rewrite combine_nth by (rewrite seq_length; lia). now rewrite seq_nth.
Qed.

Lemma region_ok x1 y1 nc nr mc mr mpc mpr s pw ph r (conv : list R -> list R) fs pts main :
  Downsample_Model.SetupModelImage NumR (Some (Z.of_nat pw, Z.of_nat ph)) x1 y1 (Z.of_nat nc) (Z.of_nat nr) (Z.of_nat mc) (Z.of_nat mr)
      (Z.of_nat mpc) (Z.of_nat mpr) (Z.of_nat s) = Ok r ->
  length main = mc * mr ->
  (forall v, length v = (2 * pw + s * nc) * (2 * ph + s * nr) -> length (conv v) = length v) ->
  2 * pw + s * nc = 2 * ph + s * nr ->
  (1 <= x1)%Z -> (1 <= y1)%Z ->
  (x1 - 1 + Z.of_nat (mpc + nc) <= Z.of_nat mc)%Z -> (y1 - 1 + Z.of_nat (mpr + nr) <= Z.of_nat mr)%Z ->
  let W := 2 * pw + s * nc in let H := 2 * ph + s * nr in
  let E := map (fun k => ext_at fs (sub_coord x1 pw s (k mod W)) (sub_coord y1 ph s (k / W))) (seq 0 (W * H)) in
  let over := map (fun k => (nth k (conv E) 0 + pts_at pts (sub_coord x1 pw s (k mod W)) (sub_coord y1 ph s (k / W)))%R) (seq 0 (W * H)) in
  exists img, ComputeRegionAndDownsample NumR r conv fs pts main = Ok img /\
    replaced main img mc mr (Z.to_nat (x1 - 1) + mpc) (Z.to_nat (y1 - 1) + mpr) nc nr
      (fun c q => block_mean over W s (pw + c * s) (ph + q * s)).
Proof.
  intros HS Hm Hcl Hsq Hx Hy HX HY W H E over.
  destruct (@setup_region_ok (Some (pw, ph)) x1 y1 nc nr mc mr mpc mpr s r HS) as (Hnc & Hnr & Hs & Er). cbn [fst snd] in Er.
  unfold ComputeRegionAndDownsample. cbv zeta.
  assert (Ecv : rg_doConv r = true) by (rewrite Er; reflexivity). rewrite Ecv.
  assert (Ecol : rg_modelCols r = Z.of_nat W) by (rewrite Er; reflexivity).
  assert (Erow : rg_modelRows r = Z.of_nat H) by (rewrite Er; reflexivity).
  assert (Env : Z.to_nat (rg_modelCols r * rg_modelRows r) = W * H) by (rewrite Ecol, Erow; lia). rewrite Env.
  assert (HW : 0 < W) by (unfold W; nia).
  assert (Hs0 : (0 < INR s)%R) by (apply lt_0_INR; lia).
  assert (Ex : forall k, reg_x NumR r (Z.rem (Z.of_nat k) (rg_modelCols r)) = sub_coord x1 pw s (k mod W)).
  { intros k. rewrite Ecol. rewrite Z.rem_mod_nonneg by lia. rewrite <- Nat2Z.inj_mod. rewrite Er.
    unfold reg_x, sub_coord. cbn [rg_x1 rg_startX rg_nPSFCols rg_subpixFrac nadd nofZ nmul NumR].
    rewrite minus_IZR, <- !INR_IZR_INZ. field. lra. }
  assert (Ey : forall k, reg_y NumR r (Z.quot (Z.of_nat k) (rg_modelCols r)) = sub_coord y1 ph s (k / W)).
  { intros k. rewrite Ecol. rewrite Z.quot_div_nonneg by lia. rewrite <- Nat2Z.inj_div. rewrite Er.
    unfold reg_y, sub_coord. cbn [rg_y1 rg_startY rg_nPSFRows rg_subpixFrac nadd nofZ nmul NumR].
    rewrite minus_IZR, <- !INR_IZR_INZ. field. lra. }
  match goal with |- context [conv (map ?g (seq 0 (W * H)))] => assert (E0 : map g (seq 0 (W * H)) = E) end.
  { unfold E. apply map_ext. intros k. rewrite Ex, Ey, kahan_exact. unfold ext_at.
    rewrite (@filter_ext _ (fun f => Bool.eqb (fo_point f) false) (fun f => negb (fo_point f))) by (intros f; destruct (fo_point f); reflexivity). reflexivity. }
  rewrite E0.
  assert (LE : length E = W * H) by (unfold E; rewrite map_length, seq_length; reflexivity).
  assert (Lc : length (conv E) = W * H) by (rewrite Hcl by exact LE; exact LE).
  match goal with |- context [DownsampleAndReplace _ ?x] => assert (E1 : x = over) end.
  { unfold over. apply nth_ext with (d := 0%R) (d' := 0%R); rewrite !map_length, ?combine_length, seq_length; [lia|].
    intros k Hk. rewrite Lc in Hk. assert (Hk' : k < W * H) by lia. rewrite nth_map_seq by exact Hk'.
    rewrite (@nth_map_comb _ _ _ (conv E) 0%R 0%R (W * H) k Hk' Lc). cbv beta iota.
    rewrite Ex, Ey, kahan_exact. unfold pts_at.
    rewrite (@filter_ext _ (fun f => Bool.eqb (fo_point f) true) (fun f => fo_point f)) by (intros f; destruct (fo_point f); reflexivity). reflexivity. }
  rewrite E1.
  assert (Lo : length over = W * H) by (unfold over; rewrite map_length, seq_length; reflexivity).
  destruct (@downsample_ok over main pw ph nc nr s mc mr mpc mpr (Z.to_nat (x1 - 1)) (Z.to_nat (y1 - 1)) Hs Lo Hm Hsq ltac:(lia) ltac:(lia)) as (img & Eimg & Himg).
  exists img. split; [|exact Himg].
  rewrite <- Eimg. rewrite Er. cbn [rg_modelCols rg_modelRows rg_nPSFCols rg_nPSFRows rg_mainCols rg_mainRows rg_mainPSFCols rg_mainPSFRows rg_x1 rg_y1 rg_scale].
  rewrite !Z2Nat.id by lia. replace (x1 - 1 + 1)%Z with x1 by lia. replace (y1 - 1 + 1)%Z with y1 by lia. reflexivity.
Qed.

(** ---- point sources with scale [z] ---- *)
Definition rescaled (z : Z) (i : R -> R -> R) : R -> R -> R := fun u v => i (IZR z * u)%R (IZR z * v)%R.
Lemma sum_point_z fs z : forall su ii zz interp x y, length su = length fs -> length ii = length fs -> length zz = length fs ->
  (forall n f i, nth_error fs n = Some f -> nth_error ii n = Some i -> is_point f = true -> i = interp) ->
  (forall n f w, nth_error fs n = Some f -> nth_error zz n = Some w -> is_point f = true -> w = z) ->
  rsuml (map (fun f => fo_value f x y) (filter (fun f => Bool.eqb (fo_point f) true) (fobjs_l NumR fs su ii zz))) =
  sum_over is_point (rescaled z interp) fs su x y.
Proof.
  unfold sum_over, fobjs_l. induction fs as [|f fs IH]; intros [|s su] [|i ii] [|w zz] interp x y L1 L2 L3 H H'; cbn in L1, L2, L3; try discriminate; [reflexivity|].
  cbn [length combine map filter]. rewrite fobj_point.
  assert (IH' := IH su ii zz interp x y ltac:(lia) ltac:(lia) ltac:(lia) (fun n => H (S n)) (fun n => H' (S n))).
  destruct (is_point f) eqn:P; cbn [Bool.eqb].
  - cbn [map]. rewrite !rsuml_cons, IH'. f_equal.
    assert (i = interp) as -> by (apply (H 0 f i); auto). assert (w = z) as -> by (apply (H' 0 f w); auto).
    destruct s as [[x0 y0] p]. unfold fobj_of, func_value, is_point in *. destruct (fn_kind f); [discriminate|]. reflexivity.
  - rewrite IH', rsuml_cons. ring.
Qed.
Lemma ext_at_sum m su st interp x y : length su = length (mo_funcs m) -> length (st_interp st) = length (mo_funcs m) -> length (st_scale st) = length (mo_funcs m) ->
  ext_at (fobjs NumR m su st) x y = sum_over extended interp (mo_funcs m) su x y.
Proof.
  intros L1 L2 L3. unfold ext_at, fobjs. fold (fobjs_l NumR (mo_funcs m) su (st_interp st) (st_scale st)).
  rewrite <- (@sum_plain (mo_funcs m) su (st_interp st) (st_scale st) interp x y L1 L2 L3). reflexivity.
Qed.
Lemma pts_at_sum m su st z interp x y : length su = length (mo_funcs m) -> length (st_interp st) = length (mo_funcs m) -> length (st_scale st) = length (mo_funcs m) ->
  (forall n f i, nth_error (mo_funcs m) n = Some f -> nth_error (st_interp st) n = Some i -> is_point f = true -> i = interp) ->
  (forall n f w, nth_error (mo_funcs m) n = Some f -> nth_error (st_scale st) n = Some w -> is_point f = true -> w = z) ->
  pts_at (fobjs NumR m su st) x y = sum_over is_point (rescaled z interp) (mo_funcs m) su x y.
Proof.
  intros L1 L2 L3 H1 H2. unfold pts_at, fobjs. fold (fobjs_l NumR (mo_funcs m) su (st_interp st) (st_scale st)).
  rewrite <- (@sum_point_z (mo_funcs m) z su (st_interp st) (st_scale st) interp x y L1 L2 L3 H1 H2). f_equal. f_equal. apply filter_ext. intros f. destruct (fo_point f); reflexivity.
Qed.

(** a state whose point sources have scale [z] *)
Record good_z {T} (m : model T) (z : Z) (st : state T) : Prop := mkGoodZ {
  z_vec : length (st_vec st) = nModelVals m;
  z_interp : length (st_interp st) = length (mo_funcs m);
  z_len : length (st_scale st) = length (mo_funcs m);
  z_scale : forall n f w, nth_error (mo_funcs m) n = Some f -> nth_error (st_scale st) n = Some w -> is_point f = true -> w = z }.
Lemma nth_error_repeat {A} (a : A) n k x : nth_error (repeat a n) k = Some x -> x = a.
Proof. intros H. apply nth_error_In in H. eapply repeat_spec. exact H. Qed.
Lemma good_good_z {T} (m : model T) st : good m st -> good_z m 1 st.
Proof.
  intros [Gv Gi Gs]. split; auto; [rewrite Gs; apply repeat_length|]. intros n f w _ E _. rewrite Gs in E. eapply nth_error_repeat; eauto.
Qed.

(** region [a] is set up as [ri] in model [m] *)
Definition rmatch (m : model R) (a : rspec) (ri : regionInfo R) : Prop :=
  let W := 2 * rpw a + rsc a * rnc a in let H := 2 * rph a + rsc a * rnr a in
  Downsample_Model.SetupModelImage NumR (Some (Z.of_nat (rpw a), Z.of_nat (rph a))) (Z.of_nat (rx1 a)) (Z.of_nat (ry1 a)) (Z.of_nat (rnc a)) (Z.of_nat (rnr a))
      (Z.of_nat (nModelColumns m)) (Z.of_nat (nModelRows m)) (Z.of_nat (psfCols m)) (Z.of_nat (psfRows m)) (Z.of_nat (rsc a)) = Ok (ri_region ri) /\
  ri_interp ri = rinterp a /\
  (forall img, length img = W * H -> length (ri_convolve ri img) = W * H /\
    forall c r, c < W -> r < H -> nth (r * W + c) (ri_convolve ri img) 0%R = convolved (rpsf a) (rpw a) (rph a) img W H c r) /\
  W = H /\ 1 <= rpw a /\ 1 <= rph a /\ 1 <= rx1 a /\ 1 <= ry1 a /\ rx1 a - 1 + rnc a <= mo_dataCols m /\ ry1 a - 1 + rnr a <= mo_dataRows m.

Lemma region_value (m : model R) (a : rspec) ri su st st' : rmatch m a ri ->
  length su = length (mo_funcs m) -> length (st_interp st) = length (mo_funcs m) -> length (st_scale st) = length (mo_funcs m) ->
  length (st_vec st) = nModelVals m ->
  st' = mkState (st_vec st) (point_state m (ri_interp ri) (st_interp st)) (point_state m (rg_scale (ri_region ri)) (st_scale st)) ->
  exists v, ComputeRegionAndDownsample NumR (ri_region ri) (ri_convolve ri) (fobjs NumR m su st) (fobjs NumR m su st') (st_vec st) = Ok v /\
    length v = nModelVals m /\ rg_scale (ri_region ri) = Z.of_nat (rsc a) /\
    forall c r, c < mo_dataCols m -> r < mo_dataRows m ->
      nth ((psfRows m + r) * nModelColumns m + (psfCols m + c)) v 0%R =
      if covers a c r then region_pixel a (mo_funcs m) su c r else nth ((psfRows m + r) * nModelColumns m + (psfCols m + c)) (st_vec st) 0%R.
Proof.
  intros (HS & Hi & Hcv & Hsq & Hpw & Hph & Hx1 & Hy1 & Hxb & Hyb) L1 L2 L3 L4 E'.
  destruct (@setup_region_ok (Some (rpw a, rph a)) _ _ _ _ _ _ _ _ _ _ HS) as (Hnc & Hnr & Hs & Er). cbn [fst snd] in Er.
  set (W := 2 * rpw a + rsc a * rnc a) in *. set (H := 2 * rph a + rsc a * rnr a) in *.
  destruct (@region_ok _ _ _ _ _ _ _ _ _ _ _ (ri_region ri) (ri_convolve ri) (fobjs NumR m su st) (fobjs NumR m su st') (st_vec st) HS)
    as (v & Ev & Rv).
  - exact L4.
  - intros u Lu. transitivity (W * H); [apply (proj1 (Hcv u Lu))|symmetry; exact Lu].
  - exact Hsq.
  - lia.
  - lia.
  - unfold nModelColumns. lia.
  - unfold nModelRows. lia.
  - assert (Esc : rg_scale (ri_region ri) = Z.of_nat (rsc a)) by (rewrite Er; reflexivity).
    exists v. split; [exact Ev|]. destruct Rv as [Lv Rv]. split; [congruence|]. split; [exact Esc|]. intros c r Hc Hr.
    specialize (Rv (psfCols m + c) (psfRows m + r) ltac:(unfold nModelColumns; lia) ltac:(unfold nModelRows; lia)).
    unfold pix in Rv. rewrite Rv. clear Rv.
    replace (Z.to_nat (Z.of_nat (rx1 a) - 1)) with (rx1 a - 1) by lia. replace (Z.to_nat (Z.of_nat (ry1 a) - 1)) with (ry1 a - 1) by lia.
    assert (Ecov : ((rx1 a - 1 + psfCols m <=? psfCols m + c) && (psfCols m + c <? rx1 a - 1 + psfCols m + rnc a) &&
        ((ry1 a - 1 + psfRows m <=? psfRows m + r) && (psfRows m + r <? ry1 a - 1 + psfRows m + rnr a)))%bool = covers a c r).
    { unfold covers. f_equal; f_equal; first [apply eq_true_iff_eq; rewrite !Nat.leb_le; lia | apply eq_true_iff_eq; rewrite !Nat.ltb_lt; lia]. }
    rewrite Ecov. destruct (covers a c r) eqn:Co; [|reflexivity].
    unfold covers in Co. rewrite !andb_true_iff, !Nat.leb_le, !Nat.ltb_lt in Co.
    replace (psfCols m + c - (rx1 a - 1 + psfCols m)) with (c + 1 - rx1 a) by lia.
    replace (psfRows m + r - (ry1 a - 1 + psfRows m)) with (r + 1 - ry1 a) by lia.
    set (c' := c + 1 - rx1 a). set (r' := r + 1 - ry1 a).
    assert (Hs0 : (0 < INR (rsc a))%R) by (apply lt_0_INR; lia).
    unfold block_mean, region_pixel. f_equal. apply rsum_ext. intros i Hia. apply rsum_ext. intros j Hja. unfold pix.
    assert (Hc1 : c' < rnc a) by (unfold c'; lia). assert (Hr1 : r' < rnr a) by (unfold r'; lia).
    assert (Hcj : c' * rsc a + j < rsc a * rnc a) by (clear -Hc1 Hja; nia).
    assert (Hri : r' * rsc a + i < rsc a * rnr a) by (clear -Hr1 Hia; nia).
    assert (HX : rpw a + c' * rsc a + j < W) by (unfold W; lia).
    assert (HY : rph a + r' * rsc a + i < H) by (unfold H; lia).
    rewrite nth_map_seq by (apply rowcol_lt; auto).
    destruct (@rowcol_div W (rph a + r' * rsc a + i) (rpw a + c' * rsc a + j) HX) as [Ed Em]. fold W H. rewrite Ed, Em.
    assert (Ecx : sub_coord (Z.of_nat (rx1 a)) (rpw a) (rsc a) (rpw a + c' * rsc a + j) = (INR c + 1 - 1 / 2 + (INR j + 1 / 2) / INR (rsc a))%R).
    { unfold sub_coord. rewrite <- INR_IZR_INZ, !plus_INR, mult_INR.
      replace (INR c + 1)%R with (INR (rx1 a) + INR c')%R by (rewrite <- S_INR, <- plus_INR; f_equal; unfold c'; lia). field. lra. }
    assert (Ecy : sub_coord (Z.of_nat (ry1 a)) (rph a) (rsc a) (rph a + r' * rsc a + i) = (INR r + 1 - 1 / 2 + (INR i + 1 / 2) / INR (rsc a))%R).
    { unfold sub_coord. rewrite <- INR_IZR_INZ, !plus_INR, mult_INR.
      replace (INR r + 1)%R with (INR (ry1 a) + INR r')%R by (rewrite <- S_INR, <- plus_INR; f_equal; unfold r'; lia). field. lra. }
    unfold subpixel. f_equal.
    + match goal with |- nth _ (ri_convolve ri ?E) _ = _ => assert (LE : length E = W * H) by (rewrite map_length, seq_length; reflexivity); rewrite (proj2 (Hcv E LE)) by auto end.
      unfold convolved. apply rsum_ext. intros k Hk. apply rsum_ext. intros l Hl. f_equal.
      pose proof (half_le Hpw). pose proof (half_le Hph).
      set (X := rpw a + c' * rsc a + j + rpw a / 2 - l). set (Y := rph a + r' * rsc a + i + rph a / 2 - k).
      replace (Z.of_nat (rpw a + c' * rsc a + j) - (Z.of_nat l - Z.of_nat (rpw a / 2)))%Z with (Z.of_nat X) by (unfold X; lia).
      replace (Z.of_nat (rph a + r' * rsc a + i) - (Z.of_nat k - Z.of_nat (rph a / 2)))%Z with (Z.of_nat Y) by (unfold Y; lia).
      assert (HX' : X < W) by (unfold X, W; lia). assert (HY' : Y < H) by (unfold Y, H; lia).
      rewrite zpix_in by auto. rewrite nth_map_seq by (apply rowcol_lt; auto).
      destruct (@rowcol_div W Y X HX') as [-> ->].
      rewrite (@ext_at_sum m su st (rinterp a)) by auto. f_equal.
      * rewrite <- Ecx. unfold sub_coord, X. rewrite minus_INR by lia. rewrite !plus_INR. field. lra.
      * rewrite <- Ecy. unfold sub_coord, Y. rewrite minus_INR by lia. rewrite !plus_INR. field. lra.
    + rewrite Ecx, Ecy. subst st'.
      rewrite (@pts_at_sum m su _ (rg_scale (ri_region ri)) (ri_interp ri)); cbn [st_interp st_scale]; auto using point_state_length.
      * rewrite Hi, Esc. unfold rescaled. rewrite <- INR_IZR_INZ. reflexivity.
      * intros n f i0 Hn Hni. exact (point_state_nth Hn Hni).
      * intros n f i0 Hn Hni. exact (point_state_nth Hn Hni).
Qed.

Definition last_scale (z : Z) (regs : list rspec) : Z := fold_left (fun _ a => Z.of_nat (rsc a)) regs z.
Definition at_pixel (m : model R) (v : list R) (c r : nat) : R := nth ((psfRows m + r) * nModelColumns m + (psfCols m + c)) v 0%R.

Lemma regions_ok (m : model R) su : forall regs ris st z, mo_regions m = ris -> Forall2 (rmatch m) regs ris ->
  length su = length (mo_funcs m) -> good_z m z st ->
  exists st', regions_step NumR m su st = Ok st' /\ good_z m (last_scale z regs) st' /\
    forall c r, c < mo_dataCols m -> r < mo_dataRows m ->
      at_pixel m (st_vec st') c r = with_regions regs (at_pixel m (st_vec st) c r) (mo_funcs m) su c r.
Proof.
  intros regs ris st z Er F Ls G. unfold regions_step. rewrite Er.
  pose proof (Forall2_nth_error F) as (Ln & Fn).
  destruct (@for_inv (state R) (fun n x => good_z m (last_scale z (firstn n regs)) x /\
    forall c r, c < mo_dataCols m -> r < mo_dataRows m ->
      at_pixel m (st_vec x) c r = with_regions (firstn n regs) (at_pixel m (st_vec st) c r) (mo_funcs m) su c r)
    (fun n st => do ri <- get ris n;
      let st' := mkState (st_vec st) (point_state m (ri_interp ri) (st_interp st)) (point_state m (rg_scale (ri_region ri)) (st_scale st)) in
      do v <- ComputeRegionAndDownsample NumR (ri_region ri) (ri_convolve ri) (fobjs NumR m su st) (fobjs NumR m su st') (st_vec st);
      Ok (mkState v (st_interp st') (st_scale st'))) (length ris) st) as (st' & E & G' & V).
  - split; [exact G|]. intros; reflexivity.
  - intros n x Hn [[Gv Gi Gl Gs] V]. destruct (Fn n) as (a & ri & Ha & Hri & M); [lia|].
    unfold get at 1. rewrite Hri. cbn [bind]. cbv zeta.
    destruct (@region_value m a ri su x _ M Ls Gi Gl Gv eq_refl) as (v & Ev & Lv & Esc & Vv). rewrite Ev. cbn [bind].
    assert (Ef : firstn (S n) regs = firstn n regs ++ [a]).
    { clear -Ha. revert n Ha. induction regs as [|b regs IH]; intros [|n] Ha; cbn in *; try discriminate; [congruence|]. now rewrite <- IH. }
    eexists. split; [reflexivity|]. split.
    + split; cbn [st_vec st_interp st_scale]; auto using point_state_length.
      intros k f w Hk Hw Hp. rewrite (point_state_nth Hk Hw Hp), Esc. rewrite Ef. unfold last_scale. rewrite fold_left_app. reflexivity.
    + intros c r Hc Hr. cbn [st_vec]. unfold at_pixel at 1. rewrite Vv by auto. rewrite Ef. unfold with_regions. rewrite fold_left_app. cbn [fold_left].
      fold (with_regions (firstn n regs) (at_pixel m (st_vec st) c r) (mo_funcs m) su c r). rewrite <- V by auto. reflexivity.
  - exists st'. split; [exact E|]. rewrite firstn_all2 in G', V by lia. split; [exact G'|exact V].
Qed.

Section ExactR.
  Variables (m : model R) (bs : list (blk R)) (psf : option (list R * nat * nat)) (regs : list rspec).
  Hypothesis Hb : blocks_ok bs.
  Hypothesis Hf : map fn_nParams (mo_funcs m) = sizes bs.
  Hypothesis Hfl : mo_flags m = flag_list bs.
  Hypothesis Hp : psf_ok m psf.
  Hypothesis Hw : 1 <= mo_dataCols m.
  Hypothesis Hreg : Forall2 (rmatch m) regs (mo_regions m).

  Lemma create_regions_ok st z : good_z m z st ->
    exists st' out, CreateModelImage NumR dft_r2c dft_c2r m st (flat bs) = Ok st' /\ good_z m (last_scale z regs) st' /\
      GetModelImageVector m st' = Ok out /\ length out = mo_dataCols m * mo_dataRows m /\
      forall c r, c < mo_dataCols m -> r < mo_dataRows m ->
        nth (r * mo_dataCols m + c) out 0%R =
        with_regions regs (image_pixel psf (rescaled z (mo_interp m)) (mo_funcs m) (seen bs) c r) (mo_funcs m) (seen bs) c r.
  Proof.
    intros [Gv Gi Gl Gs]. unfold CreateModelImage. rewrite (Setup_ok Hb Hf Hfl). cbn [bind].
    pose proof (nModelColumns_pos Hw) as Hn. assert (Lf : length (seen bs) = length (mo_funcs m)) by (eapply funcs_length; eauto).
    set (mz := mkModel (mo_funcs m) (mo_flags m) (mo_dataCols m) (mo_dataRows m) (mo_psf m) (rescaled z (mo_interp m)) []).
    assert (E1 := @plain_step mz (seen bs) st Lf Gi Gl Gv Hn).
    change (fobjs NumR mz (seen bs) st) with (fobjs NumR m (seen bs) st) in E1. change (nModelVals mz) with (nModelVals m) in E1.
    change (nModelColumns mz) with (nModelColumns m) in E1. change (pix_x NumR mz) with (pix_x NumR m) in E1. change (pix_y NumR mz) with (pix_y NumR m) in E1.
    cbv zeta in E1 |- *. rewrite E1. cbn [bind]. clear E1.
    destruct (@convolve_step mz (seen bs) psf _ Lf Hp eq_refl) as (v2 & E2 & L2 & V2).
    change (mo_psf mz) with (mo_psf m) in E2. change (nModelVals mz) with (nModelVals m) in E2. rewrite E2. cbn [bind].
    change (nModelVals mz) with (nModelVals m) in L2.
    assert (Base : exists st2, (if existsb is_point (mo_funcs m) then
        do v3 <- for_ (nModelVals m) (fun k v =>
          do old <- get v (k / nModelColumns m * nModelColumns m + k mod nModelColumns m);
          set v (k / nModelColumns m * nModelColumns m + k mod nModelColumns m) (nadd NumR old (kahan_sum NumR (fobjs NumR m (seen bs) (mkState v2 (point_state m (mo_interp m) (st_interp st)) (st_scale st))) true (pix_x NumR m (k mod nModelColumns m)) (pix_y NumR m (k / nModelColumns m))))) v2;
        Ok (mkState v3 (st_interp (mkState v2 (point_state m (mo_interp m) (st_interp st)) (st_scale st))) (st_scale (mkState v2 (point_state m (mo_interp m) (st_interp st)) (st_scale st))))
      else Ok (mkState v2 (st_interp st) (st_scale st))) = Ok st2 /\ good_z m z st2 /\
      forall c r, c < mo_dataCols m -> r < mo_dataRows m ->
        at_pixel m (st_vec st2) c r = image_pixel psf (rescaled z (mo_interp m)) (mo_funcs m) (seen bs) c r).
    { destruct (existsb is_point (mo_funcs m)) eqn:Ex.
      - set (st1 := mkState v2 (point_state m (mo_interp m) (st_interp st)) (st_scale st)).
        destruct (@add_all (xy_sum mz (seen bs) is_point) (nModelVals m) v2 L2) as (v3 & E3 & L3 & V3).
        assert (E3' : for_ (nModelVals m) (fun k v =>
          do old <- get v (k / nModelColumns m * nModelColumns m + k mod nModelColumns m);
          set v (k / nModelColumns m * nModelColumns m + k mod nModelColumns m) (nadd NumR old (kahan_sum NumR (fobjs NumR m (seen bs) st1) true (pix_x NumR m (k mod nModelColumns m)) (pix_y NumR m (k / nModelColumns m))))) v2 = Ok v3).
        { rewrite <- E3. apply for_ext. intros k s Hk.
          replace (k / nModelColumns m * nModelColumns m + k mod nModelColumns m) with k
            by (rewrite (Nat.div_mod k (nModelColumns m)) at 1 by lia; lia).
          destruct (get s k); cbn [bind]; auto. f_equal. cbn [nadd NumR]. f_equal.
          rewrite kahan_exact. unfold xy_sum, fobjs. fold (fobjs_l NumR (mo_funcs m) (seen bs) (st_interp st1) (st_scale st1)).
          rewrite (@sum_point_z (mo_funcs m) z (seen bs) (st_interp st1) (st_scale st1) (mo_interp m)); auto.
          - cbn [st1 st_interp]. now apply point_state_length.
          - intros n f i Hnf Hni. exact (point_state_nth Hnf Hni). }
        rewrite E3'. cbn [bind]. eexists. split; [reflexivity|]. split.
        + split; cbn [st_vec st_interp st_scale st1]; auto using point_state_length.
        + intros c r Hc Hr. cbn [st_vec]. unfold at_pixel. rewrite V3 by (apply inside_lt; auto).
          rewrite <- V2 by auto. f_equal. exact (@xy_sum_inside mz (seen bs) is_point c r Hc).
      - eexists. split; [reflexivity|]. split; [split; auto|].
        intros c r Hc Hr. unfold at_pixel. rewrite <- V2 by auto.
        change (mo_funcs mz) with (mo_funcs m). rewrite (@sum_no_point (mo_interp mz) (mo_funcs m) (seen bs)) by auto.
        rewrite Rplus_0_r. reflexivity. }
    destruct Base as (st2 & EB & GB & VB). rewrite EB. cbn [bind].
    destruct (@regions_ok m (seen bs) regs (mo_regions m) st2 z eq_refl Hreg Lf GB) as (st3 & E3 & G3 & V3).
    destruct (@crop_ok m st3 (z_vec G3) Hw) as (out & Eo & Lo & Vo).
    exists st3, out. split; [exact E3|]. split; [exact G3|]. split; [exact Eo|]. split; [exact Lo|].
    intros c r Hc Hr. rewrite Vo by auto. rewrite <- VB by auto. now apply V3.
  Qed.
End ExactR.

(** ---- adding regions ---- *)
Definition add_region (m : model R) (ri : regionInfo R) : model R :=
  mkModel (mo_funcs m) (mo_flags m) (mo_dataCols m) (mo_dataRows m) (mo_psf m) (mo_interp m) (mo_regions m ++ [ri]).
Lemma add_region_ok (m : model R) bicubic q : 1 <= mo_dataCols m -> 1 <= mo_dataRows m -> valid_request (mo_dataCols m) (mo_dataRows m) q ->
  exists ri, AddOversampledPsfInfo NumR dft_r2c dft_c2r m (q_psf q) bicubic (q_x1 q) (q_x2 q) (q_y1 q) (q_y2 q) (Z.of_nat (q_scale q)) = Ok (0%Z, add_region m ri) /\
    rmatch m (requested bicubic (mo_dataCols m) (mo_dataRows m) q) ri.
Proof.
  intros Hw Hh. destruct q as [[pix pw ph nrm] x1 x2 y1 y2 s]. unfold valid_request, requested, clipped.
  cbn [q_psf q_x1 q_x2 q_y1 q_y2 q_scale ps_cols ps_rows ps_pixels ps_normalize fst snd].
  intros (Hpw & Hph & Lp & Hx & Hy & Hs & Hx2 & Hx1 & Hy2 & Hy1 & Hsq).
  unfold AddOversampledPsfInfo. cbn [ps_cols ps_rows ps_pixels ps_normalize].
  assert (B : (Nat.leb 1 pw && Nat.leb 1 ph && (x1 <? x2)%Z && (y1 <? y2)%Z && (1 <=? Z.of_nat s)%Z
      && Nat.leb 1 (nModelColumns m) && Nat.leb 1 (nModelRows m))%bool = true).
  { rewrite !andb_true_iff, !Nat.leb_le, !Z.ltb_lt, Z.leb_le. unfold nModelColumns, nModelRows. lia. }
  rewrite B. clear B.
  assert (F : forallb (nfin NumR) pix = true) by (apply forallb_forall; reflexivity). rewrite F. cbv zeta.
  set (X := Z.max x1 1) in *. set (Y := Z.max y1 1) in *.
  set (DX := (Z.min x2 (Z.of_nat (mo_dataCols m)) - X + 1)%Z) in *. set (DY := (Z.min y2 (Z.of_nat (mo_dataRows m)) - Y + 1)%Z) in *.
  assert (HDX : (1 <= DX)%Z) by lia. assert (HDY : (1 <= DY)%Z) by lia.
  assert (B : ((0 <? DX) && (0 <? DY))%Z%bool = true) by (rewrite andb_true_iff, !Z.ltb_lt; lia). rewrite B. clear B.
  assert (EZ : forall z, (0 <= z)%Z -> z = Z.of_nat (Z.to_nat z)) by (intros; lia).
  rewrite (EZ X), (EZ Y), (EZ DX), (EZ DY) by lia.
  assert (HR : exists reg, Downsample_Model.SetupModelImage NumR (Some (Z.of_nat pw, Z.of_nat ph)) (Z.of_nat (Z.to_nat X)) (Z.of_nat (Z.to_nat Y))
     (Z.of_nat (Z.to_nat DX)) (Z.of_nat (Z.to_nat DY)) (Z.of_nat (nModelColumns m)) (Z.of_nat (nModelRows m)) (Z.of_nat (psfCols m)) (Z.of_nat (psfRows m)) (Z.of_nat s) = Ok reg).
  { unfold Downsample_Model.SetupModelImage.
    match goal with |- context [if ?b then _ else _] => assert (B : b = true) end.
    { rewrite !andb_true_iff, !Z.leb_le. unfold nModelColumns, nModelRows. lia. }
    rewrite B. eexists. reflexivity. }
  destruct HR as (reg & HR). rewrite HR. cbn [bind].
  destruct (@setup_region_ok (Some (pw, ph)) _ _ _ _ _ _ _ _ _ _ HR) as (Hnc & Hnr & _ & Er). cbn [fst snd] in Er.
  assert (Ecol : Z.to_nat (rg_modelCols reg) = 2 * pw + s * Z.to_nat DX) by (rewrite Er; cbn [rg_modelCols]; lia).
  assert (Erow : Z.to_nat (rg_modelRows reg) = 2 * ph + s * Z.to_nat DY) by (rewrite Er; cbn [rg_modelRows]; lia).
  rewrite Ecol, Erow.
  set (W := 2 * pw + s * Z.to_nat DX) in *. set (H := 2 * ph + s * Z.to_nat DY) in *.
  assert (HW : 1 <= W) by (unfold W; lia). assert (HH : 1 <= H) by (unfold H; lia).
  destruct (@full_convolution pix pw ph nrm (repeat 0%R (W * H)) W H Hpw Hph HW HH Lp (repeat_length _ _)) as (pl & out & E & _).
  rewrite E. cbn [bind]. eexists. split; [reflexivity|].
  unfold rmatch. cbn [rx1 ry1 rnc rnr rsc rpsf rpw rph rinterp ri_region ri_convolve ri_interp].
  rewrite !Nat2Z.id. fold W H. split; [exact HR|]. split; [reflexivity|]. split.
  - intros img Li. destruct (@full_convolution pix pw ph nrm img W H Hpw Hph HW HH Lp Li) as (pl' & out' & E' & Ec & Lo & V).
    rewrite E in E'. apply Ok_inj in E'. injection E' as <-. unfold convolve_total. rewrite Ec. split; [exact Lo|exact V].
  - split; [exact Hsq|]. split; [exact Hpw|]. split; [exact Hph|]. lia.
Qed.

Lemma add_regions_ok bicubic qs : forall (m : model R) regs, 1 <= mo_dataCols m -> 1 <= mo_dataRows m ->
  Forall (valid_request (mo_dataCols m) (mo_dataRows m)) qs -> Forall2 (rmatch m) regs (mo_regions m) ->
  exists ris, add_regions dft_r2c dft_c2r bicubic m qs =
      Ok (mkModel (mo_funcs m) (mo_flags m) (mo_dataCols m) (mo_dataRows m) (mo_psf m) (mo_interp m) ris) /\
    Forall2 (rmatch m) (regs ++ map (requested bicubic (mo_dataCols m) (mo_dataRows m)) qs) ris.
Proof.
  induction qs as [|q qs IH]; intros m regs Hw Hh V F; cbn [add_regions map].
  - exists (mo_regions m). rewrite app_nil_r. split; [destruct m; reflexivity|exact F].
  - inversion V as [|? ? Vq Vqs]; subst.
    destruct (@add_region_ok m bicubic q Hw Hh Vq) as (ri & E & M). rewrite E. cbn [bind snd].
    destruct (IH (add_region m ri) (regs ++ [requested bicubic (mo_dataCols m) (mo_dataRows m) q]) Hw Hh Vqs) as (ris & E' & F').
    + cbn [add_region mo_regions]. apply Forall2_app; [exact F|]. constructor; [exact M|constructor].
    + exists ris. split; [exact E'|]. rewrite <- app_assoc in F'. exact F'.
Qed.
