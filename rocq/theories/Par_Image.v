From Coq Require Import ZArith List Bool Arith Lia Permutation.
From Verif Require Import Base Num Params_Model Conv_Model Downsample_Model Image_Model Par_Model Par_Spec Par_Proof Par_Flux.
Import ListNotations.
Set Implicit Arguments.
Unset Strict Implicit.

(** [a] is [b] unless it was cut off *)
Definition upto {A} (a b : res A) : Prop := a = Fuel \/ a = b.
Lemma upto_refl {A} (a : res A) : upto a a. Proof. right. reflexivity. Qed.
Lemma upto_bind {A B} (a b : res A) (f g : A -> res B) : upto a b -> (forall x, b = Ok x -> upto (f x) (g x)) -> upto (bind a f) (bind b g).
Proof. intros [->| ->] H; [left; reflexivity|]. destruct b as [x| | |]; try apply upto_refl. exact (H x eq_refl). Qed.
Lemma upto_for {S} (P : S -> Prop) (f g : nat -> S -> res S) n s : P s ->
  (forall k s, P s -> k < n -> upto (f k s) (g k s) /\ forall s', g k s = Ok s' -> P s') -> upto (for_ n f s) (for_ n g s).
Proof.
  unfold for_. intros H0 H. assert (X : forall m i s, P s -> i + m <= n -> upto (for_from i m f s) (for_from i m g s)).
  { induction m as [|m IH]; intros i s0 Hs L; cbn [for_from]; [apply upto_refl|]. destruct (H i s0 Hs ltac:(lia)) as (U & Q).
    apply upto_bind; [exact U|]. intros x E. apply IH; [exact (Q x E)|lia]. }
  apply X; [exact H0|lia].
Qed.
Lemma combine_seq_nth' {A} (l : list A) : forall b i x, nth_error l i = Some x -> nth_error (combine (seq b (length l)) l) i = Some (b + i, x).
Proof.
  induction l as [|y l IH]; intros b i x E; [destruct i; discriminate E|]. destruct i as [|i]; cbn in E |- *.
  - injection E as ->. rewrite Nat.add_0_r. reflexivity.
  - rewrite (IH (S b) i x E). f_equal. f_equal. lia.
Qed.
(** filling an array element by element *)
Lemma fill_seq {A} (g : nat -> A -> A) n (f : nat -> list A -> res (list A)) (v0 : list A) : length v0 = n ->
  (forall k v r0, k < n -> length v = n -> nth_error v k = Some r0 -> f k v = Ok (upd v k (g k r0))) ->
  for_ n f v0 = Ok (map (fun '(k, r0) => g k r0) (combine (seq 0 n) v0)).
Proof.
  intros L H. destruct (@for_inv (list A) (fun k v => length v = n /\ forall i, nth_error v i = if Nat.ltb i k then option_map (g i) (nth_error v0 i) else nth_error v0 i) f n v0) as (v & E & Lv & Q).
  - split; [exact L|]. intros i. reflexivity.
  - intros k v Hk (Lv & Q). assert (Qk := Q k). rewrite Nat.ltb_irrefl in Qk. destruct (nth_error v0 k) as [r0|] eqn:E0; [|apply nth_error_None in E0; lia].
    rewrite (H k v r0 Hk Lv Qk). eexists. split; [reflexivity|]. split; [rewrite upd_length; exact Lv|]. intros i. destruct (Nat.eq_dec i k) as [->|D].
    + rewrite (upd_nth_same _ Qk). replace (Nat.ltb k (S k)) with true by (symmetry; apply Nat.ltb_lt; lia). rewrite E0. reflexivity.
    + rewrite upd_nth_other by congruence. rewrite Q. replace (Nat.ltb i (S k)) with (Nat.ltb i k); [reflexivity|]. destruct (Nat.ltb i k) eqn:Z1; symmetry; [apply Nat.ltb_lt in Z1; apply Nat.ltb_lt; lia|apply Nat.ltb_ge in Z1; apply Nat.ltb_ge; lia].
  - rewrite E. f_equal. clear H E. subst n. revert v Lv Q. intros v Lv Q.
    assert (X : forall i, nth_error v i = nth_error (map (fun '(k, r0) => g k r0) (combine (seq 0 (length v0)) v0)) i).
    { intros i. rewrite nth_error_map. rewrite Q. destruct (nth_error v0 i) as [r0|] eqn:E0.
      - rewrite (combine_seq_nth' 0 E0). cbn [option_map]. assert (i < length v0) by (apply nth_error_Some; congruence). replace (Nat.ltb i (length v0)) with true by (symmetry; apply Nat.ltb_lt; lia). reflexivity.
      - assert (length v0 <= i) by (apply nth_error_None; exact E0). replace (Nat.ltb i (length v0)) with false by (symmetry; apply Nat.ltb_ge; lia).
        symmetry. replace (nth_error (combine (seq 0 (length v0)) v0) i) with (@None (nat * A)); [reflexivity|]. symmetry. apply nth_error_None. rewrite combine_length, seq_length. lia. }
    clear Q. revert X. generalize (map (fun '(k, r0) => g k r0) (combine (seq 0 (length v0)) v0)). intros w X. clear - X.
    revert w X. induction v as [|a v IH]; intros [|b w] X; [reflexivity|discriminate (X 0)|discriminate (X 0)|]. pose proof (X 0) as X0. injection X0 as ->. f_equal. apply IH. intros i. exact (X (S i)).
Qed.

Lemma convolve_length {T} (N : Num T) r2c c2r pl (v v' : list T) : ConvolveImage N r2c c2r pl v = Ok v' -> length v' = length v.
Proof.
  unfold ConvolveImage. intros E. apply bind_Ok in E. destruct E as (pd & _ & E). apply bind_Ok in E. destruct E as (pr & _ & E). unfold for2 in E.
  assert (X := fun A B => @for_ok _ (fun _ w => length w = length v) _ _ _ _ A B E). cbv beta in X. apply X; [reflexivity|].
  intros i w w' Hi Lw E1. assert (Y := fun A B => @for_ok _ (fun _ w => length w = length v) _ _ _ _ A B E1). cbv beta in Y. apply Y; [exact Lw|].
  intros j u u' Hj Lu E2. apply bind_Ok in E2. destruct E2 as (raw & _ & E2). unfold set in E2. destruct (Nat.ltb _ _) in E2; [|discriminate E2]. apply Ok_inj in E2. rewrite <- E2, upd_length. exact Lu.
Qed.

Section Image.
Variable T : Type.
Variable N : Num T.
Variable nThreads chunk : nat.
Hypothesis Hthreads : 0 < nThreads.
Variable r2c : nat -> nat -> list T -> list (T * T).
Variable c2r : nat -> nat -> list (T * T) -> list T.

Lemma index_nat k nc : 0 < nc -> Z.rem (Z.of_nat k) (Z.of_nat nc) = Z.of_nat (Nat.modulo k nc) /\ Z.quot (Z.of_nat k) (Z.of_nat nc) = Z.of_nat (Nat.div k nc) /\ Nat.div k nc * nc + Nat.modulo k nc = k.
Proof. clear Hthreads.
  intros H. split; [|split].
  - rewrite Z.rem_mod_nonneg by lia. rewrite Nat2Z.inj_mod. reflexivity.
  - rewrite Z.quot_div_nonneg by lia. rewrite Nat2Z.inj_div. reflexivity.
  - rewrite Nat.mul_comm. symmetry. apply Nat.div_mod. lia.
Qed.
Lemma seq_loop (m : model T) fs sel (add : bool) v : length v = nModelVals m ->
  for_ (nModelVals m) (fun k v =>
    let j := Nat.modulo k (nModelColumns m) in let i := Nat.div k (nModelColumns m) in
    do old <- (if add then get v (i * nModelColumns m + j) else Ok (nofZ N 0));
    let s := kahan_sum N fs sel (pix_x N m j) (pix_y N m i) in
    set v (i * nModelColumns m + j) (if add then nadd N old s else s)) v =
  Ok (pixel_image N fs sel add (Z.of_nat (nModelColumns m)) (coord_x N m) (coord_y N m) v).
Proof. clear Hthreads.
  intros L. unfold pixel_image. rewrite L.
  apply (@fill_seq T (pixel_new N fs sel add (Z.of_nat (nModelColumns m)) (coord_x N m) (coord_y N m))); [exact L|].
  intros k w r0 Hk Lw Q. assert (P : 0 < nModelColumns m). { destruct (nModelColumns m) eqn:Z; [|lia]. unfold nModelVals in Hk. rewrite Z in Hk. cbn in Hk. lia. }
  destruct (index_nat k P) as (I1 & I2 & I3). cbv zeta. rewrite I3. unfold pixel_new. rewrite I1, I2.
  assert (G : get w k = Ok r0) by (apply get_Ok_iff; exact Q). destruct add.
  - rewrite G. cbn [bind]. rewrite set_lt by lia. reflexivity.
  - cbn [bind]. rewrite set_lt by lia. reflexivity.
Qed.

Lemma pixel_image_seq fs sel nCols cx cy n (a : T) :
  pixel_image N fs sel false nCols cx cy (repeat a n) = map (fun k => kahan_sum N fs sel (cx (Z.rem (Z.of_nat k) nCols)) (cy (Z.quot (Z.of_nat k) nCols))) (seq 0 n).
Proof. clear Hthreads.
  unfold pixel_image. rewrite repeat_length. unfold pixel_new. generalize 0. induction n as [|n IH]; intros b; [reflexivity|]. cbn. f_equal. apply IH.
Qed.
Lemma region_ok (r : region T) convolve fs pts main s1 s2 : (forall v, length (convolve v) = length v) ->
  upto (par_region N nThreads chunk r convolve fs pts main s1 s2) (ComputeRegionAndDownsample N r convolve fs pts main).
Proof.
  intros Lc. unfold par_region, ComputeRegionAndDownsample. set (n := Z.to_nat (rg_modelCols r * rg_modelRows r)).
  destruct (@pixel_loop_ok T N nThreads chunk Hthreads fs false false (rg_modelCols r) (reg_x N r) (reg_y N r) (repeat (nofZ N 0) n) s1) as [->| ->]; [left; reflexivity|]. cbn [bind].
  rewrite pixel_image_seq. set (img0 := map _ (seq 0 n)). set (img1 := if rg_doConv r then convolve img0 else img0).
  assert (L1 : length img1 = n). { unfold img1. assert (L0 : length img0 = n) by (unfold img0; rewrite map_length, seq_length; reflexivity). destruct (rg_doConv r); [rewrite Lc|]; exact L0. }
  destruct (@pixel_loop_ok T N nThreads chunk Hthreads pts true true (rg_modelCols r) (reg_x N r) (reg_y N r) img1 s2) as [->| ->]; [left; reflexivity|]. cbn [bind].
  right. unfold pixel_image. rewrite L1. reflexivity.
Qed.

Variable m : model T.
Hypothesis Hregions : forall ri, In ri (mo_regions m) -> forall v, length (ri_convolve ri v) = length v.
Lemma regions_ok su scheds st : upto (par_regions N nThreads chunk m su scheds st) (regions_step N m su st).
Proof.
  unfold par_regions, regions_step. apply upto_for with (P := fun _ => True); [exact I|]. intros k s _ Hk. split; [|auto].
  apply upto_bind; [apply upto_refl|]. intros ri E. destruct (nth k scheds ([], [])) as [s1 s2]. apply upto_bind; [|intros v _; apply upto_refl].
  apply region_ok. apply Hregions. apply get_Ok_iff in E. exact (nth_error_In _ _ E).
Qed.

Lemma create_ok st params s1 s2 scheds : length (st_vec st) = nModelVals m ->
  upto (par_CreateModelImage N nThreads chunk r2c c2r m st params s1 s2 scheds) (CreateModelImage N r2c c2r m st params).
Proof.
  intros Lv. unfold par_CreateModelImage, CreateModelImage. apply upto_bind; [apply upto_refl|]. intros su _. cbv zeta.
  pose proof (@seq_loop m (fobjs N m su st) false false (st_vec st) Lv) as E1. cbv zeta in E1. cbn [bind] in E1. rewrite E1.
  destruct (@pixel_loop_ok T N nThreads chunk Hthreads (fobjs N m su st) false false (Z.of_nat (nModelColumns m)) (coord_x N m) (coord_y N m) (st_vec st) s1) as [->| ->]; [left; reflexivity|].
  cbn [bind]. set (v1 := pixel_image _ _ _ _ _ _ _ _). assert (L1 : length v1 = nModelVals m) by (unfold v1, pixel_image; rewrite map_length, combine_length, seq_length; lia).
  apply upto_bind; [apply upto_refl|]. intros v2 E2. assert (L2 : length v2 = nModelVals m).
  { destruct (mo_psf m) as [[[c r] pl]|]; [rewrite (convolve_length E2); exact L1|apply Ok_inj in E2; subst v2; exact L1]. }
  apply upto_bind; [|intros st' _; apply regions_ok]. destruct (existsb is_point (mo_funcs m)); [|apply upto_refl].
  set (st1 := mkState v2 (point_state m (mo_interp m) (st_interp st)) (st_scale st)).
  pose proof (@seq_loop m (fobjs N m su st1) true true v2 L2) as E3. cbv zeta in E3. rewrite E3.
  destruct (@pixel_loop_ok T N nThreads chunk Hthreads (fobjs N m su st1) true true (Z.of_nat (nModelColumns m)) (coord_x N m) (coord_y N m) v2 s2) as [->| ->]; [left; reflexivity|].
  apply upto_refl.
Qed.

(** ---- and some order of the threads completes the call ---- *)
Lemma region_exists (r : region T) convolve fs pts main : (forall v, length (convolve v) = length v) ->
  exists s, par_region N nThreads chunk r convolve fs pts main (fst s) (snd s) = ComputeRegionAndDownsample N r convolve fs pts main.
Proof.
  intros Lc. unfold par_region, ComputeRegionAndDownsample. set (n := Z.to_nat (rg_modelCols r * rg_modelRows r)).
  destruct (@pixel_loop_exists T N nThreads chunk Hthreads fs false false (rg_modelCols r) (reg_x N r) (reg_y N r) (repeat (nofZ N 0) n)) as (s1 & E1).
  rewrite pixel_image_seq in E1. set (img0 := map _ (seq 0 n)) in *. set (img1 := if rg_doConv r then convolve img0 else img0).
  assert (L1 : length img1 = n). { unfold img1. assert (L0 : length img0 = n) by (unfold img0; rewrite map_length, seq_length; reflexivity). destruct (rg_doConv r); [rewrite Lc|]; exact L0. }
  destruct (@pixel_loop_exists T N nThreads chunk Hthreads pts true true (rg_modelCols r) (reg_x N r) (reg_y N r) img1) as (s2 & E2).
  exists (s1, s2). cbn [fst snd]. rewrite E1. cbn [bind]. fold img1. rewrite E2. cbn [bind]. unfold pixel_image. rewrite L1. reflexivity.
Qed.
Lemma for_scheds {St A} (d : A) (f : A -> nat -> St -> res St) (g : nat -> St -> res St) n : (forall k s, k < n -> exists a, f a k s = g k s) ->
  forall s, exists scheds, for_ n (fun k => f (nth k scheds d) k) s = for_ n g s.
Proof.
  intros H s. unfold for_.
  assert (X : forall q i s, i + q <= n -> exists l, forall pre, length pre = i -> for_from i q (fun k => f (nth k (pre ++ l) d) k) s = for_from i q g s).
  { induction q as [|q IH]; intros i s0 L; [exists []; intros; reflexivity|]. destruct (H i s0 ltac:(lia)) as (a & E). cbn [for_from]. destruct (g i s0) as [s1| | |] eqn:G.
    - destruct (IH (1 + i) s1 ltac:(lia)) as (l & Hl). exists (a :: l). intros pre Lp. rewrite app_nth2, Lp, Nat.sub_diag by lia. cbn [nth]. rewrite E. cbn [bind].
      specialize (Hl (pre ++ [a])). rewrite <- app_assoc in Hl. apply Hl. rewrite app_length, Lp. cbn. lia.
    - exists [a]. intros pre Lp. rewrite app_nth2, Lp, Nat.sub_diag by lia. cbn [nth]. rewrite E. reflexivity.
    - exists [a]. intros pre Lp. rewrite app_nth2, Lp, Nat.sub_diag by lia. cbn [nth]. rewrite E. reflexivity.
    - exists [a]. intros pre Lp. rewrite app_nth2, Lp, Nat.sub_diag by lia. cbn [nth]. rewrite E. reflexivity. }
  destruct (X n 0 s ltac:(lia)) as (l & Hl). exists l. exact (Hl [] eq_refl).
Qed.
Lemma for_ext' {S} (f g : nat -> S -> res S) n s : (forall k s, k < n -> f k s = g k s) -> for_ n f s = for_ n g s.
Proof. intros H. apply for_ext. intros k s' Hk. apply H. exact Hk. Qed.
Lemma regions_exists su st : exists scheds, par_regions N nThreads chunk m su scheds st = regions_step N m su st.
Proof.
  unfold par_regions, regions_step.
  destruct (@for_scheds (state T) (list nat * list nat) ([], []) (fun a n st =>
    do ri <- get (mo_regions m) n;
    let '(s1, s2) := a in
    let st' := mkState (st_vec st) (point_state m (ri_interp ri) (st_interp st)) (point_state m (rg_scale (ri_region ri)) (st_scale st)) in
    do v <- par_region N nThreads chunk (ri_region ri) (ri_convolve ri) (fobjs N m su st) (fobjs N m su st') (st_vec st) s1 s2;
    Ok (mkState v (st_interp st') (st_scale st')))
    (fun n st =>
    do ri <- get (mo_regions m) n;
    let st' := mkState (st_vec st) (point_state m (ri_interp ri) (st_interp st)) (point_state m (rg_scale (ri_region ri)) (st_scale st)) in
    do v <- ComputeRegionAndDownsample N (ri_region ri) (ri_convolve ri) (fobjs N m su st) (fobjs N m su st') (st_vec st);
    Ok (mkState v (st_interp st') (st_scale st'))) (length (mo_regions m))) with (s := st) as (scheds & E).
  - intros k s Hk. destruct (get (mo_regions m) k) as [ri| | |] eqn:G; [|exists ([], []); reflexivity..].
    assert (Ir : In ri (mo_regions m)) by (apply get_Ok_iff in G; exact (nth_error_In _ _ G)).
    destruct (@region_exists (ri_region ri) (ri_convolve ri) (fobjs N m su s)
      (fobjs N m su (mkState (st_vec s) (point_state m (ri_interp ri) (st_interp s)) (point_state m (rg_scale (ri_region ri)) (st_scale s)))) (st_vec s) (Hregions Ir)) as ([s1 s2] & E).
    exists (s1, s2). cbn [bind]. cbn [fst snd] in E. cbv zeta. rewrite E. reflexivity.
  - exists scheds. exact E.
Qed.
Lemma create_exists st params : length (st_vec st) = nModelVals m ->
  exists s1 s2 scheds, par_CreateModelImage N nThreads chunk r2c c2r m st params s1 s2 scheds = CreateModelImage N r2c c2r m st params.
Proof.
  intros Lv. unfold par_CreateModelImage, CreateModelImage. destruct (Setup m params) as [su| | |]; [|exists [], [], []; reflexivity..]. cbn [bind]. cbv zeta.
  pose proof (@seq_loop m (fobjs N m su st) false false (st_vec st) Lv) as E1. cbv zeta in E1. cbn [bind] in E1. rewrite E1.
  destruct (@pixel_loop_exists T N nThreads chunk Hthreads (fobjs N m su st) false false (Z.of_nat (nModelColumns m)) (coord_x N m) (coord_y N m) (st_vec st)) as (s1 & X1).
  exists s1. rewrite X1. cbn [bind]. set (v1 := pixel_image _ _ _ _ _ _ _ _). assert (L1 : length v1 = nModelVals m) by (unfold v1, pixel_image; rewrite map_length, combine_length, seq_length; lia).
  destruct (match mo_psf m with Some (_, _, pl) => ConvolveImage N r2c c2r pl v1 | None => Ok v1 end) as [v2| | |] eqn:E2; [|exists [], []; reflexivity..]. cbn [bind].
  assert (L2 : length v2 = nModelVals m).
  { destruct (mo_psf m) as [[[c r] pl]|]; [rewrite (convolve_length E2); exact L1|apply Ok_inj in E2; subst v2; exact L1]. }
  destruct (existsb is_point (mo_funcs m)).
  - set (st1 := mkState v2 (point_state m (mo_interp m) (st_interp st)) (st_scale st)).
    pose proof (@seq_loop m (fobjs N m su st1) true true v2 L2) as E3. cbv zeta in E3. rewrite E3.
    destruct (@pixel_loop_exists T N nThreads chunk Hthreads (fobjs N m su st1) true true (Z.of_nat (nModelColumns m)) (coord_x N m) (coord_y N m) v2) as (s2 & X2).
    exists s2. rewrite X2. cbn [bind]. apply regions_exists.
  - exists []. cbn [bind]. apply regions_exists.
Qed.

(** ---- one function alone ---- *)
Lemma nModelVals_eq : nModelVals m = nModelRows m * nModelColumns m.
Proof. clear Hregions Hthreads. unfold nModelVals. apply Nat.mul_comm. Qed.
Lemma seq_rows (fo : fobj T) v : length v = nModelVals m ->
  for2 (nModelRows m) (nModelColumns m) (fun i j v => set v (i * nModelColumns m + j)%nat (fo_value fo (pix_x N m j) (pix_y N m i))) v =
  Ok (map (fun '(k, r0) => row_new fo (nModelColumns m) (coord_x N m) (coord_y N m) k r0) (combine (seq 0 (nModelVals m)) v)).
Proof. clear Hregions Hthreads.
  intros L. rewrite nModelVals_eq in *. unfold for2. set (nr := nModelRows m) in *. set (nc := nModelColumns m) in *. set (new := row_new fo nc (coord_x N m) (coord_y N m)).
  assert (X : forall n, n <= nr -> exists v', for_ n (fun i v => for_ nc (fun j v => set v (i * nc + j) (fo_value fo (pix_x N m j) (pix_y N m i))) v) v = Ok v' /\ length v' = nr * nc /\
    forall k, nth_error v' k = if Nat.ltb k (n * nc) then option_map (new k) (nth_error v k) else nth_error v k).
  { induction n as [|n IH]; intros Hn.
    - exists v. split; [reflexivity|]. split; [exact L|]. intros k. reflexivity.
    - destruct IH as (v' & E & Lv & Q); [lia|]. rewrite for_S, E. cbn [bind].
      destruct (@for_inv (list T) (fun j w => length w = nr * nc /\ forall k, nth_error w k = if Nat.ltb k (n * nc + j) then option_map (new k) (nth_error v k) else nth_error v k)
        (fun j v => set v (n * nc + j) (fo_value fo (pix_x N m j) (pix_y N m n))) nc v') as (w & Ew & Lw & Qw).
      + split; [exact Lv|]. rewrite Nat.add_0_r. exact Q.
      + intros j w Hj (Lw & Qw). assert (B : n * nc + j < nr * nc) by nia. rewrite set_lt by lia. eexists. split; [reflexivity|]. split; [rewrite upd_length; exact Lw|].
        intros k. destruct (nth_error v (n * nc + j)) as [r0|] eqn:E0; [|apply nth_error_None in E0; lia]. destruct (Nat.eq_dec k (n * nc + j)) as [->|D].
        * assert (Z : nth_error w (n * nc + j) = Some r0) by (rewrite Qw, Nat.ltb_irrefl; exact E0). rewrite (upd_nth_same _ Z). replace (Nat.ltb (n * nc + j) (n * nc + S j)) with true by (symmetry; apply Nat.ltb_lt; lia).
          rewrite E0. cbn [option_map]. f_equal. unfold new, row_new. destruct (@row_index nc n j Hj) as (-> & ->). reflexivity.
        * rewrite upd_nth_other by congruence. rewrite Qw. replace (Nat.ltb k (n * nc + S j)) with (Nat.ltb k (n * nc + j)); [reflexivity|]. destruct (Nat.ltb k (n * nc + j)) eqn:Z1; symmetry; [apply Nat.ltb_lt in Z1; apply Nat.ltb_lt; lia|apply Nat.ltb_ge in Z1; apply Nat.ltb_ge; lia].
      + exists w. split; [exact Ew|]. split; [exact Lw|]. intros k. rewrite Qw. replace (n * nc + nc) with (S n * nc) by lia. reflexivity. }
  destruct (X nr ltac:(lia)) as (w & E & Lw & Q). rewrite E. f_equal.
  assert (Y : forall i, nth_error w i = nth_error (map (fun '(k, r0) => new k r0) (combine (seq 0 (nr * nc)) v)) i).
  { intros i. rewrite nth_error_map, Q. rewrite <- L. destruct (nth_error v i) as [r0|] eqn:E0.
    - rewrite (combine_seq_nth' 0 E0). assert (i < length v) by (apply nth_error_Some; congruence). replace (Nat.ltb i (length v)) with true by (symmetry; apply Nat.ltb_lt; lia). reflexivity.
    - assert (length v <= i) by (apply nth_error_None; exact E0). replace (Nat.ltb i (length v)) with false by (symmetry; apply Nat.ltb_ge; lia).
      symmetry. replace (nth_error (combine (seq 0 (length v)) v) i) with (@None (nat * T)); [reflexivity|]. symmetry. apply nth_error_None. rewrite combine_length, seq_length. lia. }
  clear - Y. revert Y. generalize (map (fun '(k, r0) => new k r0) (combine (seq 0 (nr * nc)) v)). intros u Y.
  revert u Y. induction w as [|a w IH]; intros [|b u] Y; [reflexivity|discriminate (Y 0)|discriminate (Y 0)|]. pose proof (Y 0) as Y0. injection Y0 as ->. f_equal. apply IH. intros i. exact (Y (S i)).
Qed.
Definition row_image (fo : fobj T) v : list T := map (fun '(k, r0) => row_new fo (nModelColumns m) (coord_x N m) (coord_y N m) k r0) (combine (seq 0 (nModelVals m)) v).
Lemma row_image_length fo v : length v = nModelVals m -> length (row_image fo v) = nModelVals m.
Proof. clear Hregions Hthreads. intros L. unfold row_image. rewrite map_length, combine_length, seq_length. lia. Qed.
Lemma row_get fo (v : list T) (mm : Par_Model.mem T) : length v = nModelVals m ->
  (forall k r0, nth_error v k = Some r0 -> mm (Pixel (Z.of_nat k)) = Real (row_new fo (nModelColumns m) (coord_x N m) (coord_y N m) k r0)) -> image_of mm (length v) = Ok (row_image fo v).
Proof. clear Hregions Hthreads.
  intros L H. rewrite L, <- (row_image_length fo L). apply image_ok. intros k r Q.
  assert (Lk : k < length v). { rewrite L, <- (row_image_length fo L). apply nth_error_Some. congruence. }
  destruct (nth_error v k) as [r0|] eqn:Q0; [|apply nth_error_None in Q0; lia]. unfold row_image in Q. rewrite <- L in Q. rewrite nth_error_map, (combine_seq_nth' 0 Q0) in Q. cbn [option_map] in Q. injection Q as <-. exact (H k r0 Q0).
Qed.
Lemma regions1_ok idx su scheds st : upto (par_regions1 N nThreads chunk m idx su scheds st) (regions_step1 N m idx su st).
Proof.
  unfold par_regions1, regions_step1. apply upto_bind; [apply upto_refl|]. intros f _. apply upto_for with (P := fun _ => True); [exact I|]. intros k s _ Hk. split; [|auto].
  apply upto_bind; [apply upto_refl|]. intros ri E. apply upto_bind; [apply upto_refl|]. intros i0 _. apply upto_bind; [apply upto_refl|]. intros z0 _.
  destruct (nth k scheds ([], [])) as [s1 s2]. cbv zeta. apply upto_bind; [apply upto_refl|]. intros fo _. apply upto_bind; [apply upto_refl|]. intros fo' _.
  apply upto_bind; [|intros v _; apply upto_refl]. apply region_ok. apply Hregions. apply get_Ok_iff in E. exact (nth_error_In _ _ E).
Qed.
Lemma regions1_exists idx su st : exists scheds, par_regions1 N nThreads chunk m idx su scheds st = regions_step1 N m idx su st.
Proof.
  unfold par_regions1, regions_step1. destruct (get (mo_funcs m) idx) as [f| | |]; [|exists []; reflexivity..]. cbn [bind].
  destruct (@for_scheds (state T) (list nat * list nat) ([], []) (fun a n st =>
    do ri <- get (mo_regions m) n;
    do i0 <- get (st_interp st) idx;
    do z0 <- get (st_scale st) idx;
    let '(s1, s2) := a in
    let st' := if is_point f then
        mkState (st_vec st) (upd (st_interp st) idx (ri_interp ri)) (upd (st_scale st) idx (rg_scale (ri_region ri)))
      else st in
    do fo <- get (fobjs N m su st) idx;
    do fo' <- get (fobjs N m su st') idx;
    do v <- par_region N nThreads chunk (ri_region ri) (ri_convolve ri) [fo] [fo'] (st_vec st) s1 s2;
    Ok (mkState v (st_interp st') (st_scale st')))
    (fun n st =>
    do ri <- get (mo_regions m) n;
    do i0 <- get (st_interp st) idx;
    do z0 <- get (st_scale st) idx;
    let st' := if is_point f then
        mkState (st_vec st) (upd (st_interp st) idx (ri_interp ri)) (upd (st_scale st) idx (rg_scale (ri_region ri)))
      else st in
    do fo <- get (fobjs N m su st) idx;
    do fo' <- get (fobjs N m su st') idx;
    do v <- ComputeRegionAndDownsample N (ri_region ri) (ri_convolve ri) [fo] [fo'] (st_vec st);
    Ok (mkState v (st_interp st') (st_scale st'))) (length (mo_regions m))) with (s := st) as (scheds & E).
  - intros k s Hk. destruct (get (mo_regions m) k) as [ri| | |] eqn:G; [|exists ([], []); reflexivity..].
    assert (Ir : In ri (mo_regions m)) by (apply get_Ok_iff in G; exact (nth_error_In _ _ G)). cbn [bind].
    destruct (get (st_interp s) idx) as [i0| | |]; [|exists ([], []); reflexivity..]. cbn [bind]. destruct (get (st_scale s) idx) as [z0| | |]; [|exists ([], []); reflexivity..]. cbn [bind]. cbv zeta.
    set (s' := if is_point f then _ else s). destruct (get (fobjs N m su s) idx) as [fo| | |]; [|exists ([], []); reflexivity..]. cbn [bind].
    destruct (get (fobjs N m su s') idx) as [fo'| | |]; [|exists ([], []); reflexivity..]. cbn [bind].
    destruct (@region_exists (ri_region ri) (ri_convolve ri) [fo] [fo'] (st_vec s) (Hregions Ir)) as ([s1 s2] & E).
    exists (s1, s2). cbn [fst snd] in E. rewrite E. reflexivity.
  - exists scheds. exact E.
Qed.
Lemma single_ok st params idx s1 scheds : length (st_vec st) = nModelVals m ->
  upto (par_GetSingleFunctionImage N nThreads chunk r2c c2r m st params idx s1 scheds) (GetSingleFunctionImage N r2c c2r m st params idx).
Proof.
  intros Lv. unfold par_GetSingleFunctionImage, GetSingleFunctionImage. destruct (forallb (nfin N) params); [|apply upto_refl].
  apply upto_bind; [apply upto_refl|]. intros su _. apply upto_bind; [apply upto_refl|]. intros f _. cbv zeta.
  set (st1 := if is_point f then _ else st). assert (L1 : length (st_vec st1) = nModelVals m) by (unfold st1; destruct (is_point f); exact Lv).
  apply upto_bind; [apply upto_refl|]. intros fo _. rewrite (seq_rows fo L1). fold (row_image fo (st_vec st1)). unfold row_loop.
  assert (L1' : length (st_vec st1) = nModelRows m * nModelColumns m) by (rewrite <- nModelVals_eq; exact L1).
  destruct (@outcome_ok T (list T) s1 _ _ (fun mm => image_of mm (length (st_vec st1))) (Ok (row_image fo (st_vec st1)))
    (@row_ends T nThreads chunk Hthreads fo (nModelRows m) (nModelColumns m) (coord_x N m) (coord_y N m) (st_vec st1) L1') (fun mm H => @row_get fo (st_vec st1) mm L1 H)) as [->| ->]; [left; reflexivity|].
  cbn [bind]. apply upto_bind; [apply upto_refl|]. intros v2 _. apply upto_bind; [apply regions1_ok|]. intros st2 _. apply upto_refl.
Qed.
Lemma single_exists st params idx : length (st_vec st) = nModelVals m ->
  exists s1 scheds, par_GetSingleFunctionImage N nThreads chunk r2c c2r m st params idx s1 scheds = GetSingleFunctionImage N r2c c2r m st params idx.
Proof.
  intros Lv. unfold par_GetSingleFunctionImage, GetSingleFunctionImage. destruct (forallb (nfin N) params); [|exists [], []; reflexivity].
  destruct (Setup m params) as [su| | |]; [|exists [], []; reflexivity..]. cbn [bind]. destruct (get (mo_funcs m) idx) as [f| | |]; [|exists [], []; reflexivity..]. cbn [bind]. cbv zeta.
  set (st1 := if is_point f then _ else st). assert (L1 : length (st_vec st1) = nModelVals m) by (unfold st1; destruct (is_point f); exact Lv).
  destruct (get (fobjs N m su st1) idx) as [fo| | |]; [|exists [], []; reflexivity..]. cbn [bind]. rewrite (seq_rows fo L1). fold (row_image fo (st_vec st1)). unfold row_loop.
  assert (L1' : length (st_vec st1) = nModelRows m * nModelColumns m) by (rewrite <- nModelVals_eq; exact L1).
  destruct (@outcome_exists T (list T) _ _ (fun mm => image_of mm (length (st_vec st1))) (Ok (row_image fo (st_vec st1)))
    (@row_ends T nThreads chunk Hthreads fo (nModelRows m) (nModelColumns m) (coord_x N m) (coord_y N m) (st_vec st1) L1') (fun mm H => @row_get fo (st_vec st1) mm L1 H)) as (s1 & E1).
  exists s1. rewrite E1. cbn [bind].
  destruct (match mo_psf m with Some (_, _, pl) => if is_point f then Ok (row_image fo (st_vec st1)) else ConvolveImage N r2c c2r pl (row_image fo (st_vec st1)) | None => Ok (row_image fo (st_vec st1)) end) as [v2| | |]; [|exists []; reflexivity..].
  cbn [bind]. destruct (@regions1_exists idx su (mkState v2 (st_interp st1) (st_scale st1))) as (scheds & E). exists scheds. rewrite E. reflexivity.
Qed.
End Image.
