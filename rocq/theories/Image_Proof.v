(** Proofs about model images. *)
From Coq Require Import Reals Lra List Arith ZArith Lia Bool.
From Verif Require Import Base Num Sums LM_QR Params_Model Params_Spec Params_Proof Conv_Model Conv_Spec Conv_Proof
  Downsample_Model Downsample_Spec Downsample_Proof Image_Model Image_Spec.
Import ListNotations.
Set Implicit Arguments.
Unset Strict Implicit.
Local Open Scope nat_scope.

Lemma combine_nth_error {A B} (l : list A) (l' : list B) n a b :
  nth_error l n = Some a -> nth_error l' n = Some b -> nth_error (combine l l') n = Some (a, b).
Proof.
  revert l' n. induction l as [|x l IH]; intros [|y l'] [|n] H H'; cbn in *; try discriminate.
  - now injection H as ->; injection H' as ->.
  - now apply IH.
Qed.
(** ---- loops over all pixels ---- *)
Lemma upd_app {A} k (l1 l2 : list A) x y : length l1 = k -> upd (l1 ++ x :: l2) k y = l1 ++ y :: l2.
Proof. intros <-. induction l1 as [|z l1 IH]; cbn; [reflexivity|]. now rewrite IH. Qed.
Lemma rsuml_cons x l : rsuml (x :: l) = (x + rsuml l)%R.
Proof. reflexivity. Qed.
Lemma fill_all {A} (g : nat -> A) n (f : nat -> list A -> res (list A)) (v0 : list A) :
  length v0 = n -> (forall k v, k < n -> f k v = set v k (g k)) -> for_ n f v0 = Ok (map g (seq 0 n)).
Proof.
  intros L H.
  destruct (@for_inv (list A) (fun k v => exists rest, v = map g (seq 0 k) ++ rest /\ length rest = n - k) f n v0) as (v & E & rest & Ev & Lr).
  - exists v0. split; [reflexivity|lia].
  - intros k v Hk (rest & -> & Lr). rewrite H by auto.
    destruct rest as [|x rest]; [cbn in Lr; lia|].
    assert (Lk : length (map g (seq 0 k)) = k) by now rewrite map_length, seq_length.
    rewrite set_lt by (rewrite app_length; simpl; lia). eexists; split; [reflexivity|].
    exists rest. split; [|cbn in Lr; lia].
    rewrite (upd_app _ _ _ Lk). rewrite seq_S, map_app, <- app_assoc. reflexivity.
  - rewrite E, Ev. assert (rest = []) as -> by (destruct rest; [reflexivity|cbn in Lr; lia]). now rewrite app_nil_r.
Qed.
Lemma add_all (g : nat -> R) n (v0 : list R) :
  length v0 = n ->
  exists v, for_ n (fun k v => do old <- get v k; set v k (old + g k)%R) v0 = Ok v /\ length v = n /\
    forall k, k < n -> nth k v 0%R = (nth k v0 0 + g k)%R.
Proof.
  intros L.
  destruct (@for_inv (list R) (fun k v => length v = n /\ (forall q, q < k -> nth q v 0%R = (nth q v0 0 + g q)%R) /\
    (forall q, k <= q -> nth q v 0%R = nth q v0 0%R)) (fun k v => do old <- get v k; set v k (old + g k)%R) n v0) as (v & E & Lv & V & _).
  - split; [exact L|split; [intros; lia|auto]].
  - intros k v Hk (Lv & V & O). rewrite (@get_nth R 0%R) by lia. cbn [bind]. rewrite set_lt by lia.
    eexists; split; [reflexivity|]. rewrite upd_length. split; [exact Lv|]. split.
    + intros q Hq. rewrite nth_upd. destruct (Nat.eqb_spec k q) as [->|Hne].
      * assert (q <? length v = true) as -> by (apply Nat.ltb_lt; lia). cbn [andb]. rewrite O by lia. reflexivity.
      * cbn [andb]. apply V. lia.
    + intros q Hq. rewrite nth_upd. destruct (Nat.eqb_spec k q); [lia|]. cbn [andb]. apply O. lia.
  - exists v. auto.
Qed.

(** ---- Setup ---- *)
Lemma Forall2_nth_error {A B} (P : A -> B -> Prop) l l' : Forall2 P l l' ->
  length l = length l' /\ forall n, n < length l -> exists a b, nth_error l n = Some a /\ nth_error l' n = Some b /\ P a b.
Proof.
  induction 1 as [|a b l l' H F [IHl IHn]]; [split; [reflexivity|cbn; lia]|].
  split; [cbn; lia|]. intros [|n] Hn; cbn in *; [exists a, b; auto|]. apply IHn. lia.
Qed.
Lemma seen_sizes {T} (bs : list (blk T)) : map (fun e => length (snd e)) (seen bs) = sizes bs.
Proof.
  unfold seen, sizes. induction bs as [|b bs IH]; cbn [flat_map]; auto. rewrite map_app, IH. f_equal.
  rewrite map_map. reflexivity.
Qed.
Lemma Setup_ok {T} (m : model T) (bs : list (blk T)) :
  blocks_ok bs -> map fn_nParams (mo_funcs m) = sizes bs -> mo_flags m = flag_list bs ->
  Setup m (flat bs) = Ok (seen bs).
Proof.
  intros Hb Hf Hfl. destruct (layout_ok Hb) as (flags & calls & E1 & E2 & E3 & E4 & E5).
  rewrite (defsets_ok Hb) in E1. apply Ok_inj in E1. subst flags.
  unfold Setup. rewrite Hf, Hfl, E3. cbn [bind].
  apply Forall2_nth_error in E4. destruct E4 as [L4 N4].
  assert (Lf : length (mo_funcs m) = length (seen bs)).
  { transitivity (length (sizes bs)); [rewrite <- Hf, map_length; reflexivity|]. rewrite <- seen_sizes, map_length. reflexivity. }
  match goal with |- for_ ?n ?f ?s0 = _ =>
    destruct (@for_inv (list (T * T * list T)) (fun k acc => acc = firstn k (seen bs)) f n s0) as (s & E & ->) end.
  - reflexivity.
  - intros k acc Hk ->. destruct (N4 k) as ([[off x] y] & [[x' y'] p] & G1 & G2 & S); [lia|].
    unfold sees in S. destruct S as (<- & <- & Eo).
    unfold get at 1. rewrite G1. cbn [bind]. 
    destruct (@get_lt (func T) (mo_funcs m) k Hk) as (f & Ef). rewrite Ef. cbn [bind].
    assert (Es : fn_nParams f = length p).
    { unfold get in Ef. destruct (nth_error (mo_funcs m) k) as [f'|] eqn:Ef'; [|discriminate]. apply Ok_inj in Ef. subst f'.
      apply (map_nth_error fn_nParams) in Ef'. rewrite Hf, <- seen_sizes in Ef'.
      apply (map_nth_error (fun e => length (snd e))) in G2. rewrite Ef' in G2. now injection G2. }
    rewrite Es, Eo. cbn [bind]. eexists; split; [reflexivity|].
    symmetry. clear -G2. revert k G2. induction (seen bs) as [|e l IH]; intros [|k] G; cbn in *; try discriminate.
    + now injection G as <-.
    + f_equal. now apply IH.
  - rewrite E, Lf, firstn_all. reflexivity.
Qed.

(** ---- the function objects ---- *)
Lemma point_state_length {T A} (m : model T) (v : A) old : length old = length (mo_funcs m) -> length (point_state m v old) = length (mo_funcs m).
Proof. intros H. unfold point_state. rewrite map_length, combine_length. lia. Qed.

Definition fobjs_l {T} (N : Num T) fs su (ii : list (T -> T -> T)) zz :=
  map (fun '(f, s, (i, z)) => fobj_of N f s i z) (combine (combine fs su) (combine ii zz)).
Lemma fobj_point {T} (N : Num T) f s i z : fo_point (fobj_of N f s i z) = is_point f.
Proof. destruct s as [[x0 y0] p]. unfold fobj_of, is_point. destruct (fn_kind f); reflexivity. Qed.
Lemma fobj_plain_value {T} (N : Num T) f s i z i' z' x y : is_point f = false ->
  fo_value (fobj_of N f s i z) x y = fo_value (fobj_of N f s i' z') x y.
Proof. destruct s as [[x0 y0] p]. unfold fobj_of, is_point. destruct (fn_kind f); [reflexivity|discriminate]. Qed.

Lemma sum_plain fs : forall su ii zz interp x y, length su = length fs -> length ii = length fs -> length zz = length fs ->
  rsuml (map (fun f => fo_value f x y) (filter (fun f => Bool.eqb (fo_point f) false) (fobjs_l NumR fs su ii zz))) =
  sum_over extended interp fs su x y.
Proof.
  unfold sum_over, fobjs_l. induction fs as [|f fs IH]; intros [|s su] [|i ii] [|z zz] interp x y L1 L2 L3; cbn in L1, L2, L3; try discriminate; [reflexivity|].
  cbn [combine map filter]. rewrite fobj_point. unfold extended at 1.
  destruct (is_point f) eqn:P; cbn [Bool.eqb negb].
  - rewrite rsuml_cons, (IH su ii zz interp) by lia. ring.
  - cbn [map]. assert (V : fo_value (fobj_of NumR f s i z) x y = func_value interp f s x y).
    { destruct s as [[x0 y0] p]. unfold fobj_of, func_value, is_point in *. destruct (fn_kind f); [reflexivity|discriminate]. }
    rewrite V. rewrite !rsuml_cons, (IH su ii zz interp) by lia. reflexivity.
Qed.
Lemma sum_point fs : forall su ii interp x y, length su = length fs -> length ii = length fs ->
  (forall n f i, nth_error fs n = Some f -> nth_error ii n = Some i -> is_point f = true -> i = interp) ->
  rsuml (map (fun f => fo_value f x y) (filter (fun f => Bool.eqb (fo_point f) true) (fobjs_l NumR fs su ii (repeat 1%Z (length fs))))) =
  sum_over is_point interp fs su x y.
Proof.
  unfold sum_over, fobjs_l. induction fs as [|f fs IH]; intros [|s su] [|i ii] interp x y L1 L2 H; cbn in L1, L2; try discriminate; [reflexivity|].
  cbn [length repeat combine map filter]. rewrite fobj_point.
  assert (IH' := IH su ii interp x y ltac:(lia) ltac:(lia) (fun n => H (S n))).
  destruct (is_point f) eqn:P; cbn [Bool.eqb].
  - cbn [map]. rewrite !rsuml_cons, IH'. f_equal.
    assert (i = interp) as -> by (apply (H 0 f i); auto).
    destruct s as [[x0 y0] p]. unfold fobj_of, func_value, is_point in *. destruct (fn_kind f); [discriminate|].
    cbn [fo_value nmul nsub nofZ NumR]. rewrite !Rmult_1_l. reflexivity.
  - rewrite IH', rsuml_cons. ring.
Qed.
Lemma sum_split interp fs : forall su x y, length su = length fs ->
  (sum_over (fun _ => true) interp fs su x y = sum_over extended interp fs su x y + sum_over is_point interp fs su x y)%R.
Proof.
  unfold sum_over, extended. induction fs as [|f fs IH]; intros [|s su] x y L; cbn in L; try discriminate; [cbn; ring|].
  cbn [combine map]. rewrite !rsuml_cons, IH by lia. destruct (is_point f); cbn [negb]; ring.
Qed.
Lemma sum_no_point interp fs : forall su x y, existsb is_point fs = false -> sum_over is_point interp fs su x y = 0%R.
Proof.
  unfold sum_over. induction fs as [|f fs IH]; intros [|s su] x y H; cbn [combine map existsb] in *; auto.
  apply orb_false_elim in H. destruct H as [H1 H2]. rewrite rsuml_cons, H1, IH by auto. ring.
Qed.

Lemma append_all {A} (d : A) (a : list A) (f : nat -> nat) n : (forall z, z < n -> f z < length a) ->
  for_ n (fun z out => do v <- get a (f z); Ok (out ++ [v])) [] = Ok (map (fun z => nth (f z) a d) (seq 0 n)).
Proof.
  intros H.
  destruct (@for_inv (list A) (fun k out => out = map (fun z => nth (f z) a d) (seq 0 k))
    (fun z out => do v <- get a (f z); Ok (out ++ [v])) n []) as (s & E & ->).
  - reflexivity.
  - intros k out Hk ->. rewrite (@get_nth A d) by auto. cbn [bind]. eexists; split; [reflexivity|].
    rewrite seq_S, map_app. reflexivity.
  - exact E.
Qed.

(** ---- images without regions, in exact arithmetic ---- *)
Record good {T} (m : model T) (st : state T) : Prop := mkGood {
  g_vec : length (st_vec st) = nModelVals m;
  g_interp : length (st_interp st) = length (mo_funcs m);
  g_scale : st_scale st = repeat 1%Z (length (mo_funcs m)) }.

(** the convolver's plan does what it should *)
Definition plan_ok (p : list R) (pw ph : nat) (pl : plan R) (w h : nat) : Prop :=
  forall img, length img = w * h -> exists out, ConvolveImage NumR dft_r2c dft_c2r pl img = Ok out /\ length out = w * h /\
    forall c r, c < w -> r < h -> nth (r * w + c) out 0%R = convolved p pw ph img w h c r.

Definition psf_ok (m : model R) (psf : option (list R * nat * nat)) : Prop :=
  match psf, mo_psf m with
  | None, None => True
  | Some (p, pw, ph), Some (pw', ph', pl) => pw' = pw /\ ph' = ph /\ 1 <= pw /\ 1 <= ph /\
      plan_ok p pw ph pl (nModelColumns m) (nModelRows m)
  | _, _ => False
  end.

Lemma setup_model_ok fs flags pix pw ph normalize interp w h :
  1 <= pw -> 1 <= ph -> 1 <= w -> 1 <= h -> length pix = pw * ph ->
  exists pl, SetupModelImage NumR dft_r2c fs flags (Some (mkPSF pix pw ph normalize)) interp w h =
      Ok (0%Z, Some (mkModel fs flags w h (Some (pw, ph, pl)) interp [])) /\
    plan_ok (used_psf pix normalize) pw ph pl (w + 2 * pw) (h + 2 * ph).
Proof.
  intros Hpw Hph Hw Hh Lp. unfold SetupModelImage.
  assert (Hw' := Hw). assert (Hh' := Hh). apply Nat.leb_le in Hw', Hh'. rewrite Hw', Hh'. cbn [andb].
  cbn [ps_cols ps_rows].
  destruct (@full_convolution pix pw ph normalize (repeat 0%R ((w + 2 * pw) * (h + 2 * ph))) (w + 2 * pw) (h + 2 * ph)) as (pl & out & E & _);
    auto; try lia; [now rewrite repeat_length|].
  rewrite E. cbn [bind]. exists pl. split; [reflexivity|].
  intros img Li. destruct (@full_convolution pix pw ph normalize img (w + 2 * pw) (h + 2 * ph)) as (pl' & out' & E' & Ec & Lo & V); auto; try lia.
  rewrite E in E'. apply Ok_inj in E'. injection E' as <-. exists out'. auto.
Qed.

Definition xy_sum (m : model R) (es : list (R * R * list R)) (keep : func R -> bool) (k : nat) : R :=
  sum_over keep (mo_interp m) (mo_funcs m) es
    (IZR (Z.of_nat (k mod nModelColumns m) - Z.of_nat (psfCols m) + 1)) (IZR (Z.of_nat (k / nModelColumns m) - Z.of_nat (psfRows m) + 1)).

Lemma nModelColumns_pos {T} (m : model T) : 1 <= mo_dataCols m -> 0 < nModelColumns m.
Proof. unfold nModelColumns. lia. Qed.

Lemma plain_step m su st : length su = length (mo_funcs m) -> length (st_interp st) = length (mo_funcs m) ->
  length (st_scale st) = length (mo_funcs m) -> length (st_vec st) = nModelVals m -> 0 < nModelColumns m ->
  for_ (nModelVals m) (fun k v =>
    let j := k mod nModelColumns m in let i := k / nModelColumns m in
    set v (i * nModelColumns m + j) (kahan_sum NumR (fobjs NumR m su st) false (pix_x NumR m j) (pix_y NumR m i))) (st_vec st)
  = Ok (map (xy_sum m su extended) (seq 0 (nModelVals m))).
Proof.
  intros L1 L2 L3 L4 Hn. apply fill_all; auto. intros k v Hk. cbv zeta.
  replace (k / nModelColumns m * nModelColumns m + k mod nModelColumns m) with k
    by (rewrite (Nat.div_mod k (nModelColumns m)) at 1 by lia; lia).
  f_equal. rewrite kahan_exact. unfold xy_sum. unfold fobjs. fold (fobjs_l NumR (mo_funcs m) su (st_interp st) (st_scale st)).
  rewrite (@sum_plain (mo_funcs m) su (st_interp st) (st_scale st) (mo_interp m)) by auto. reflexivity.
Qed.
Lemma point_step m su st v : length su = length (mo_funcs m) -> length (st_interp st) = length (mo_funcs m) ->
  (forall n f i, nth_error (mo_funcs m) n = Some f -> nth_error (st_interp st) n = Some i -> is_point f = true -> i = mo_interp m) ->
  st_scale st = repeat 1%Z (length (mo_funcs m)) -> length v = nModelVals m -> 0 < nModelColumns m ->
  exists v', for_ (nModelVals m) (fun k v =>
    let j := k mod nModelColumns m in let i := k / nModelColumns m in
    do old <- get v (i * nModelColumns m + j);
    set v (i * nModelColumns m + j) (nadd NumR old (kahan_sum NumR (fobjs NumR m su st) true (pix_x NumR m j) (pix_y NumR m i)))) v
  = Ok v' /\ length v' = nModelVals m /\ forall k, k < nModelVals m -> nth k v' 0%R = (nth k v 0 + xy_sum m su is_point k)%R.
Proof.
  intros L1 L2 Hi Hs L4 Hn.
  destruct (@add_all (xy_sum m su is_point) (nModelVals m) v L4) as (v' & E & L & V).
  exists v'. split; [|auto]. rewrite <- E. apply for_ext. intros k s Hk. cbv zeta.
  replace (k / nModelColumns m * nModelColumns m + k mod nModelColumns m) with k
    by (rewrite (Nat.div_mod k (nModelColumns m)) at 1 by lia; lia).
  destruct (get s k); cbn [bind]; auto. f_equal. cbn [nadd NumR]. f_equal.
  rewrite kahan_exact. unfold xy_sum, fobjs. fold (fobjs_l NumR (mo_funcs m) su (st_interp st) (st_scale st)).
  rewrite Hs, (@sum_point (mo_funcs m) su (st_interp st) (mo_interp m)) by auto. reflexivity.
Qed.

(** the image that reaches the caller, from the model vector *)
Lemma crop_ok (m : model R) st : length (st_vec st) = nModelVals m -> 1 <= mo_dataCols m ->
  exists out, GetModelImageVector m st = Ok out /\ length out = mo_dataCols m * mo_dataRows m /\
    forall c r, c < mo_dataCols m -> r < mo_dataRows m ->
      nth (r * mo_dataCols m + c) out 0%R = nth ((psfRows m + r) * nModelColumns m + (psfCols m + c)) (st_vec st) 0%R.
Proof.
  intros L Hw. unfold GetModelImageVector. destruct (mo_psf m) as [[[pw ph] pl]|] eqn:Ep.
  - rewrite (@append_all R 0%R (st_vec st) (fun z => nModelColumns m * (psfRows m + z / mo_dataCols m) + psfCols m + (z - z / mo_dataCols m * mo_dataCols m))).
    + eexists; split; [reflexivity|]. split; [now rewrite map_length, seq_length|]. intros c r Hc Hr.
      rewrite nth_map_seq by (apply rowcol_lt; auto). destruct (@rowcol_div (mo_dataCols m) r c Hc) as [-> _].
      f_equal. lia.
    + intros z Hz. rewrite L. unfold nModelVals, nModelColumns, nModelRows.
      assert (H1 : z mod mo_dataCols m < mo_dataCols m) by (apply Nat.mod_upper_bound; lia).
      assert (H2 : z / mo_dataCols m < mo_dataRows m) by (apply Nat.div_lt_upper_bound; lia).
      pose proof (Nat.div_mod z (mo_dataCols m) ltac:(lia)) as H3.
      set (q := z / mo_dataCols m) in *. set (C := mo_dataCols m) in *. set (RR := mo_dataRows m) in *.
      assert (H4 : z - q * C = z mod C) by lia. rewrite H4.
      assert ((C + 2 * psfCols m) * (S (psfRows m + q)) <= (C + 2 * psfCols m) * (RR + 2 * psfRows m)) by (apply Nat.mul_le_mono_l; lia).
      lia.
  - assert (Ec : psfCols m = 0) by (unfold psfCols; now rewrite Ep).
    assert (Er : psfRows m = 0) by (unfold psfRows; now rewrite Ep).
    exists (st_vec st). split; [reflexivity|]. unfold nModelVals, nModelColumns, nModelRows in *. rewrite Ec, Er in *.
    split; [rewrite L; lia|]. intros c r _ _. f_equal. lia.
Qed.

(** value of the convolved padded image at an unpadded pixel *)
Lemma convolved_inside (m : model R) es p pw ph pl c r :
  mo_psf m = Some (pw, ph, pl) -> 1 <= pw -> 1 <= ph -> c < mo_dataCols m -> r < mo_dataRows m ->
  convolved p pw ph (map (xy_sum m es extended) (seq 0 (nModelVals m))) (nModelColumns m) (nModelRows m) (pw + c) (ph + r) =
  rsum ph (fun k => rsum pw (fun l => (nth (k * pw + l) p 0 *
    sum_over extended (mo_interp m) (mo_funcs m) es (INR c + 1 - (INR l - INR (pw / 2))) (INR r + 1 - (INR k - INR (ph / 2))))%R)).
Proof.
  intros Ep Hpw Hph Hc Hr. unfold convolved. apply rsum_ext. intros k Hk. apply rsum_ext. intros l Hl. f_equal.
  pose proof (half_le Hpw). pose proof (half_le Hph).
  assert (Epc : psfCols m = pw) by (unfold psfCols; now rewrite Ep).
  assert (Epr : psfRows m = ph) by (unfold psfRows; now rewrite Ep).
  set (X := pw + c + pw / 2 - l). set (Y := ph + r + ph / 2 - k).
  replace (Z.of_nat (pw + c) - (Z.of_nat l - Z.of_nat (pw / 2)))%Z with (Z.of_nat X) by (unfold X; lia).
  replace (Z.of_nat (ph + r) - (Z.of_nat k - Z.of_nat (ph / 2)))%Z with (Z.of_nat Y) by (unfold Y; lia).
  assert (HX : X < nModelColumns m) by (unfold X, nModelColumns; lia).
  assert (HY : Y < nModelRows m) by (unfold Y, nModelRows; lia).
  rewrite zpix_in by auto. rewrite nth_map_seq by (apply rowcol_lt; auto).
  unfold xy_sum. destruct (@rowcol_div (nModelColumns m) Y X HX) as [-> ->]. rewrite Epc, Epr.
  f_equal.
  - unfold X. rewrite Nat2Z.inj_sub by lia. rewrite !Nat2Z.inj_add. rewrite plus_IZR, !minus_IZR, !plus_IZR, <- !INR_IZR_INZ. ring.
  - unfold Y. rewrite Nat2Z.inj_sub by lia. rewrite !Nat2Z.inj_add. rewrite plus_IZR, !minus_IZR, !plus_IZR, <- !INR_IZR_INZ. ring.
Qed.
Lemma xy_sum_inside (m : model R) es keep c r : c < mo_dataCols m ->
  xy_sum m es keep ((psfRows m + r) * nModelColumns m + (psfCols m + c)) =
  sum_over keep (mo_interp m) (mo_funcs m) es (INR c + 1) (INR r + 1).
Proof.
  intros Hc. unfold xy_sum.
  destruct (@rowcol_div (nModelColumns m) (psfRows m + r) (psfCols m + c)) as [-> ->]; [unfold nModelColumns; lia|].
  f_equal; rewrite Nat2Z.inj_add, plus_IZR, minus_IZR, plus_IZR, <- !INR_IZR_INZ; ring.
Qed.
Lemma inside_lt {T} (m : model T) c r : c < mo_dataCols m -> r < mo_dataRows m ->
  (psfRows m + r) * nModelColumns m + (psfCols m + c) < nModelVals m.
Proof. intros Hc Hr. apply rowcol_lt; [unfold nModelColumns|unfold nModelRows]; lia. Qed.

Lemma point_state_nth {T A} (m : model T) (v : A) old n f i :
  nth_error (mo_funcs m) n = Some f -> nth_error (point_state m v old) n = Some i -> is_point f = true -> i = v.
Proof.
  unfold point_state. generalize (mo_funcs m). intros fs Hf Hi Hp. revert old n Hf Hi.
  induction fs as [|g fs IH]; intros old n Hf Hi; [destruct n; discriminate|].
  destruct old as [|o old]; [destruct n; discriminate|]. destruct n as [|n]; cbn in *.
  - injection Hf as ->. rewrite Hp in Hi. now injection Hi.
  - eapply IH; eauto.
Qed.

(** what is in the model vector after convolution, inside the padding *)
Lemma convolve_step (m : model R) (es : list (R * R * list R)) (psf : option (list R * nat * nat)) v1 :
  length es = length (mo_funcs m) -> psf_ok m psf ->
  v1 = map (xy_sum m es extended) (seq 0 (nModelVals m)) ->
  exists v2, (match mo_psf m with Some (_, _, pl) => ConvolveImage NumR dft_r2c dft_c2r pl v1 | None => Ok v1 end) = Ok v2 /\
    length v2 = nModelVals m /\
    forall c r, c < mo_dataCols m -> r < mo_dataRows m ->
      (nth ((psfRows m + r) * nModelColumns m + (psfCols m + c)) v2 0 + sum_over is_point (mo_interp m) (mo_funcs m) es (INR c + 1) (INR r + 1) =
       image_pixel psf (mo_interp m) (mo_funcs m) es c r)%R.
Proof.
  intros Lf Hp E1. assert (Ln : length v1 = nModelVals m) by (rewrite E1, map_length, seq_length; reflexivity).
  unfold psf_ok in Hp. destruct psf as [[[p pw] ph]|]; destruct (mo_psf m) as [[[pw' ph'] pl]|] eqn:Ep; try contradiction.
  - destruct Hp as (-> & -> & Hpw & Hph & PO). destruct (PO v1 Ln) as (v2 & E2 & L2 & V2).
    exists v2. split; [exact E2|]. split; [exact L2|]. intros c r Hc Hr. unfold image_pixel. f_equal.
    assert (Epc : psfCols m = pw) by (unfold psfCols; now rewrite Ep).
    assert (Epr : psfRows m = ph) by (unfold psfRows; now rewrite Ep).
    rewrite Epc, Epr. rewrite V2; [|unfold nModelColumns; lia|unfold nModelRows; lia].
    rewrite E1. eapply convolved_inside; eauto.
  - exists v1. split; [reflexivity|]. split; [exact Ln|]. intros c r Hc Hr. unfold image_pixel.
    rewrite sum_split by (exact Lf). f_equal. rewrite E1.
    rewrite nth_map_seq by (apply inside_lt; auto). now apply xy_sum_inside.
Qed.

Section Exact.
  Variables (m : model R) (bs : list (blk R)) (psf : option (list R * nat * nat)).
  Hypothesis Hb : blocks_ok bs.
  Hypothesis Hf : map fn_nParams (mo_funcs m) = sizes bs.
  Hypothesis Hfl : mo_flags m = flag_list bs.
  Hypothesis Hp : psf_ok m psf.
  Hypothesis Hw : 1 <= mo_dataCols m.
  Hypothesis Hreg : mo_regions m = [].

  Lemma funcs_length : length (seen bs) = length (mo_funcs m).
  Proof. transitivity (length (sizes bs)); [rewrite <- seen_sizes, map_length; reflexivity|]. rewrite <- Hf, map_length. reflexivity. Qed.

  Lemma create_ok st : good m st ->
    exists st' out, CreateModelImage NumR dft_r2c dft_c2r m st (flat bs) = Ok st' /\ good m st' /\
      GetModelImageVector m st' = Ok out /\ length out = mo_dataCols m * mo_dataRows m /\
      forall c r, c < mo_dataCols m -> r < mo_dataRows m ->
        nth (r * mo_dataCols m + c) out 0%R = image_pixel psf (mo_interp m) (mo_funcs m) (seen bs) c r.
  Proof.
    intros [Gv Gi Gs]. unfold CreateModelImage. rewrite (Setup_ok Hb Hf Hfl). cbn [bind].
    pose proof (nModelColumns_pos Hw) as Hn. pose proof funcs_length as Lf.
    rewrite plain_step; auto; [|rewrite Gs; apply repeat_length]. cbn [bind].
    destruct (@convolve_step m (seen bs) psf _ Lf Hp eq_refl) as (v2 & E2 & L2 & V2). rewrite E2. cbn [bind].
    unfold regions_step. rewrite Hreg.
    destruct (existsb is_point (mo_funcs m)) eqn:Ex.
    - destruct (@point_step m (seen bs) (mkState v2 (point_state m (mo_interp m) (st_interp st)) (st_scale st)) v2) as (v3 & E3 & L3 & V3); auto.
      + cbn [st_interp]. now apply point_state_length.
      + cbn [st_interp]. intros n f i Hnf Hni. exact (point_state_nth Hnf Hni).
      + cbv zeta in E3 |- *. rewrite E3. cbn [bind for_ length for_from].
        set (st' := mkState v3 _ _).
        destruct (@crop_ok m st') as (out & Eo & Lo & Vo); auto.
        exists st', out. split; [reflexivity|]. split; [split; auto; cbn [st_interp st']; now apply point_state_length|].
        split; [exact Eo|]. split; [exact Lo|]. intros c r Hc Hr. rewrite Vo by auto. cbn [st_vec st'].
        rewrite V3 by (apply inside_lt; auto). rewrite xy_sum_inside by auto. now apply V2.
    - cbn [bind for_ length for_from].
      set (st' := mkState v2 _ _).
      destruct (@crop_ok m st') as (out & Eo & Lo & Vo); auto.
      exists st', out. split; [reflexivity|]. split; [split; auto|].
      split; [exact Eo|]. split; [exact Lo|]. intros c r Hc Hr. rewrite Vo by auto. cbn [st_vec st'].
      rewrite <- V2 by auto. rewrite sum_no_point by auto. ring.
  Qed.

  (** one function alone *)
  Definition only (f : func R) : model R :=
    mkModel [f] [true] (mo_dataCols m) (mo_dataRows m) (mo_psf m) (mo_interp m) [].

  Lemma single_ok st idx f e : good m st -> nth_error (mo_funcs m) idx = Some f -> nth_error (seen bs) idx = Some e ->
    exists st' out, GetSingleFunctionImage NumR dft_r2c dft_c2r m st (flat bs) idx = Ok (out, st') /\ good m st' /\
      length out = mo_dataCols m * mo_dataRows m /\
      forall c r, c < mo_dataCols m -> r < mo_dataRows m ->
        nth (r * mo_dataCols m + c) out 0%R = image_pixel psf (mo_interp m) [f] [e] c r.
  Proof.
    intros [Gv Gi Gs] Ef Ee. unfold GetSingleFunctionImage.
    assert (Efin : forallb (nfin NumR) (flat bs) = true) by (apply forallb_forall; reflexivity). rewrite Efin.
    rewrite (Setup_ok Hb Hf Hfl). cbn [bind].
    pose proof (nModelColumns_pos Hw) as Hn. pose proof funcs_length as Lf.
    unfold get at 1. rewrite Ef. cbn [bind].
    assert (Hidx : idx < length (mo_funcs m)) by (apply nth_error_Some; congruence).
    set (st1 := if is_point f then mkState (st_vec st) (upd (st_interp st) idx (mo_interp m)) (st_scale st) else st).
    assert (G1 : good m st1).
    { unfold st1. destruct (is_point f); split; auto. cbn [st_interp]. now rewrite upd_length. }
    (* the function object *)
    assert (Efo : exists fo, get (fobjs NumR m (seen bs) st1) idx = Ok fo /\ forall x y, fo_value fo x y = func_value (mo_interp m) f e x y).
    { destruct G1 as [_ G1i G1s].
      destruct (nth_error (st_interp st1) idx) as [i|] eqn:Ei; [|apply nth_error_None in Ei; lia].
      assert (Ez : nth_error (st_scale st1) idx = Some 1%Z).
      { rewrite G1s. clear -Hidx. revert idx Hidx. induction (length (mo_funcs m)) as [|n IH]; intros [|k] H; cbn; auto; [lia|lia|]. apply IH. lia. }
      exists (fobj_of NumR f e i 1%Z). split.
      - unfold get, fobjs. rewrite (@map_nth_error _ _ _ idx _ (f, e, (i, 1%Z))); [reflexivity|].
        apply combine_nth_error; apply combine_nth_error; auto.
      - intros x y. assert (Hi : is_point f = true -> i = mo_interp m).
        { intros Hpt. unfold st1 in Ei. rewrite Hpt in Ei. cbn [st_interp] in Ei. rewrite nth_error_upd, Nat.eqb_refl in Ei.
          assert (idx <? length (st_interp st) = true) as Hlt by (apply Nat.ltb_lt; lia). rewrite Hlt in Ei. cbn [andb] in Ei. now injection Ei. }
        destruct e as [[x0 y0] p]. unfold fobj_of, func_value, is_point in *. destruct (fn_kind f); [reflexivity|].
        rewrite Hi by reflexivity. cbn [fo_value nmul nsub nofZ NumR]. rewrite !Rmult_1_l. reflexivity. }
    destruct Efo as (fo & Efo & Vfo). rewrite Efo. cbn [bind].
    (* the raw image *)
    set (val := fun k => func_value (mo_interp m) f e (IZR (Z.of_nat (k mod nModelColumns m) - Z.of_nat (psfCols m) + 1))
                   (IZR (Z.of_nat (k / nModelColumns m) - Z.of_nat (psfRows m) + 1))).
    assert (E1 : for2 (nModelRows m) (nModelColumns m) (fun i j v =>
      set v (i * nModelColumns m + j) (fo_value fo (pix_x NumR m j) (pix_y NumR m i))) (st_vec st1) = Ok (map val (seq 0 (nModelVals m)))).
    { destruct (@write2 R 0%R (fun i j => Ok (fo_value fo (pix_x NumR m j) (pix_y NumR m i))) (fun i j => val (i * nModelColumns m + j))
        (fun i j => i * nModelColumns m + j) (nModelRows m) (nModelColumns m) (st_vec st1)) as (v & E & L & V & _).
      - intros i j Hi Hj. f_equal. rewrite Vfo. unfold val. destruct (@rowcol_div (nModelColumns m) i j Hj) as [-> ->]. reflexivity.
      - intros i j Hi Hj. rewrite (g_vec G1). apply rowcol_lt; auto.
      - intros i j i' j' Hi Hj Hi' Hj' E. apply rowcol_inj in E; auto.
      - transitivity (Ok v).
        + rewrite <- E. reflexivity.
        + f_equal. apply (@image_ext (nModelColumns m) (nModelRows m)).
          * rewrite L. exact (g_vec G1).
          * rewrite map_length, seq_length. reflexivity.
          * intros c r Hc Hr. rewrite V by auto. rewrite nth_map_seq by (apply rowcol_lt; auto). reflexivity. }
    rewrite E1. cbn [bind].
    set (v1 := map val (seq 0 (nModelVals m))).
    assert (Fin : forall v2, length v2 = nModelVals m ->
      (forall c r, c < mo_dataCols m -> r < mo_dataRows m ->
        nth ((psfRows m + r) * nModelColumns m + (psfCols m + c)) v2 0%R = image_pixel psf (mo_interp m) [f] [e] c r) ->
      exists st' out, (do st2 <- regions_step1 NumR m idx (seen bs) (mkState v2 (st_interp st1) (st_scale st1));
        do out <- GetModelImageVector m st2; Ok (out, st2)) = Ok (out, st') /\ good m st' /\
      length out = mo_dataCols m * mo_dataRows m /\
      forall c r, c < mo_dataCols m -> r < mo_dataRows m ->
        nth (r * mo_dataCols m + c) out 0%R = image_pixel psf (mo_interp m) [f] [e] c r).
    { intros v2 L2 V2. unfold regions_step1. unfold get at 1. rewrite Ef. cbn [bind]. rewrite Hreg. cbn [bind for_ length for_from].
      destruct (@crop_ok m (mkState v2 (st_interp st1) (st_scale st1)) L2 Hw) as (out & Eo & Lo & Vo).
      rewrite Eo. cbn [bind]. do 2 eexists. split; [reflexivity|].
      split; [split; cbn; auto; [exact (g_interp G1)|exact (g_scale G1)]|]. split; [exact Lo|].
      intros c r Hc Hr. rewrite Vo by auto. now apply V2. }
    assert (Hval : forall k, val k = (xy_sum (only f) [e] extended k + xy_sum (only f) [e] is_point k)%R).
    { intros k. unfold xy_sum, only, sum_over, extended. cbn [mo_funcs mo_interp combine map]. unfold rsuml. cbn [fold_right].
      unfold val, nModelColumns, psfCols, psfRows. cbn [mo_dataCols mo_psf]. destruct (is_point f); cbn [negb]; ring. }
    assert (Lv1 : length v1 = nModelVals m) by (unfold v1; rewrite map_length, seq_length; reflexivity).
    destruct (is_point f) eqn:Hpt.
    - (* point source: not convolved *)
      assert (Hm : (match mo_psf m with Some (_, _, pl) => Ok v1 | None => Ok v1 end) = Ok v1) by (destruct (mo_psf m) as [[[? ?] ?]|]; reflexivity).
      rewrite Hm. cbn [bind]. apply Fin; auto. intros c r Hc Hr. unfold v1. rewrite nth_map_seq by (apply inside_lt; auto).
      rewrite Hval. change (psfRows m) with (psfRows (only f)). change (psfCols m) with (psfCols (only f)).
      change (nModelColumns m) with (nModelColumns (only f)). rewrite !xy_sum_inside by auto.
      cbn [only mo_interp mo_funcs].
      assert (Ez : forall x y, sum_over extended (mo_interp m) [f] [e] x y = 0%R).
      { intros x y. unfold sum_over, extended. cbn [combine map]. rewrite Hpt. cbn [negb]. unfold rsuml. cbn. ring. }
      unfold image_pixel. destruct psf as [[[p pw] ph]|].
      + rewrite Ez. f_equal. symmetry. apply rsum_zero. intros k _. apply rsum_zero. intros l _. rewrite Ez. ring.
      + rewrite sum_split by reflexivity. reflexivity.
    - (* extended function *)
      assert (Ev1 : v1 = map (xy_sum (only f) [e] extended) (seq 0 (nModelVals (only f)))).
      { unfold v1. change (nModelVals (only f)) with (nModelVals m). apply map_ext. intros k. rewrite Hval.
        unfold xy_sum at 2, only, sum_over. cbn [mo_funcs combine map]. rewrite Hpt. unfold rsuml. cbn [fold_right]. ring. }
      destruct (@convolve_step (only f) [e] psf v1 eq_refl Hp Ev1) as (v2 & E2 & L2 & V2).
      cbn [only mo_psf] in E2. rewrite E2. cbn [bind]. apply Fin; auto.
      intros c r Hc Hr. specialize (V2 c r Hc Hr).
      assert (Ez : sum_over is_point (mo_interp (only f)) (mo_funcs (only f)) [e] (INR c + 1) (INR r + 1) = 0%R).
      { apply sum_no_point. cbn [only mo_funcs existsb]. now rewrite Hpt. }
      rewrite Ez, Rplus_0_r in V2. exact V2.
  Qed.
End Exact.

(** ---- the sum of the single-function images ---- *)
Lemma sum_over_cons keep interp f fs e es x y :
  sum_over keep interp (f :: fs) (e :: es) x y = (sum_over keep interp [f] [e] x y + sum_over keep interp fs es x y)%R.
Proof. unfold sum_over. cbn [combine map]. rewrite !rsuml_cons. unfold rsuml at 2. cbn [fold_right]. ring. Qed.
Lemma image_pixel_cons psf interp f fs e es c r :
  image_pixel psf interp (f :: fs) (e :: es) c r = (image_pixel psf interp [f] [e] c r + image_pixel psf interp fs es c r)%R.
Proof.
  unfold image_pixel. destruct psf as [[[p pw] ph]|].
  - rewrite (sum_over_cons is_point).
    match goal with |- (?a + (?b + ?c) = ?d + ?e + (?g + ?h))%R => assert (a = d + g)%R; [|lra] end.
    rewrite <- rsum_plus. apply rsum_ext. intros k _. rewrite <- rsum_plus. apply rsum_ext. intros l _.
    rewrite sum_over_cons. ring.
  - apply sum_over_cons.
Qed.
Lemma image_pixel_sum psf interp d e0 c r : forall fs es, length es = length fs ->
  image_pixel psf interp fs es c r = rsum (length fs) (fun i => image_pixel psf interp [nth i fs d] [nth i es e0] c r).
Proof.
  induction fs as [|f fs IH]; intros [|e es] L; cbn in L; try discriminate.
  - unfold image_pixel, sum_over. cbn [combine map length rsum]. destruct psf as [[[p pw] ph]|]; [|reflexivity].
    unfold rsuml. cbn [fold_right]. rewrite rsum_zero; [ring|]. intros k _. apply rsum_zero. intros l _. ring.
  - rewrite image_pixel_cons, (IH es) by lia. cbn [length]. rewrite rsum_S_l. reflexivity.
Qed.
