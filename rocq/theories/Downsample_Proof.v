From Coq Require Import Reals Lra List Arith ZArith Lia Bool.
From Verif Require Import Base Num Sums Downsample_Model Downsample_Spec.
Set Implicit Arguments.
Unset Strict Implicit.

Lemma forZ_nat {S} lo n f (s : S) : forZ lo (lo + Z.of_nat n) f s = for_ n (fun k s => f (lo + Z.of_nat k)%Z s) s.
Proof. unfold forZ. replace (Z.to_nat (lo + Z.of_nat n - lo)) with n by lia. reflexivity. Qed.

Lemma for_rsum n (f : nat -> R -> res R) v : (forall k a, k < n -> f k a = Ok (a + v k)%R) ->
  forall a, for_ n f a = Ok (a + rsum n v)%R.
Proof.
  induction n as [|n IH]; intros H a.
  - unfold for_; simpl. f_equal. ring.
  - rewrite for_S, IH by (intros; apply H; lia). simpl. rewrite H by lia. f_equal. ring.
Qed.

Lemma getZ_pix img w c r : r * w + c < length img ->
  getZ img (Z.of_nat r * Z.of_nat w + Z.of_nat c) = Ok (pix img w c r).
Proof.
  intros H. unfold getZ. destruct (Z.ltb_spec (Z.of_nat r * Z.of_nat w + Z.of_nat c) 0); [lia|].
  replace (Z.to_nat (Z.of_nat r * Z.of_nat w + Z.of_nat c)) with (r * w + c) by lia.
  apply get_nth. exact H.
Qed.

Lemma pix_upd img w c r c' r' v : c < w -> c' < w -> r * w + c < length img ->
  pix (upd img (r * w + c) v) w c' r' = if (c =? c') && (r =? r') then v else pix img w c' r'.
Proof.
  intros Hc Hc' HL. unfold pix.
  pose proof (nth_error_upd img (r * w + c) v (r' * w + c')) as E.
  apply Nat.ltb_lt in HL. rewrite HL, andb_true_r in E.
  destruct ((c =? c') && (r =? r')) eqn:B.
  - apply andb_true_iff in B. destruct B as [B1 B2]. apply Nat.eqb_eq in B1, B2. subst.
    rewrite Nat.eqb_refl in E. now rewrite (nth_error_nth _ _ _ E).
  - destruct (r * w + c =? r' * w + c') eqn:X.
    + apply Nat.eqb_eq in X. destruct (rowcol_inj _ _ _ _ _ Hc Hc' X). subst.
      rewrite !Nat.eqb_refl in B. discriminate.
    + destruct (nth_error img (r' * w + c')) eqn:Y.
      * now rewrite (nth_error_nth _ _ _ E), (nth_error_nth _ _ _ Y).
      * apply nth_error_None in E, Y. rewrite !nth_overflow; auto.
Qed.

Ltac nb := repeat (match goal with
  | |- context[?a <=? ?b] => destruct (Nat.leb_spec a b)
  | |- context [?a <? ?b] => destruct (Nat.ltb_spec a b)
  | |- context[?a =? ?b] => destruct (Nat.eqb_spec a b) end); simpl; try lia; auto.

Section D.
  Variables (over main : list R) (pc pr nc nr s : nat) (mc mr mpc mpr sx sy : nat).
  Let oc := (2 * pc + s * nc).
  Let orr := (2 * pr + s * nr).
  Hypothesis Hs : 1 <= s.
  Hypothesis Hover : length over = oc * orr.
  Hypothesis Hmain : length main = mc * mr.
  Hypothesis Hsq : oc = orr.
  Hypothesis Hcols : sx + mpc + nc <= mc.
  Hypothesis Hrows : sy + mpr + nr <= mr.

  Let val (c r : nat) : R := block_mean over oc s (pc + c * s) (pr + r * s).

  Lemma flux_ok c r : c < nc -> r < nr ->
    forZ (Z.of_nat r * Z.of_nat s + Z.of_nat pr) (Z.of_nat r * Z.of_nat s + Z.of_nat pr + Z.of_nat s)
      (fun ii acc =>
        forZ (Z.of_nat c * Z.of_nat s + Z.of_nat pc) (Z.of_nat c * Z.of_nat s + Z.of_nat pc + Z.of_nat s)
         (fun jj acc => do v <- getZ over (ii * Z.of_nat oc + jj)%Z; Ok (Rplus acc v)) acc) 0%R
    = Ok (rsum s (fun a => rsum s (fun b => pix over oc (pc + c * s + b) (pr + r * s + a)))).
  Proof.
    intros Hc Hr. rewrite forZ_nat.
    rewrite (@for_rsum s _ (fun a => rsum s (fun b => pix over oc (pc + c * s + b) (pr + r * s + a)))).
    { f_equal. ring. }
    intros a acc Ha. rewrite forZ_nat.
    apply for_rsum. intros b acc' Hb.
    assert (c * s + s <= s * nc) by nia. assert (r * s + s <= s * nr) by nia.
    replace (Z.of_nat c * Z.of_nat s + Z.of_nat pc + Z.of_nat b)%Z with (Z.of_nat (pc + c * s + b)) by lia.
    replace (Z.of_nat r * Z.of_nat s + Z.of_nat pr + Z.of_nat a)%Z with (Z.of_nat (pr + r * s + a)) by lia.
    rewrite getZ_pix; [reflexivity|]. rewrite Hover. apply rowcol_lt; unfold oc, orr; lia.
  Qed.

  Lemma quot_exact a b : (1 <= b)%Z -> Z.quot (b * a) b = a.
  Proof. intros Hb. rewrite Z.mul_comm. apply Z.quot_mul. lia. Qed.

  (** state after [i] complete rows and [j] pixels of row [i] *)
  Definition prog (i j : nat) (img : list R) : Prop :=
    length img = mc * mr /\
    forall c r, c < mc -> r < mr -> pix img mc c r =
      if (sx + mpc <=? c) && (sy + mpr <=? r) && (c <? sx + mpc + nc) &&
         ((r <? sy + mpr + i) || ((r =? sy + mpr + i) && (c <? sx + mpc + j)))
      then val (c - (sx + mpc)) (r - (sy + mpr)) else pix main mc c r.

  Lemma downsample_ok :
    exists img, DownsampleAndReplace NumR over (Z.of_nat oc) (Z.of_nat orr) (Z.of_nat pc) (Z.of_nat pr)
        main (Z.of_nat mc) (Z.of_nat mr) (Z.of_nat mpc) (Z.of_nat mpr) (Z.of_nat sx + 1) (Z.of_nat sy + 1) (Z.of_nat s)
      = Ok img /\ replaced main img mc mr (sx + mpc) (sy + mpr) nc nr val.
  Proof.
    unfold DownsampleAndReplace.
    destruct (Z.eqb_spec (Z.of_nat s) 0) as [E|_]; [lia|].
    assert (Ec : (Z.quot (Z.of_nat oc - 2 * Z.of_nat pc) (Z.of_nat s) = Z.of_nat nc)%Z).
    { replace (Z.of_nat oc - 2 * Z.of_nat pc)%Z with (Z.of_nat s * Z.of_nat nc)%Z by (unfold oc; lia).
      apply quot_exact. lia. }
    assert (Er : (Z.quot (Z.of_nat oc - 2 * Z.of_nat pr) (Z.of_nat s) = Z.of_nat nr)%Z).
    { rewrite Hsq. replace (Z.of_nat orr - 2 * Z.of_nat pr)%Z with (Z.of_nat s * Z.of_nat nr)%Z by (unfold orr; lia).
      apply quot_exact. lia. }
    rewrite Ec, Er.
    rewrite forZ_nat.
    destruct (@for_inv (list R) (fun i img => prog i 0 img)
      (fun k img => forZ (Z.of_nat sx + 1 - 1 + Z.of_nat mpc) (Z.of_nat sx + 1 - 1 + Z.of_nat mpc + Z.of_nat nc) (fun j img =>
        let j_sub := (j - (Z.of_nat sx + 1 - 1 + Z.of_nat mpc))%Z in
        let i_sub := (Z.of_nat sy + 1 - 1 + Z.of_nat mpr + Z.of_nat k - (Z.of_nat sy + 1 - 1 + Z.of_nat mpr))%Z in
        let jj1 := (j_sub * Z.of_nat s + Z.of_nat pc)%Z in
        let ii1 := (i_sub * Z.of_nat s + Z.of_nat pr)%Z in
        do binnedFlux <-
         forZ ii1 (ii1 + Z.of_nat s)%Z (fun ii acc =>
           forZ jj1 (jj1 + Z.of_nat s)%Z (fun jj acc =>
            do v <- getZ over (ii * Z.of_nat oc + jj)%Z; Ok (Rplus acc v)) acc) 0%R;
        setZ img ((Z.of_nat sy + 1 - 1 + Z.of_nat mpr + Z.of_nat k) * Z.of_nat mc + j)%Z
          (Rdiv binnedFlux (IZR (Z.of_nat s * Z.of_nat s)))) img) nr main) as (img & Eimg & HP).
    - split; auto. intros c r Hc Hr. nb.
    - intros i img0 Hi H0. rewrite forZ_nat.
      destruct (@for_inv (list R) (fun j img => prog i j img)
        (fun k img => 
        let j_sub := (Z.of_nat sx + 1 - 1 + Z.of_nat mpc + Z.of_nat k - (Z.of_nat sx + 1 - 1 + Z.of_nat mpc))%Z in
        let i_sub := (Z.of_nat sy + 1 - 1 + Z.of_nat mpr + Z.of_nat i - (Z.of_nat sy + 1 - 1 + Z.of_nat mpr))%Z in
        let jj1 := (j_sub * Z.of_nat s + Z.of_nat pc)%Z in
        let ii1 := (i_sub * Z.of_nat s + Z.of_nat pr)%Z in
        do binnedFlux <-
         forZ ii1 (ii1 + Z.of_nat s)%Z (fun ii acc =>
           forZ jj1 (jj1 + Z.of_nat s)%Z (fun jj acc =>
            do v <- getZ over (ii * Z.of_nat oc + jj)%Z; Ok (Rplus acc v)) acc) 0%R;
        setZ img ((Z.of_nat sy + 1 - 1 + Z.of_nat mpr + Z.of_nat i) * Z.of_nat mc + (Z.of_nat sx + 1 - 1 + Z.of_nat mpc + Z.of_nat k))%Z
          (Rdiv binnedFlux (IZR (Z.of_nat s * Z.of_nat s)))) nc img0 H0) as (img1 & E1 & H1).
      + intros j img Hj [HL HP]. cbv zeta.
        replace (Z.of_nat sx + 1 - 1 + Z.of_nat mpc + Z.of_nat j - (Z.of_nat sx + 1 - 1 + Z.of_nat mpc))%Z with (Z.of_nat j) by lia.
        replace (Z.of_nat sy + 1 - 1 + Z.of_nat mpr + Z.of_nat i - (Z.of_nat sy + 1 - 1 + Z.of_nat mpr))%Z with (Z.of_nat i) by lia.
        rewrite (flux_ok Hj Hi). cbn [bind].
        set (v := Rdiv _ _).
        assert (Hlt : (sy + mpr + i) * mc + (sx + mpc + j) < length img).
        { rewrite HL. apply rowcol_lt; lia. }
        assert (Es : setZ img ((Z.of_nat sy + 1 - 1 + Z.of_nat mpr + Z.of_nat i) * Z.of_nat mc + (Z.of_nat sx + 1 - 1 + Z.of_nat mpc + Z.of_nat j))%Z v
                     = Ok (upd img ((sy + mpr + i) * mc + (sx + mpc + j)) v)).
        { unfold setZ.
          replace ((Z.of_nat sy + 1 - 1 + Z.of_nat mpr + Z.of_nat i) * Z.of_nat mc + (Z.of_nat sx + 1 - 1 + Z.of_nat mpc + Z.of_nat j))%Z
            with (Z.of_nat ((sy + mpr + i) * mc + (sx + mpc + j))) by lia.
          destruct (Z.ltb_spec (Z.of_nat ((sy + mpr + i) * mc + (sx + mpc + j))) 0); [lia|].
          rewrite Nat2Z.id. now apply set_lt. }
        exists (upd img ((sy + mpr + i) * mc + (sx + mpc + j)) v). split; auto.
        split; [now rewrite upd_length|].
        intros c r Hc Hr. rewrite pix_upd by (auto; lia).
        destruct ((sx + mpc + j =? c) && (sy + mpr + i =? r)) eqn:B.
        * apply andb_true_iff in B. destruct B as [B1 B2]. apply Nat.eqb_eq in B1, B2. subst c r.
          nb. unfold v, val, block_mean.
          replace (sx + mpc + j - (sx + mpc)) with j by lia. replace (sy + mpr + i - (sy + mpr)) with i by lia.
          f_equal. rewrite mult_IZR, !INR_IZR_INZ. reflexivity.
        * rewrite HP by auto. apply andb_false_iff in B. rewrite !Nat.eqb_neq in B. nb.
      + exists img1. split; [exact E1|]. destruct H1 as [HL HP]. split; auto.
        intros c r Hc Hr. rewrite HP by auto. nb.
    - exists img. split; [exact Eimg|]. destruct HP as [HL HP]. split; [now rewrite HL, Hmain|].
      intros c r Hc Hr. rewrite HP by auto. nb.
  Qed.
End D.

(** ---- oversampled regions ---- *)
Local Open Scope R_scope.

Lemma kahan_exact fs sel x y :
  kahan_sum NumR fs sel x y = rsuml (map (fun f => fo_value f x y) (filter (fun f => Bool.eqb (fo_point f) sel) fs)).
Proof.
  unfold kahan_sum.
  enough (H : forall fs a, fold_left (fun '(newValSum, storedError) (f : fobj R) =>
         if Bool.eqb (fo_point f) sel then
           let adjVal := nsub NumR (fo_value f x y) storedError in
           let tempSum := nadd NumR newValSum adjVal in
           (tempSum, nsub NumR (nsub NumR tempSum newValSum) adjVal)
         else (newValSum, storedError)) fs (a, 0) =
         (a + rsuml (map (fun f => fo_value f x y) (filter (fun f => Bool.eqb (fo_point f) sel) fs)), 0)).
  { cbn [nofZ NumR]. rewrite H. simpl. ring. }
  clear fs. induction fs as [|f fs IH]; intros a.
  - simpl. unfold rsuml; simpl. f_equal. ring.
  - cbn [fold_left filter]. destruct (Bool.eqb (fo_point f) sel).
    + cbn [nsub nadd NumR].
      replace (a + (fo_value f x y - 0) - a - (fo_value f x y - 0)) with 0 by ring.
      rewrite IH. cbn [map]. unfold rsuml. cbn [fold_right]. f_equal. ring.
    + apply IH.
Qed.

Section Reg.
  Variables (psf : option (nat * nat)) (x1 y1 : Z) (nc nr mc mr mpc mpr s : nat).
  Let psfZ := option_map (fun '(a, b) => (Z.of_nat a, Z.of_nat b)) psf.
  Let pc := match psf with Some (a, _) => a | None => O end.
  Let pr := match psf with Some (_, b) => b | None => O end.

  Lemma setup_region_ok r :
    SetupModelImage NumR psfZ x1 y1 (Z.of_nat nc) (Z.of_nat nr) (Z.of_nat mc) (Z.of_nat mr)
      (Z.of_nat mpc) (Z.of_nat mpr) (Z.of_nat s) = Ok r ->
    (1 <= nc)%nat /\ (1 <= nr)%nat /\ (1 <= s)%nat /\
    r = mkRegion x1 y1 (Z.of_nat mc) (Z.of_nat mr) (Z.of_nat mpc) (Z.of_nat mpr) (Z.of_nat s)
       (1 / INR s) (1 / 2 * (1 / INR s) - 1 / 2) (1 / 2 * (1 / INR s) - 1 / 2)
       (Z.of_nat pc) (Z.of_nat pr) (match psf with Some _ => true | None => false end)
       (Z.of_nat (2 * pc + s * nc)) (Z.of_nat (2 * pr + s * nr)).
  Proof.
    unfold SetupModelImage. destruct (_ && _) eqn:B; [|discriminate].
    rewrite !andb_true_iff, !Z.leb_le in B. destruct B as ((((((B1 & B2) & B3) & B4) & B5) & B6) & B7).
    unfold psfZ, pc, pr. intros E. split; [lia|]. split; [lia|]. split; [lia|].
    destruct psf as [[a b]|]; cbn [option_map] in E; apply Ok_inj in E; subst r; cbn [ndiv nofZ nsub nmul ndec NumR];
      rewrite <- INR_IZR_INZ; f_equal; try lia; change (10 ^ 1)%Z with 10%Z; lra.
  Qed.

  Lemma subpixel_coord r c b :
    SetupModelImage NumR psfZ x1 y1 (Z.of_nat nc) (Z.of_nat nr) (Z.of_nat mc) (Z.of_nat mr)
      (Z.of_nat mpc) (Z.of_nat mpr) (Z.of_nat s) = Ok r ->
    reg_x NumR r (Z.of_nat (pc + c * s + b)) = IZR x1 + INR c - 1 / 2 + (INR b + 1 / 2) / INR s /\
    reg_y NumR r (Z.of_nat (pr + c * s + b)) = IZR y1 + INR c - 1 / 2 + (INR b + 1 / 2) / INR s.
  Proof.
    intros H. destruct (setup_region_ok H) as (_ & _ & Hs & ->).
    assert (0 < INR s) by (apply lt_0_INR; lia).
    unfold reg_x, reg_y. cbn [rg_x1 rg_y1 rg_startX rg_startY rg_nPSFCols rg_nPSFRows rg_subpixFrac nadd nofZ nmul NumR].
    split.
    - replace (Z.of_nat (pc + c * s + b) - Z.of_nat pc)%Z with (Z.of_nat (c * s + b)) by lia.
      rewrite <- (INR_IZR_INZ (c * s + b)), plus_INR, mult_INR. field. lra.
    - replace (Z.of_nat (pr + c * s + b) - Z.of_nat pr)%Z with (Z.of_nat (c * s + b)) by lia.
      rewrite <- (INR_IZR_INZ (c * s + b)), plus_INR, mult_INR. field. lra.
  Qed.
End Reg.

Lemma mean_subpixels s x : (1 <= s)%nat ->
  rsum s (fun b => x - 1 / 2 + (INR b + 1 / 2) / INR s) / INR s = x.
Proof.
  intros Hs. assert (0 < INR s) by (apply lt_0_INR; lia).
  assert (G : forall n, rsum n (fun b => INR b) = INR n * (INR n - 1) / 2).
  { induction n as [|n IH]; [simpl; field|]. rewrite S_INR. simpl rsum. rewrite IH. field. }
  rewrite (@rsum_ext _ _ (fun b => (x - 1 / 2 + / 2 / INR s) + INR b * (/ INR s))).
  2:{ intros; field; lra. }
  rewrite rsum_plus, rsum_const, rsum_scal_r, G. field. lra.
Qed.

Lemma subpixels_ok psf x1 y1 nc nr mc mr mpc mpr s r :
  SetupModelImage NumR (option_map (fun '(a, b) => (Z.of_nat a, Z.of_nat b)) psf) x1 y1
    (Z.of_nat nc) (Z.of_nat nr) (Z.of_nat mc) (Z.of_nat mr) (Z.of_nat mpc) (Z.of_nat mpr) (Z.of_nat s) = Ok r ->
  let pc := match psf with Some (a, _) => a | None => O end in
  let pr := match psf with Some (_, b) => b | None => O end in
  (forall c b,
    (reg_x NumR r (Z.of_nat (pc + c * s + b)) - 1 / 2 / INR s = (IZR x1 + INR c - 1 / 2) + INR b / INR s)%R /\
    (reg_y NumR r (Z.of_nat (pr + c * s + b)) - 1 / 2 / INR s = (IZR y1 + INR c - 1 / 2) + INR b / INR s)%R) /\
  (forall c,
    (rsum s (fun b => reg_x NumR r (Z.of_nat (pc + c * s + b))) / INR s = IZR x1 + INR c)%R /\
    (rsum s (fun b => reg_y NumR r (Z.of_nat (pr + c * s + b))) / INR s = IZR y1 + INR c)%R) /\
  (forall c b, (b < s)%nat ->
    (IZR x1 + INR c - 1 / 2 < reg_x NumR r (Z.of_nat (pc + c * s + b)) < IZR x1 + INR c + 1 / 2)%R /\
    (IZR y1 + INR c - 1 / 2 < reg_y NumR r (Z.of_nat (pr + c * s + b)) < IZR y1 + INR c + 1 / 2)%R).
Proof.
  intros H pc pr.
  pose proof (fun c b => @subpixel_coord psf x1 y1 nc nr mc mr mpc mpr s r c b H) as Hco.
  destruct (@setup_region_ok psf x1 y1 nc nr mc mr mpc mpr s r H) as (_ & _ & Hs & _).
  fold pc pr in Hco.
  assert (Hp : 0 < INR s) by (apply lt_0_INR; lia).
  split; [|split].
  - intros c b. destruct (Hco c b) as [-> ->]. split; field; lra.
  - intros c. split.
    + rewrite (@rsum_ext _ _ (fun b => (IZR x1 + INR c) - 1 / 2 + (INR b + 1 / 2) / INR s)); [apply mean_subpixels; auto|].
      intros b _. exact (proj1 (Hco c b)).
    + rewrite (@rsum_ext _ _ (fun b => (IZR y1 + INR c) - 1 / 2 + (INR b + 1 / 2) / INR s)); [apply mean_subpixels; auto|].
      intros b _. exact (proj2 (Hco c b)).
  - intros c b Hb. destruct (Hco c b) as [-> ->].
    assert (0 < (INR b + 1 / 2) / INR s < 1).
    { pose proof (pos_INR b). assert (INR b + 1 <= INR s) by (rewrite <- S_INR; apply le_INR; lia). split.
      - apply Rdiv_lt_0_compat; lra.
      - apply Rmult_lt_reg_r with (INR s); [lra|]. unfold Rdiv. rewrite Rmult_assoc, Rinv_l by lra. lra. }
    lra.
Qed.


Lemma nth_map_seq {A} (f : nat -> A) n d i : (i < n)%nat -> nth i (map f (seq 0 n)) d = f i.
Proof.
  intros H. rewrite (nth_indep _ d (f O)) by now rewrite map_length, seq_length.
  rewrite map_nth, seq_nth; auto.
Qed.

Lemma combine_map_seq {A B} (g : nat -> A) (h : nat * A -> B) n : forall k,
  map h (combine (seq k n) (map g (seq k n))) = map (fun i => h (i, g i)) (seq k n).
Proof. induction n as [|n IH]; intros k; simpl; auto. now rewrite IH. Qed.

Lemma region_noconv_ok x1 y1 nb mc mr mpc mpr s r (conv : list R -> list R) fs pts main :
  SetupModelImage NumR None x1 y1 (Z.of_nat nb) (Z.of_nat nb) (Z.of_nat mc) (Z.of_nat mr)
      (Z.of_nat mpc) (Z.of_nat mpr) (Z.of_nat s) = Ok r ->
  length main = (mc * mr)%nat ->
  (1 <= x1)%Z -> (1 <= y1)%Z ->
  (x1 - 1 + Z.of_nat (mpc + nb) <= Z.of_nat mc)%Z -> (y1 - 1 + Z.of_nat (mpr + nb) <= Z.of_nat mr)%Z ->
  exists img, ComputeRegionAndDownsample NumR r conv fs pts main = Ok img /\
    replaced main img mc mr (Z.to_nat (x1 - 1) + mpc) (Z.to_nat (y1 - 1) + mpr) nb nb
     (fun c q => rsum s (fun a => rsum s (fun b =>
        total_at fs pts (IZR x1 + INR c - 1 / 2 + (INR b + 1 / 2) / INR s) (IZR y1 + INR q - 1 / 2 + (INR a + 1 / 2) / INR s)))
        / (INR s * INR s)).
Proof.
  intros HS Hm Hx Hy HX HY.
  pose proof (fun c b => @subpixel_coord None x1 y1 nb nb mc mr mpc mpr s r c b HS) as Hco.
  destruct (@setup_region_ok None x1 y1 nb nb mc mr mpc mpr s r HS) as (Hn & _ & Hs & Er).
  cbn [Nat.mul Nat.add] in Er.
  unfold ComputeRegionAndDownsample.
  set (g := fun k : nat => kahan_sum NumR fs false (reg_x NumR r (Z.rem (Z.of_nat k) (rg_modelCols r)))
                              (reg_y NumR r (Z.quot (Z.of_nat k) (rg_modelCols r)))).
  set (p := fun k : nat => kahan_sum NumR pts true (reg_x NumR r (Z.rem (Z.of_nat k) (rg_modelCols r)))
                              (reg_y NumR r (Z.quot (Z.of_nat k) (rg_modelCols r)))).
  assert (Ecv : rg_doConv r = false) by (rewrite Er; reflexivity). rewrite Ecv.
  assert (Ecol : rg_modelCols r = Z.of_nat (s * nb)) by (rewrite Er; reflexivity).
  assert (Erow : rg_modelRows r = Z.of_nat (s * nb)) by (rewrite Er; reflexivity).
  set (nv := Z.to_nat (rg_modelCols r * rg_modelRows r)).
  assert (Env : nv = (s * nb * (s * nb))%nat) by (unfold nv; rewrite Ecol, Erow; lia).
  assert (Ec : map (fun '(k, v) => nadd NumR v
       (kahan_sum NumR pts true (reg_x NumR r (Z.rem (Z.of_nat k) (rg_modelCols r))) (reg_y NumR r (Z.quot (Z.of_nat k) (rg_modelCols r)))))
       (combine (seq 0 nv) (map g (seq 0 nv))) = map (fun k => g k + p k) (seq 0 nv)).
  { rewrite (combine_map_seq g (fun '(k, v) => nadd NumR v
       (kahan_sum NumR pts true (reg_x NumR r (Z.rem (Z.of_nat k) (rg_modelCols r))) (reg_y NumR r (Z.quot (Z.of_nat k) (rg_modelCols r))))) nv 0).
    apply map_ext. intros k. reflexivity. }
  cbv zeta. fold g. fold nv. 
  match goal with |- context [DownsampleAndReplace _ ?x] => replace x with (map (fun k => g k + p k) (seq 0 nv)) by (symmetry; exact Ec) end.
  set (over := map (fun k => g k + p k) (seq 0 nv)).
  assert (Lo : length over = (s * nb * (s * nb))%nat) by (unfold over; rewrite map_length, seq_length; exact Env).
  destruct (@downsample_ok over main 0 0 nb nb s mc mr mpc mpr (Z.to_nat (x1 - 1)) (Z.to_nat (y1 - 1)) Hs Lo Hm eq_refl
             ltac:(lia) ltac:(lia)) as (img & Eimg & Himg).
  exists img. split.
  - rewrite <- Eimg. rewrite Er. cbn [rg_modelCols rg_modelRows rg_nPSFCols rg_nPSFRows rg_mainCols rg_mainRows rg_mainPSFCols rg_mainPSFRows rg_x1 rg_y1 rg_scale].
    rewrite !Z2Nat.id by lia. replace (x1 - 1 + 1)%Z with x1 by lia. replace (y1 - 1 + 1)%Z with y1 by lia. reflexivity.
  - destruct Himg as [HL HP]. split; auto. intros c q Hc Hq. rewrite HP by auto.
    destruct ((_ && _) && (_ && _))%bool eqn:B; auto.
    rewrite !andb_true_iff, !Nat.leb_le, !Nat.ltb_lt in B. destruct B as ((B1 & B2) & (B3 & B4)).
    set (c' := (c - _)%nat). set (q' := (q - _)%nat).
    assert (Hc' : (c' < nb)%nat) by (unfold c'; lia). assert (Hq' : (q' < nb)%nat) by (unfold q'; lia).
    unfold block_mean. f_equal. apply rsum_ext. intros a Ha. apply rsum_ext. intros b Hb.
    cbn [Nat.mul Nat.add]. unfold pix.
    assert (Hb1 : (c' * s + b < s * nb)%nat) by nia. assert (Ha1 : (q' * s + a < s * nb)%nat) by nia.
    unfold over. rewrite nth_map_seq by (rewrite Env; apply rowcol_lt; auto).
    unfold g, p. rewrite !kahan_exact. unfold total_at. rewrite !Ecol.
    rewrite (@filter_ext _ (fun f => Bool.eqb (fo_point f) false) (fun f => negb (fo_point f))) by (intros f; destruct (fo_point f); reflexivity).
    rewrite (@filter_ext _ (fun f => Bool.eqb (fo_point f) true) (fun f => fo_point f)) by (intros f; destruct (fo_point f); reflexivity).
    assert (Eq : Z.quot (Z.of_nat ((q' * s + a) * (s * nb) + (c' * s + b))) (Z.of_nat (s * nb)) = Z.of_nat (q' * s + a)).
    { rewrite Z.quot_div_nonneg by lia. rewrite <- Nat2Z.inj_div.
      now rewrite (proj1 (rowcol_div _ (q' * s + a) _ Hb1)). }
    assert (Em : Z.rem (Z.of_nat ((q' * s + a) * (s * nb) + (c' * s + b))) (Z.of_nat (s * nb)) = Z.of_nat (c' * s + b)).
    { rewrite Z.rem_mod_nonneg by lia. rewrite <- Nat2Z.inj_mod.
      now rewrite (proj2 (rowcol_div _ (q' * s + a) _ Hb1)). }
    rewrite Eq, Em.
    destruct (Hco c' b) as [X _]. destruct (Hco q' a) as [_ Y]. cbn [Nat.add] in X, Y. rewrite X, Y. reflexivity.
Qed.
