(** Proofs about the convolver model: with an exact DFT it computes the zero-padded
    linear convolution. *)
From Coq Require Import Reals Lra List Arith ZArith Lia Bool.
From Coquelicot Require Import Complex.
From Verif Require Import Base Num Sums LM_QR Conv_Model Conv_Spec Dft.
Import ListNotations.
Set Implicit Arguments.
Unset Strict Implicit.
Local Open Scope nat_scope.

(** ---- image-shaped loops that write each element once ---- *)
Lemma write1 {A} (d : A) (g : nat -> res A) (val : nat -> A) (dest : nat -> nat) n (a0 : list A) :
  (forall j, j < n -> g j = Ok (val j)) ->
  (forall j, j < n -> dest j < length a0) ->
  (forall j j', j < n -> j' < n -> dest j = dest j' -> j = j') ->
  exists a, for_ n (fun j a => do v <- g j; set a (dest j) v) a0 = Ok a /\ length a = length a0 /\
    (forall j, j < n -> nth (dest j) a d = val j) /\
    (forall x, (forall j, j < n -> x <> dest j) -> nth x a d = nth x a0 d).
Proof.
  intros Hg Hd Hi.
  destruct (@for_inv (list A) (fun k a => length a = length a0 /\
    (forall j, j < k -> nth (dest j) a d = val j) /\
    (forall x, (forall j, j < k -> x <> dest j) -> nth x a d = nth x a0 d))
    (fun j a => do v <- g j; set a (dest j) v) n a0) as (a & E & L & V & O).
  - split; [reflexivity|split; [intros; lia|auto]].
  - intros k a Hk (L & V & O). rewrite Hg by auto. cbn [bind]. rewrite set_lt by (rewrite L; auto).
    eexists; split; [reflexivity|]. rewrite upd_length. split; [exact L|]. split.
    + intros j Hj. rewrite nth_upd. destruct (Nat.eqb_spec (dest k) (dest j)) as [Ed|Ed].
      * apply Hi in Ed; try lia. subst j. assert (dest k <? length a = true) as -> by (apply Nat.ltb_lt; rewrite L; auto). reflexivity.
      * cbn [andb]. apply V. destruct (Nat.eq_dec j k); [congruence|lia].
    + intros x Hx. rewrite nth_upd. destruct (Nat.eqb_spec (dest k) x) as [Ed|Ed].
      * exfalso. apply (Hx k); auto.
      * cbn [andb]. apply O. intros j Hj. apply Hx. lia.
  - exists a. auto.
Qed.
Lemma write2 {A} (d : A) (g : nat -> nat -> res A) (val : nat -> nat -> A) (dest : nat -> nat -> nat) n m (a0 : list A) :
  (forall i j, i < n -> j < m -> g i j = Ok (val i j)) ->
  (forall i j, i < n -> j < m -> dest i j < length a0) ->
  (forall i j i' j', i < n -> j < m -> i' < n -> j' < m -> dest i j = dest i' j' -> i = i' /\ j = j') ->
  exists a, for2 n m (fun i j a => do v <- g i j; set a (dest i j) v) a0 = Ok a /\ length a = length a0 /\
    (forall i j, i < n -> j < m -> nth (dest i j) a d = val i j) /\
    (forall x, (forall i j, i < n -> j < m -> x <> dest i j) -> nth x a d = nth x a0 d).
Proof.
  intros Hg Hd Hi. unfold for2.
  destruct (@for_inv (list A) (fun k a => length a = length a0 /\
    (forall i j, i < k -> j < m -> nth (dest i j) a d = val i j) /\
    (forall x, (forall i j, i < k -> j < m -> x <> dest i j) -> nth x a d = nth x a0 d))
    (fun i a => for_ m (fun j a => do v <- g i j; set a (dest i j) v) a) n a0) as (a & E & L & V & O).
  - split; [reflexivity|split; [intros; lia|auto]].
  - intros k a Hk (L & V & O).
    destruct (@write1 A d (g k) (val k) (dest k) m a) as (b & E & Lb & Vb & Ob).
    + intros; apply Hg; auto.
    + intros; rewrite L; apply Hd; auto.
    + intros j j' Hj Hj' Ed. apply Hi in Ed; tauto.
    + exists b. split; [exact E|]. split; [congruence|]. split.
      * intros i j Hik Hj. destruct (Nat.eq_dec i k) as [->|Hne]; [apply Vb; auto|].
        rewrite Ob; [apply V; auto; lia|]. intros j' Hj' Ed. apply Hi in Ed; try lia. 
      * intros x Hx. rewrite Ob; [apply O; intros; apply Hx; lia|]. intros j Hj. apply Hx; lia.
  - exists a. auto.
Qed.

(** ---- reindexing a sum whose terms vanish off the range of an injection ---- *)
Lemma rsum_reindex n m (dest : nat -> nat) (f : nat -> R) :
  (forall k, k < m -> dest k < n) ->
  (forall k k', k < m -> k' < m -> dest k = dest k' -> k = k') ->
  (forall i, i < n -> (forall k, k < m -> i <> dest k) -> f i = 0%R) ->
  rsum n f = rsum m (fun k => f (dest k)).
Proof.
  intros Hd Hi H0.
  transitivity (rsum n (fun i => rsum m (fun k => if i =? dest k then f (dest k) else 0%R))).
  - apply rsum_ext. intros i Hin.
    assert (Dec : (exists k, k < m /\ i = dest k) \/ (forall k, k < m -> i <> dest k)).
    { clear -i. induction m as [|m IH].
      - right. intros; lia.
      - destruct IH as [(k & Hk & E)|H]; [left; exists k; split; auto|].
        destruct (Nat.eq_dec i (dest m)); [left; exists m; auto|right]. intros k Hk.
        destruct (Nat.eq_dec k m); [subst; auto|apply H; lia]. }
    destruct Dec as [(k & Hk & ->)|H].
    + rewrite (@rsum_single m k); [now rewrite Nat.eqb_refl|exact Hk|].
      intros k' Hk' Hne. destruct (Nat.eqb_spec (dest k) (dest k')) as [E|E]; [|reflexivity].
      exfalso. apply Hne. apply Hi; auto.
    + rewrite H0 by auto. symmetry. apply rsum_zero. intros k Hk.
      destruct (Nat.eqb_spec i (dest k)) as [E|E]; auto. exfalso. apply (H k); auto.
  - rewrite rsum_swap. apply rsum_ext. intros k Hk.
    rewrite (@rsum_single n (dest k)); auto; [now rewrite Nat.eqb_refl|].
    intros i _ Hne. apply Nat.eqb_neq in Hne. now rewrite Hne.
Qed.

(** ---- Kahan summation is exact in exact arithmetic ---- *)
Lemma kahan_total_ok n v : n <= length v -> kahan_total NumR n v = Ok (rsum n (fun k => nth k v 0%R)).
Proof.
  intros H. unfold kahan_total.
  match goal with |- context [for_ n ?f ?s0] =>
    destruct (@for_inv (R * R) (fun k s => s = (rsum k (fun k => nth k v 0%R), 0%R)) f n s0) as (s & E & ->) end.
  - reflexivity.
  - intros k s Hk ->. rewrite (@get_nth R 0%R) by lia. cbn [bind]. eexists; split; [reflexivity|].
    cbn [rsum nadd nsub NumR]. f_equal; ring.
  - rewrite E. reflexivity.
Qed.
Lemma NormalizePSF_ok v : NormalizePSF NumR (length v) v = Ok (map (fun x => (x / total v)%R) v).
Proof.
  unfold NormalizePSF. rewrite kahan_total_ok by lia. cbn [bind]. fold (total v).
  destruct (@for_inv (list R) (fun k s => s = map (fun x => (x / total v)%R) (firstn k v) ++ skipn k v)
    (fun k v0 => do x <- get v0 k; set v0 k (ndiv NumR x (total v))) (length v) v) as (s & E & ->).
  - reflexivity.
  - intros k s Hk ->.
    assert (L : length (map (fun x => (x / total v)%R) (firstn k v)) = k) by (rewrite map_length, firstn_length; lia).
    destruct (skipn k v) as [|x rest] eqn:Ek.
    { assert (length (skipn k v) = 0) by now rewrite Ek. rewrite skipn_length in H. lia. }
    assert (Hx : nth_error v k = Some x).
    { rewrite <- (firstn_skipn k v), Ek, nth_error_app2; rewrite firstn_length; [|lia].
      replace (k - Nat.min k (length v)) with 0 by lia. reflexivity. }
    unfold get. rewrite nth_error_app2, L, Nat.sub_diag by lia. cbn [nth_error bind].
    rewrite set_lt by (rewrite app_length; simpl; lia). eexists; split; [reflexivity|].
    assert (S1 : firstn (S k) v = firstn k v ++ [x]).
    { rewrite <- (firstn_skipn k v) at 1. rewrite Ek. rewrite firstn_app, firstn_firstn, firstn_length.
      replace (Nat.min (S k) k) with k by lia. replace (S k - Nat.min k (length v)) with 1 by lia. reflexivity. }
    assert (S2 : skipn (S k) v = rest).
    { clear -Ek. revert k Ek. induction v as [|y v IH]; intros [|k] Ek; cbn [skipn] in *; try discriminate.
      - now injection Ek.
      - apply IH in Ek. exact Ek. }
    rewrite S1, S2, map_app. cbn [map]. rewrite <- app_assoc. cbn [app].
    set (l1 := map _ _) in *. rewrite <- L. clear. induction l1 as [|y l1 IH]; cbn; [reflexivity|]. f_equal. exact IH.
  - rewrite E, firstn_all, skipn_all, app_nil_r. reflexivity.
Qed.

(** ---- the wrapped PSF ---- *)
Definition wdest (pad c k : nat) : nat := (pad - c + k) mod pad.
Lemma wdest_lt pad c k : 0 < pad -> wdest pad c k < pad.
Proof. intros. apply Nat.mod_upper_bound. lia. Qed.
Lemma wdest_Z pad c k : 0 < pad -> c <= pad -> Z.of_nat (wdest pad c k) = ((Z.of_nat k - Z.of_nat c) mod Z.of_nat pad)%Z.
Proof.
  intros Hp Hc. unfold wdest. rewrite Nat2Z.inj_mod.
  replace (Z.of_nat (pad - c + k)) with (Z.of_nat k - Z.of_nat c + 1 * Z.of_nat pad)%Z by lia.
  apply Z.mod_add. lia.
Qed.
Lemma wdest_inj pad c k k' : 0 < pad -> c <= pad -> k < pad -> k' < pad -> wdest pad c k = wdest pad c k' -> k = k'.
Proof.
  intros Hp Hc Hk Hk' E. apply (f_equal Z.of_nat) in E. rewrite !wdest_Z in E by auto.
  assert (H : (((Z.of_nat k - Z.of_nat c) - (Z.of_nat k' - Z.of_nat c)) mod Z.of_nat pad = 0)%Z).
  { rewrite Zminus_mod, E, Z.sub_diag. apply Z.mod_0_l. lia. }
  apply Z.mod_divide in H; [|lia]. destruct H as [q Hq].
  assert (q = 0%Z) by nia. subst q. lia.
Qed.
Lemma wrap_source pad c k p : 0 < pad -> c <= pad ->
  ((Z.of_nat p - Z.of_nat (wdest pad c k)) mod Z.of_nat pad = (Z.of_nat p - (Z.of_nat k - Z.of_nat c)) mod Z.of_nat pad)%Z.
Proof. intros Hp Hc. rewrite wdest_Z by auto. now rewrite Zminus_mod_idemp_r. Qed.

(** where the wrapped coordinate falls: on the same pixel, or on the padding *)
Lemma wrap_pixel w pw k p : 1 <= pw -> k < pw -> p < w ->
  let pad := w + pw - 1 in let x := (Z.of_nat p - (Z.of_nat k - Z.of_nat (pw / 2)))%Z in
  if ((0 <=? x) && (x <? Z.of_nat w))%Z then (x mod Z.of_nat pad = x)%Z
  else (Z.of_nat w <= x mod Z.of_nat pad < Z.of_nat pad)%Z.
Proof.
  intros Hpw Hk Hp pad x.
  assert (Hc : pw / 2 < pw) by (apply Nat.div_lt; lia).
  assert (Hpad : (Z.of_nat pad = Z.of_nat w + Z.of_nat pw - 1)%Z) by (unfold pad; lia).
  destruct (Z.leb_spec 0 x) as [H0|H0]; cbn [andb].
  - destruct (Z.ltb_spec x (Z.of_nat w)) as [H1|H1].
    + apply Z.mod_small. lia.
    + rewrite Z.mod_small by (unfold x; lia). unfold x in *. lia.
  - assert (E : (x mod Z.of_nat pad = x + Z.of_nat pad)%Z).
    { symmetry. apply Z.mod_unique with (-1)%Z; [left; unfold x in *; lia|lia]. }
    rewrite E. unfold x in *. lia.
Qed.

Lemma half_le n : 1 <= n -> n / 2 <= n - 1.
Proof. intros. assert (n / 2 < n) by (apply Nat.div_lt; lia). lia. Qed.

Section Convolve.
  Variables (psf : list R) (pw ph : nat) (img : list R) (w h : nat).
  Hypothesis Hpw : 1 <= pw.
  Hypothesis Hph : 1 <= ph.
  Hypothesis Hw : 1 <= w.
  Hypothesis Hh : 1 <= h.
  Hypothesis Lpsf : length psf = pw * ph.
  Hypothesis Limg : length img = w * h.
  Let padC := w + pw - 1.
  Let padR := h + ph - 1.

  Lemma shift_ok : exists b, ShiftAndWrapPSF psf pw ph padC padR (repeat 0%R (padC * padR)) = Ok b /\
    length b = padC * padR /\
    (forall k l, k < ph -> l < pw -> im padC b (wdest padR (ph / 2) k) (wdest padC (pw / 2) l) = nth (k * pw + l) psf 0%R) /\
    (forall i j, i < padR -> j < padC -> (forall k l, k < ph -> l < pw -> ~ (i = wdest padR (ph / 2) k /\ j = wdest padC (pw / 2) l)) ->
       im padC b i j = 0%R).
  Proof.
    unfold ShiftAndWrapPSF. pose proof (half_le Hpw). pose proof (half_le Hph).
    destruct (@write2 R 0%R (fun i j => get psf (i * pw + j)) (fun i j => nth (i * pw + j) psf 0%R)
      (fun i j => wdest padR (ph / 2) i * padC + wdest padC (pw / 2) j) ph pw (repeat 0%R (padC * padR))) as (b & E & L & V & O).
    - intros i j Hi Hj. apply get_nth. rewrite Lpsf. apply rowcol_lt; auto.
    - intros i j Hi Hj. rewrite repeat_length. apply rowcol_lt; apply wdest_lt; unfold padC, padR; lia.
    - intros i j i' j' Hi Hj Hi' Hj' E.
      apply rowcol_inj in E; [|apply wdest_lt; unfold padC; lia..]. destruct E as [E1 E2].
      split; [apply wdest_inj in E1|apply wdest_inj in E2]; auto; unfold padC, padR; lia.
    - exists b. split; [exact E|]. split; [rewrite L, repeat_length; reflexivity|]. split; [exact V|].
      intros i j Hi Hj Hno. unfold im. rewrite O; [apply nth_repeat|].
      intros k l Hk Hl E'. apply rowcol_inj in E'; [|auto|apply wdest_lt; unfold padC; lia].
      exact (Hno k l Hk Hl E').
  Qed.

  Lemma pad_ok : exists a, for2 h w (fun ii jj padded => do v <- get img (ii * w + jj); set padded (ii * padC + jj) v) (repeat 0%R (padC * padR)) = Ok a /\
    length a = padC * padR /\
    (forall i j, i < h -> j < w -> im padC a i j = nth (i * w + j) img 0%R) /\
    (forall i j, i < padR -> j < padC -> ~ (i < h /\ j < w) -> im padC a i j = 0%R).
  Proof.
    destruct (@write2 R 0%R (fun i j => get img (i * w + j)) (fun i j => nth (i * w + j) img 0%R)
      (fun i j => i * padC + j) h w (repeat 0%R (padC * padR))) as (a & E & L & V & O).
    - intros i j Hi Hj. apply get_nth. rewrite Limg. apply rowcol_lt; auto.
    - intros i j Hi Hj. rewrite repeat_length. apply rowcol_lt; unfold padC, padR; lia.
    - intros i j i' j' Hi Hj Hi' Hj' E. apply rowcol_inj in E; auto; unfold padC; lia.
    - exists a. split; [exact E|]. split; [rewrite L, repeat_length; reflexivity|]. split; [exact V|].
      intros i j Hi Hj Hno. unfold im. rewrite O; [apply nth_repeat|].
      intros k l Hk Hl E'. apply rowcol_inj in E'; [|auto|unfold padC; lia]. destruct E'. apply Hno. lia.
  Qed.

  Lemma source_pixel a : (forall i j, i < h -> j < w -> im padC a i j = nth (i * w + j) img 0%R) ->
    (forall i j, i < padR -> j < padC -> ~ (i < h /\ j < w) -> im padC a i j = 0%R) ->
    forall p q k l, p < h -> q < w -> k < ph -> l < pw ->
    im padC a (Z.to_nat ((Z.of_nat p - Z.of_nat (wdest padR (ph / 2) k)) mod Z.of_nat padR))
              (Z.to_nat ((Z.of_nat q - Z.of_nat (wdest padC (pw / 2) l)) mod Z.of_nat padC)) =
    zpix img w h (Z.of_nat q - (Z.of_nat l - Z.of_nat (pw / 2))) (Z.of_nat p - (Z.of_nat k - Z.of_nat (ph / 2))).
  Proof.
    intros V O p q k l Hp Hq Hk Hl. pose proof (half_le Hpw). pose proof (half_le Hph).
    rewrite !wrap_source by (unfold padC, padR; lia).
    pose proof (wrap_pixel Hph Hk Hp) as Ry. pose proof (wrap_pixel Hpw Hl Hq) as Rx. cbv zeta in Rx, Ry.
    fold padC in Rx. fold padR in Ry.
    set (x := (Z.of_nat q - (Z.of_nat l - Z.of_nat (pw / 2)))%Z) in *.
    set (y := (Z.of_nat p - (Z.of_nat k - Z.of_nat (ph / 2)))%Z) in *.
    unfold zpix.
    assert (PX : (0 <= x mod Z.of_nat padC < Z.of_nat padC)%Z) by (apply Z.mod_pos_bound; unfold padC; lia).
    assert (PY : (0 <= y mod Z.of_nat padR < Z.of_nat padR)%Z) by (apply Z.mod_pos_bound; unfold padR; lia).
    destruct ((0 <=? x) && (x <? Z.of_nat w))%Z eqn:Ex; cbn [andb].
    - apply andb_prop in Ex. destruct Ex as [Ex1 Ex2]. apply Z.leb_le in Ex1. apply Z.ltb_lt in Ex2.
      destruct ((0 <=? y) && (y <? Z.of_nat h))%Z eqn:Ey.
      + apply andb_prop in Ey. destruct Ey as [Ey1 Ey2].
        apply Z.leb_le in Ey1. apply Z.ltb_lt in Ey2. rewrite Rx, Ry. apply V; lia.
      + apply O; lia.
    - apply O; lia.
  Qed.

  Lemma multiply_ok n (A B : list (R * R)) : n <= length A -> n <= length B ->
    exists P, multiply NumR n A B = Ok P /\ length P = n /\
      forall z, z < n -> nth z P (0, 0)%R = Cmult (nth z A (0, 0)%R) (nth z B (0, 0)%R).
  Proof.
    intros HA HB. unfold multiply.
    match goal with |- context [for_ n ?f []] =>
      destruct (@for_inv (list (R * R)) (fun k P => length P = k /\ forall z, z < k -> nth z P (0, 0)%R = Cmult (nth z A (0, 0)%R) (nth z B (0, 0)%R)) f n []) as (P & E & L & V) end.
    - split; [reflexivity|intros; lia].
    - intros k P Hk (L & V). rewrite !(@get_nth (R * R) (0, 0)%R) by lia. cbn [bind].
      destruct (nth k A (0, 0)%R) as [a b] eqn:EA. destruct (nth k B (0, 0)%R) as [c d] eqn:EB.
      eexists; split; [reflexivity|]. split; [rewrite app_length; simpl; lia|].
      intros z Hz. destruct (Nat.eq_dec z k) as [->|Hne].
      + rewrite app_nth2, L, Nat.sub_diag by lia. cbn [nth]. rewrite EA, EB. unfold Cmult. cbn [fst snd nmul nsub nadd NumR]. f_equal; ring.
      + rewrite app_nth1 by lia. apply V. lia.
    - exists P. auto.
  Qed.

  Lemma convolve_ok b :
    length b = padC * padR ->
    (forall k l, k < ph -> l < pw -> im padC b (wdest padR (ph / 2) k) (wdest padC (pw / 2) l) = nth (k * pw + l) psf 0%R) ->
    (forall i j, i < padR -> j < padC -> (forall k l, k < ph -> l < pw -> ~ (i = wdest padR (ph / 2) k /\ j = wdest padC (pw / 2) l)) -> im padC b i j = 0%R) ->
    exists out, ConvolveImage NumR dft_r2c dft_c2r (mkPlan w h padC padR (dft_r2c padR padC b)) img = Ok out /\
      length out = w * h /\
      forall c r, c < w -> r < h -> nth (r * w + c) out 0%R = convolved psf pw ph img w h c r.
  Proof.
    intros Lb Vb Ob. unfold ConvolveImage. cbn [pl_imCols pl_imRows pl_padCols pl_padRows pl_psfFFT].
    destruct pad_ok as (a & Ea & La & Va & Oa).
    change (nofZ NumR 0) with 0%R. rewrite Ea. cbn [bind].
    assert (HC : 0 < padC) by (unfold padC; lia). assert (HR : 0 < padR) by (unfold padR; lia).
    set (half := padC / 2 + 1) in *.
    destruct (@multiply_ok (padR * half) (dft_r2c padR padC a) (dft_r2c padR padC b)) as (P & EP & LP & VP);
      [rewrite r2c_length; unfold half; lia..|].
    rewrite EP. cbn [bind].
    assert (HP : forall u v, u < padR -> v < half -> nth (u * half + v) P (0, 0)%R = Cmult (D padR padC (im padC a) u v) (D padR padC (im padC b) u v)).
    { intros u v Hu Hv. rewrite VP by (pose proof (@rowcol_lt half padR u v Hv Hu); lia).
      unfold half. rewrite !r2c_nth by auto. reflexivity. }
    assert (Lc : length (dft_c2r padR padC P) = padR * padC) by (unfold dft_c2r; now rewrite map_length, seq_length).
    set (raw := dft_c2r padR padC P) in *.
    set (rf := ndiv NumR (nofZ NumR 1) (nofZ NumR (Z.of_nat (padC * padR)))).
    destruct (@write2 R 0%R (fun i j => do rawValue <- get raw (i * padC + j); Ok (nmul NumR rf rawValue))
      (fun i j => (rf * nth (i * padC + j) raw 0)%R) (fun i j => i * w + j) h w img) as (out & Eo & Lo & Vo & _).
    - intros i j Hi Hj. rewrite (@get_nth R 0%R); [reflexivity|]. rewrite Lc, (Nat.mul_comm padR). apply rowcol_lt; unfold padC, padR; lia.
    - intros i j Hi Hj. rewrite Limg. apply rowcol_lt; auto.
    - intros i j i' j' Hi Hj Hi' Hj' E. apply rowcol_inj in E; auto.
    - exists out. split.
      { rewrite <- Eo. unfold for2. apply for_ext. intros i s Hi. apply for_ext. intros j s' Hj.
        destruct (get raw (i * padC + j)); reflexivity. }
      split; [congruence|]. intros c r Hc Hr. rewrite Vo by auto.
      unfold raw. rewrite (@c2r_ok padR padC HR HC a b P r c HP) by (unfold padR, padC; lia).
      unfold rf. cbn [ndiv nofZ NumR].
      rewrite <- Rmult_assoc.
      assert (Ef : (1 / IZR (Z.of_nat (padC * padR)) * (INR padR * INR padC) = 1)%R).
      { rewrite <- INR_IZR_INZ, mult_INR. field. split; apply not_0_INR; lia. }
      rewrite Ef, Rmult_1_l. unfold convolved.
      pose proof (half_le Hpw). pose proof (half_le Hph).
      rewrite (@rsum_reindex padR ph (wdest padR (ph / 2))).
      + apply rsum_ext. intros k Hk.
        rewrite (@rsum_reindex padC pw (wdest padC (pw / 2))).
        * apply rsum_ext. intros l Hl. rewrite Vb by auto. f_equal. apply source_pixel; auto.
        * intros; apply wdest_lt; auto.
        * intros l l' Hl Hl' E. apply wdest_inj in E; auto; unfold padC; lia.
        * intros j Hj Hno. rewrite Ob; auto using wdest_lt; [ring|]. intros k' l' Hk' Hl' [_ E]. apply (Hno l'); auto.
      + intros; apply wdest_lt; auto.
      + intros k k' Hk Hk' E. apply wdest_inj in E; auto; unfold padR; lia.
      + intros i Hi Hno. apply rsum_zero. intros j Hj. rewrite Ob; auto; [ring|].
        intros k' l' Hk' Hl' [E _]. apply (Hno k'); auto.
  Qed.
End Convolve.

Lemma full_convolution psf pw ph normalize img w h :
  1 <= pw -> 1 <= ph -> 1 <= w -> 1 <= h -> length psf = pw * ph -> length img = w * h ->
  exists pl out,
    DoFullSetup NumR dft_r2c (Some (mkPSF psf pw ph normalize)) (Some (w, h)) = Ok (0%Z, used_psf psf normalize, Some pl) /\
    ConvolveImage NumR dft_r2c dft_c2r pl img = Ok out /\ length out = w * h /\
    forall c r, c < w -> r < h -> nth (r * w + c) out 0%R = convolved (used_psf psf normalize) pw ph img w h c r.
Proof.
  intros Hpw Hph Hw Hh Lp Li. unfold DoFullSetup. cbn [ps_normalize ps_cols ps_rows ps_pixels].
  assert (En : (if normalize then NormalizePSF NumR (pw * ph) psf else Ok psf) = Ok (used_psf psf normalize)).
  { unfold used_psf. destruct normalize; auto. rewrite <- Lp. apply NormalizePSF_ok. }
  rewrite En. cbn [bind].
  assert (Lu : length (used_psf psf normalize) = pw * ph) by (unfold used_psf; destruct normalize; rewrite ?map_length; auto).
  destruct (@shift_ok (used_psf psf normalize) pw ph img w h Hpw Hph Hw Hh Lu Li) as (b & Eb & Lb & Vb & Ob).
  change (nofZ NumR 0) with 0%R. rewrite Eb. cbn [bind].
  destruct (@convolve_ok (used_psf psf normalize) pw ph img w h Hpw Hph Hw Hh Lu Li b Lb Vb Ob) as (out & Eo & Lo & Vo).
  do 2 eexists. split; [reflexivity|]. split; [exact Eo|]. auto.
Qed.

(** ---- algebra of the convolution ---- *)
Local Open Scope R_scope.
Lemma zpix_ext f g w h c r : (forall k, nth k f 0 = nth k g 0) -> zpix f w h c r = zpix g w h c r.
Proof. intros H. unfold zpix. now rewrite H. Qed.
Lemma convolved_linear psf pw ph f g e w h c r (a b : R) :
  (forall k, nth k e 0 = a * nth k f 0 + b * nth k g 0) ->
  convolved psf pw ph e w h c r = a * convolved psf pw ph f w h c r + b * convolved psf pw ph g w h c r.
Proof.
  intros H. unfold convolved. rewrite <- !rsum_scal, <- rsum_plus. apply rsum_ext. intros k _.
  rewrite <- !rsum_scal, <- rsum_plus. apply rsum_ext. intros l _. unfold zpix.
  destruct ((_ && _) && _)%bool; [rewrite H|]; ring.
Qed.
Lemma convolved_delta psf pw ph img w h c r :
  (1 <= pw)%nat -> (1 <= ph)%nat -> (c < w)%nat -> (r < h)%nat ->
  (forall k l, (k < ph)%nat -> (l < pw)%nat ->
     nth (k * pw + l) psf 0 = if ((k =? ph / 2)%nat && (l =? pw / 2)%nat)%bool then 1 else 0) ->
  convolved psf pw ph img w h c r = nth (r * w + c) img 0.
Proof.
  intros Hpw Hph Hc Hr H. unfold convolved.
  pose proof (half_le Hpw). pose proof (half_le Hph).
  rewrite (@rsum_single ph (ph / 2)); [|lia|].
  - rewrite (@rsum_single pw (pw / 2)); [|lia|].
    + rewrite H by lia. rewrite !Nat.eqb_refl. cbn [andb]. rewrite !Z.sub_diag, !Z.sub_0_r. unfold zpix.
      assert (E : ((0 <=? Z.of_nat c) && (Z.of_nat c <? Z.of_nat w) && (0 <=? Z.of_nat r) && (Z.of_nat r <? Z.of_nat h))%Z = true).
      { rewrite !andb_true_iff, !Z.leb_le, !Z.ltb_lt. lia. }
      rewrite E, !Nat2Z.id. ring.
    + intros l Hl Hne. rewrite H by lia. apply Nat.eqb_neq in Hne. rewrite Hne, andb_false_r. ring.
  - intros k Hk Hne. apply rsum_zero. intros l Hl. rewrite H by lia. apply Nat.eqb_neq in Hne. rewrite Hne. cbn [andb]. ring.
Qed.

(** a sum of displaced values over a window holding the whole support *)
Lemma shifted_sum n (d : Z) (z : Z -> R) :
  (forall x, z x <> 0 -> (0 <= x < Z.of_nat n)%Z /\ (0 <= x + d < Z.of_nat n)%Z) ->
  rsum n (fun c => z (Z.of_nat c - d)%Z) = rsum n (fun c => z (Z.of_nat c)).
Proof.
  intros H.
  assert (H0 : forall x, ~ ((0 <= x < Z.of_nat n)%Z /\ (0 <= x + d < Z.of_nat n)%Z) -> z x = 0).
  { intros x Hx. destruct (Req_EM_T (z x) 0) as [|Hz]; auto. exfalso. apply Hx. now apply H. }
  transitivity (rsum n (fun c => rsum n (fun x => if (Z.of_nat x =? Z.of_nat c - d)%Z then z (Z.of_nat x) else 0))).
  - apply rsum_ext. intros c Hc.
    destruct (Z_le_gt_dec 0 (Z.of_nat c - d)) as [G|G].
    + destruct (Z_lt_ge_dec (Z.of_nat c - d) (Z.of_nat n)) as [G2|G2].
      * rewrite (@rsum_single n (Z.to_nat (Z.of_nat c - d))); [|lia|].
        -- rewrite Z2Nat.id by lia. now rewrite Z.eqb_refl.
        -- intros x Hx Hne. destruct (Z.eqb_spec (Z.of_nat x) (Z.of_nat c - d)) as [E|]; auto. lia.
      * rewrite H0 by lia. symmetry. apply rsum_zero. intros x Hx. destruct (Z.eqb_spec (Z.of_nat x) (Z.of_nat c - d)); auto. lia.
    + rewrite H0 by lia. symmetry. apply rsum_zero. intros x Hx. destruct (Z.eqb_spec (Z.of_nat x) (Z.of_nat c - d)); auto. lia.
  - rewrite rsum_swap. apply rsum_ext. intros x Hx.
    destruct (Z_le_gt_dec 0 (Z.of_nat x + d)) as [G|G].
    + destruct (Z_lt_ge_dec (Z.of_nat x + d) (Z.of_nat n)) as [G2|G2].
      * rewrite (@rsum_single n (Z.to_nat (Z.of_nat x + d))); [|lia|].
        -- rewrite Z2Nat.id by lia. replace (Z.of_nat x + d - d)%Z with (Z.of_nat x) by lia. now rewrite Z.eqb_refl.
        -- intros c Hc Hne. destruct (Z.eqb_spec (Z.of_nat x) (Z.of_nat c - d)); auto. lia.
      * rewrite (H0 (Z.of_nat x)) by lia. apply rsum_zero. intros c _. now destruct (Z.of_nat x =? Z.of_nat c - d)%Z.
    + rewrite (H0 (Z.of_nat x)) by lia. apply rsum_zero. intros c _. now destruct (Z.of_nat x =? Z.of_nat c - d)%Z.
Qed.

Lemma zpix_in img w h c r : (c < w)%nat -> (r < h)%nat -> zpix img w h (Z.of_nat c) (Z.of_nat r) = nth (r * w + c) img 0.
Proof.
  intros Hc Hr. unfold zpix.
  assert (E : ((0 <=? Z.of_nat c) && (Z.of_nat c <? Z.of_nat w) && (0 <=? Z.of_nat r) && (Z.of_nat r <? Z.of_nat h))%Z = true).
  { rewrite !andb_true_iff, !Z.leb_le, !Z.ltb_lt. lia. }
  now rewrite E, !Nat2Z.id.
Qed.
Lemma zpix_support img w h c r : zpix img w h c r <> 0 -> (0 <= c < Z.of_nat w)%Z /\ (0 <= r < Z.of_nat h)%Z.
Proof.
  unfold zpix. destruct (_ && _)%bool eqn:E; [|tauto]. intros _.
  rewrite !andb_true_iff, !Z.leb_le, !Z.ltb_lt in E. lia.
Qed.

(** flux: the image vanishes closer to an edge than the PSF reaches *)
Lemma flux_conserved psf pw ph img w h :
  (1 <= pw)%nat -> (1 <= ph)%nat ->
  (forall c r, (c < w)%nat -> (r < h)%nat -> nth (r * w + c) img 0 <> 0 ->
     (pw / 2 <= c /\ c + pw <= w + pw / 2 /\ ph / 2 <= r /\ r + ph <= h + ph / 2)%nat) ->
  rsum h (fun r => rsum w (fun c => convolved psf pw ph img w h c r)) =
  rsum ph (fun k => rsum pw (fun l => nth (k * pw + l) psf 0)) * rsum h (fun r => rsum w (fun c => nth (r * w + c) img 0)).
Proof.
  intros Hpw Hph Hs. unfold convolved.
  set (F := rsum h (fun r => rsum w (fun c => nth (r * w + c) img 0))).
  assert (Hsh : forall k l, (k < ph)%nat -> (l < pw)%nat ->
    rsum h (fun r => rsum w (fun c => zpix img w h (Z.of_nat c - (Z.of_nat l - Z.of_nat (pw / 2))) (Z.of_nat r - (Z.of_nat k - Z.of_nat (ph / 2))))) = F).
  { intros k l Hk Hl. set (dx := (Z.of_nat l - Z.of_nat (pw / 2))%Z). set (dy := (Z.of_nat k - Z.of_nat (ph / 2))%Z).
    assert (In : forall c r, zpix img w h c r <> 0 ->
      ((0 <= c < Z.of_nat w) /\ (0 <= c + dx < Z.of_nat w) /\ (0 <= r < Z.of_nat h) /\ (0 <= r + dy < Z.of_nat h))%Z).
    { intros c r Hz. pose proof (zpix_support Hz) as [Hc Hr].
      rewrite <- (Z2Nat.id c), <- (Z2Nat.id r), zpix_in in Hz by lia.
      apply Hs in Hz; unfold dx, dy; lia. }
    transitivity (rsum h (fun r => rsum w (fun c => zpix img w h (Z.of_nat c) (Z.of_nat r - dy)%Z))).
    { apply rsum_ext. intros r _. apply (@shifted_sum w dx (fun x => zpix img w h x (Z.of_nat r - dy)%Z)).
      intros x Hx. apply In in Hx. lia. }
    rewrite rsum_swap.
    transitivity (rsum w (fun c => rsum h (fun r => zpix img w h (Z.of_nat c) (Z.of_nat r)))).
    { apply rsum_ext. intros c _. apply (@shifted_sum h dy (fun y => zpix img w h (Z.of_nat c) y)).
      intros y Hy. apply In in Hy. lia. }
    rewrite rsum_swap. unfold F. apply rsum_ext. intros r Hr. apply rsum_ext. intros c Hc. apply zpix_in; auto. }
  transitivity (rsum ph (fun k => rsum pw (fun l => nth (k * pw + l) psf 0 *
    rsum h (fun r => rsum w (fun c => zpix img w h (Z.of_nat c - (Z.of_nat l - Z.of_nat (pw / 2))) (Z.of_nat r - (Z.of_nat k - Z.of_nat (ph / 2)))))))).
  - transitivity (rsum h (fun r => rsum ph (fun k => rsum pw (fun l => nth (k * pw + l) psf 0 *
      rsum w (fun c => zpix img w h (Z.of_nat c - (Z.of_nat l - Z.of_nat (pw / 2))) (Z.of_nat r - (Z.of_nat k - Z.of_nat (ph / 2)))))))).
    + apply rsum_ext. intros r _. rewrite rsum_swap. apply rsum_ext. intros k _. rewrite rsum_swap. apply rsum_ext. intros l _.
      rewrite <- rsum_scal. reflexivity.
    + rewrite rsum_swap. apply rsum_ext. intros k _. rewrite rsum_swap. apply rsum_ext. intros l _.
      rewrite <- rsum_scal. reflexivity.
  - rewrite <- rsum_scal_r. apply rsum_ext. intros k Hk. rewrite <- rsum_scal_r. apply rsum_ext. intros l Hl.
    now rewrite Hsh.
Qed.

(** ---- normalisation ---- *)
Lemma total_scaled v c : total (map (fun x => x / c) v) = total v / c.
Proof.
  unfold total. rewrite map_length. unfold Rdiv. rewrite <- rsum_scal_r. apply rsum_ext. intros k Hk.
  rewrite (nth_indep _ 0 ((fun x => x * / c) 0)) by (rewrite map_length; auto).
  now rewrite (map_nth (fun x => x * / c)).
Qed.
Lemma normalized_total v : total v <> 0 -> total (map (fun x => x / total v) v) = 1.
Proof. intros H. rewrite total_scaled. now field. Qed.

(** ---- adding the PSF to a model ---- *)
Local Open Scope nat_scope.
Lemma AddPSFVector_nonfinite {T} (N : Num T) n cols rows pix normalize done k x :
  1 <= n -> 1 <= cols -> 1 <= rows -> n <= length pix -> k < n -> nth_error pix k = Some x -> nfin N x = false ->
  AddPSFVector N n cols rows pix normalize done = Ok ((-1)%Z, None, None).
Proof.
  intros Hn Hc Hr Hl Hk Hx Hf. unfold AddPSFVector.
  apply Nat.leb_le in Hn, Hc, Hr. rewrite Hn, Hc, Hr. cbn [andb].
  match goal with |- context [for_ n ?f ?s0] =>
    destruct (@for_inv (option (list T * T)) (fun i s => k < i -> s = None) f n s0) as (s & E & H) end.
  - lia.
  - intros i s Hi Hs. destruct s as [[l t]|].
    + destruct (@get_lt T pix i) as (y & Ey); [lia|]. rewrite Ey. cbn [bind].
      eexists; split; [reflexivity|]. intros Hki. destruct (Nat.eq_dec i k) as [->|Hne].
      * unfold get in Ey. rewrite Hx in Ey. injection Ey as <-. now rewrite Hf.
      * exfalso. assert (k < i) by lia. specialize (Hs H). discriminate.
    + eexists; split; [reflexivity|auto].
  - rewrite E, (H Hk). reflexivity.
Qed.
Lemma AddPSFVector_exact pix cols rows normalize done :
  1 <= cols -> 1 <= rows -> length pix = cols * rows ->
  AddPSFVector NumR (length pix) cols rows pix normalize done =
  if (normalize && Rleb (total pix) 0)%bool then Ok ((-1)%Z, None, None)
  else Ok (if done then (-1)%Z else 0%Z, Some (used_psf pix normalize), Some (mkPSF pix cols rows normalize)).
Proof.
  intros Hc Hr Hl. unfold AddPSFVector.
  assert (Hn : 1 <= length pix) by nia.
  apply Nat.leb_le in Hn, Hc, Hr. rewrite Hn, Hc, Hr. cbn [andb].
  match goal with |- context [for_ (length pix) ?f ?s0] =>
    destruct (@for_inv (option (list R * R)) (fun i s => s = Some (firstn i pix, rsum i (fun k => nth k pix 0%R))) f (length pix) s0) as (s & E & ->) end.
  - reflexivity.
  - intros i s Hi ->. rewrite (@get_nth R 0%R) by auto. cbn [bind nfin NumR]. eexists; split; [reflexivity|].
    cbn [rsum nadd NumR]. f_equal. f_equal.
    clear -Hi. revert pix Hi. induction i as [|i IH]; intros [|x pix] Hi; cbn in *; try lia; auto.
    f_equal. apply IH. lia.
  - rewrite E, firstn_all. cbn [bind]. fold (total pix). cbn [nleb nofZ NumR].
    destruct (normalize && Rleb (total pix) 0)%bool; auto.
    unfold used_psf. destruct normalize; [rewrite NormalizePSF_ok|]; reflexivity.
Qed.
Lemma convolve_with_ok psf pw ph normalize img w h :
  1 <= pw -> 1 <= ph -> 1 <= w -> 1 <= h -> length psf = pw * ph -> length img = w * h ->
  exists out, convolve_with NumR dft_r2c dft_c2r (mkPSF psf pw ph normalize) w h img = Ok out /\ length out = w * h /\
    forall c r, c < w -> r < h -> nth (r * w + c) out 0%R = convolved (used_psf psf normalize) pw ph img w h c r.
Proof.
  intros. destruct (@full_convolution psf pw ph normalize img w h) as (pl & out & E1 & E2 & L & V); auto.
  exists out. unfold convolve_with. rewrite E1. cbn [bind snd]. auto.
Qed.
Lemma nth_map_combine (f g : list R) a b k : length f = length g ->
  (nth k (map (fun x => a * fst x + b * snd x) (combine f g)) 0 = a * nth k f 0 + b * nth k g 0)%R.
Proof.
  revert g k. induction f as [|x f IH]; intros [|y g] k L; cbn in L; try discriminate.
  - destruct k; cbn; ring.
  - destruct k as [|k]; cbn [combine map nth fst snd]; [reflexivity|]. apply IH. lia.
Qed.
Lemma image_ext w h (a b : list R) : length a = w * h -> length b = w * h ->
  (forall c r, c < w -> r < h -> nth (r * w + c) a 0%R = nth (r * w + c) b 0%R) -> a = b.
Proof.
  intros La Lb H. apply (nth_ext _ _ 0%R 0%R); [congruence|]. intros n Hn. rewrite La in Hn.
  destruct (Nat.eq_dec w 0) as [->|Hw]; [lia|].
  rewrite (Nat.div_mod n w) by auto. rewrite (Nat.mul_comm w). apply H.
  - now apply Nat.mod_upper_bound.
  - apply Nat.div_lt_upper_bound; auto.
Qed.
Lemma total_rows v w h : length v = w * h -> total v = rsum h (fun r => rsum w (fun c => nth (r * w + c) v 0%R)).
Proof. intros L. unfold total. rewrite L. rewrite Nat.mul_comm. apply (@rsum_rows h w (fun k => nth k v 0%R)). Qed.
Lemma normalized_ratios psf i j : (nth i (used_psf psf true) 0 * nth j psf 0 = nth j (used_psf psf true) 0 * nth i psf 0)%R.
Proof.
  unfold used_psf.
  assert (E : forall k, (nth k (map (fun x => x / total psf) psf) 0 = nth k psf 0 / total psf)%R).
  { intros k. destruct (Nat.lt_ge_cases k (length psf)) as [H|H].
    - rewrite (nth_indep _ 0%R ((fun x => x / total psf) 0)%R) by (rewrite map_length; auto).
      now rewrite (map_nth (fun x => x / total psf)%R).
    - rewrite !nth_overflow by (rewrite ?map_length; auto). unfold Rdiv. ring. }
  rewrite !E. unfold Rdiv. ring.
Qed.
Lemma flux_total psf pw ph (normalize : bool) img w h out :
  1 <= pw -> 1 <= ph -> length psf = pw * ph -> length img = w * h -> length out = w * h ->
  (if normalize then total psf <> 0 else total psf = 1)%R ->
  (forall c r, c < w -> r < h -> nth (r * w + c) img 0%R <> 0%R ->
     pw / 2 <= c /\ c + pw <= w + pw / 2 /\ ph / 2 <= r /\ r + ph <= h + ph / 2) ->
  (forall c r, c < w -> r < h -> nth (r * w + c) out 0%R = convolved (used_psf psf normalize) pw ph img w h c r) ->
  total out = total img.
Proof.
  intros Hpw Hph Lp Li Lo Ht Hs V.
  rewrite (total_rows Li), (total_rows Lo).
  transitivity (rsum h (fun r => rsum w (fun c => convolved (used_psf psf normalize) pw ph img w h c r))).
  { apply rsum_ext. intros r Hr. apply rsum_ext. intros c Hc. now apply V. }
  rewrite flux_conserved by auto.
  assert (E : rsum ph (fun k => rsum pw (fun l => nth (k * pw + l) (used_psf psf normalize) 0%R)) = 1%R).
  { rewrite <- (@total_rows (used_psf psf normalize) pw ph); [|unfold used_psf; destruct normalize; rewrite ?map_length; auto].
    unfold used_psf. destruct normalize; auto. now apply normalized_total. }
  rewrite E. ring.
Qed.
