(** The two-dimensional discrete Fourier transform: inversion and the circular
    convolution theorem, from the orthogonality of the roots of unity. *)
From Coq Require Import Reals Lra List Arith ZArith Lia Bool.
From Coquelicot Require Import Complex.
From Verif Require Import Sums Conv_Spec.
Set Implicit Arguments.
Unset Strict Implicit.
Local Open Scope R_scope.
Local Open Scope C_scope.

Fixpoint csum (n : nat) (f : nat -> C) : C :=
  match n with O => 0 | S m => csum m f + f m end.
Lemma csum_ext n (f g : nat -> C) : (forall i, (i < n)%nat -> f i = g i) -> csum n f = csum n g.
Proof. induction n as [|n IH]; intros H; cbn [csum]; auto. rewrite H by lia. rewrite IH; auto. Qed.
Lemma csum_zero n (f : nat -> C) : (forall i, (i < n)%nat -> f i = 0) -> csum n f = 0.
Proof. induction n as [|n IH]; intros H; cbn [csum]; auto. rewrite H, IH by auto. ring. Qed.
Lemma csum_plus n f g : csum n (fun i => f i + g i) = csum n f + csum n g.
Proof. induction n as [|n IH]; cbn [csum]; [ring|]. rewrite IH. ring. Qed.
Lemma csum_scal n c f : csum n (fun i => c * f i) = c * csum n f.
Proof. induction n as [|n IH]; cbn [csum]; [ring|]. rewrite IH. ring. Qed.
Lemma csum_scal_r n c f : csum n (fun i => f i * c) = csum n f * c.
Proof. induction n as [|n IH]; cbn [csum]; [ring|]. rewrite IH. ring. Qed.
Lemma csum_swap n m f : csum n (fun i => csum m (f i)) = csum m (fun j => csum n (fun i => f i j)).
Proof.
  induction n as [|n IH]; cbn [csum].
  - symmetry. apply csum_zero. auto.
  - rewrite IH. rewrite <- csum_plus. apply csum_ext. auto.
Qed.
Lemma csum_S_l n f : csum (S n) f = f O + csum n (fun i => f (S i)).
Proof. induction n as [|n IH]; [cbn [csum]; ring|]. cbn [csum] in *. rewrite IH. ring. Qed.
Lemma csum_single n k (f : nat -> C) : (k < n)%nat -> (forall i, (i < n)%nat -> i <> k -> f i = 0) -> csum n f = f k.
Proof.
  intros Hk H. induction n as [|n IH]; [lia|]. cbn [csum].
  destruct (Nat.eq_dec k n) as [->|Hne].
  - rewrite csum_zero; [ring|]. intros i Hi. apply H; lia.
  - rewrite IH; [|lia|intros; apply H; lia]. rewrite (H n) by lia. ring.
Qed.
Lemma csum_const n c : csum n (fun _ => c) = RtoC (INR n) * c.
Proof.
  induction n as [|n IH]; [cbn [csum]; simpl INR; ring|]. rewrite S_INR, RtoC_plus. cbn [csum]. rewrite IH. ring.
Qed.
Lemma csum_parts n f : csum n f = (rsum n (fun i => fst (f i)), rsum n (fun i => snd (f i))).
Proof.
  induction n as [|n IH]; cbn [csum rsum]; auto. rewrite IH. unfold Cplus. cbn [fst snd]. reflexivity.
Qed.
Lemma csum_RtoC n f : csum n (fun i => RtoC (f i)) = RtoC (rsum n f).
Proof. rewrite csum_parts. unfold RtoC. cbn [fst snd]. f_equal. apply rsum_0. Qed.

Definition csum2 n m (f : nat -> nat -> C) := csum n (fun i => csum m (f i)).
Lemma csum2_ext n m f g : (forall i j, (i < n)%nat -> (j < m)%nat -> f i j = g i j) -> csum2 n m f = csum2 n m g.
Proof. intros H. apply csum_ext. intros i Hi. apply csum_ext. auto. Qed.
Lemma csum2_scal n m c f : csum2 n m (fun i j => c * f i j) = c * csum2 n m f.
Proof. unfold csum2. rewrite <- csum_scal. apply csum_ext. intros. apply csum_scal. Qed.
Lemma csum2_scal_r n m c f : csum2 n m (fun i j => f i j * c) = csum2 n m f * c.
Proof. unfold csum2. rewrite <- csum_scal_r. apply csum_ext. intros. apply csum_scal_r. Qed.
Lemma csum2_swap n m p q (f : nat -> nat -> nat -> nat -> C) :
  csum2 n m (fun u v => csum2 p q (f u v)) = csum2 p q (fun i j => csum2 n m (fun u v => f u v i j)).
Proof.
  unfold csum2.
  transitivity (csum n (fun u => csum p (fun i => csum m (fun v => csum q (fun j => f u v i j))))).
  { apply csum_ext. intros u _. apply csum_swap. }
  rewrite csum_swap. apply csum_ext. intros i _.
  transitivity (csum n (fun u => csum q (fun j => csum m (fun v => f u v i j)))).
  { apply csum_ext. intros u _. apply csum_swap. }
  apply csum_swap.
Qed.
Lemma csum2_prod n m f g : csum2 n m (fun i j => f i * g j) = csum n f * csum m g.
Proof. unfold csum2. rewrite <- csum_scal_r. apply csum_ext. intros. apply csum_scal. Qed.

(** ---- roots of unity ---- *)
Definition expi (t : R) : C := (cos t, sin t).
Lemma expi_plus a b : expi (a + b) = expi a * expi b.
Proof. unfold expi, Cmult. cbn [fst snd]. rewrite cos_plus, sin_plus. f_equal; ring. Qed.
Lemma expi_0 : expi 0 = 1.
Proof. unfold expi. rewrite cos_0, sin_0. reflexivity. Qed.
Lemma expi_2kpi k : expi (2 * IZR k * PI) = 1.
Proof.
  unfold expi. rewrite <- (Rplus_0_l (2 * IZR k * PI)).
  destruct (Z_le_gt_dec 0 k) as [H|H].
  - assert (E : IZR k = INR (Z.to_nat k)) by (rewrite INR_IZR_INZ, Z2Nat.id; auto).
    rewrite E. rewrite cos_period, sin_period, cos_0, sin_0. reflexivity.
  - assert (E : IZR k = (- INR (Z.to_nat (- k)))%R).
    { rewrite INR_IZR_INZ, Z2Nat.id by lia. rewrite opp_IZR. ring. }
    set (m := Z.to_nat (- k)) in *. rewrite E.
    replace (0 + 2 * - INR m * PI)%R with (- (0 + 2 * INR m * PI))%R by ring.
    rewrite cos_neg, sin_neg, cos_period, sin_period, cos_0, sin_0, Ropp_0. reflexivity.
Qed.

Definition W (n : nat) (k : Z) : C := expi (2 * PI * IZR k / INR n).
Definition conj (z : C) : C := (fst z, - snd z)%R.

Lemma W_plus n j k : W n (j + k) = W n j * W n k.
Proof. unfold W. rewrite <- expi_plus, plus_IZR. f_equal. unfold Rdiv. ring. Qed.
Lemma W_0 n : W n 0 = 1.
Proof. unfold W. rewrite Rmult_0_r. unfold Rdiv. rewrite Rmult_0_l. apply expi_0. Qed.
Lemma conj_W n k : conj (W n k) = W n (- k).
Proof.
  unfold conj, W, expi. cbn [fst snd]. rewrite opp_IZR.
  replace (2 * PI * - IZR k / INR n)%R with (- (2 * PI * IZR k / INR n))%R by (unfold Rdiv; ring).
  rewrite cos_neg, sin_neg. reflexivity.
Qed.
Lemma conj_mult a b : conj (a * b) = conj a * conj b.
Proof. unfold conj, Cmult. cbn [fst snd]. f_equal; ring. Qed.
Lemma conj_csum n f : conj (csum n f) = csum n (fun i => conj (f i)).
Proof.
  rewrite !csum_parts. unfold conj. cbn [fst snd]. f_equal.
  induction n as [|n IH]; cbn [rsum]; [ring|]. rewrite <- IH. ring.
Qed.
Lemma conj_RtoC r : conj (RtoC r) = RtoC r.
Proof. unfold conj, RtoC. cbn [fst snd]. f_equal. ring. Qed.
Lemma W_mult_n n q : (0 < n)%nat -> W n (Z.of_nat n * q) = 1.
Proof.
  intros Hn. unfold W. rewrite mult_IZR, <- INR_IZR_INZ.
  replace (2 * PI * (INR n * IZR q) / INR n)%R with (2 * IZR q * PI)%R.
  - apply expi_2kpi.
  - field. apply not_0_INR. lia.
Qed.
Lemma W_mod n k : (0 < n)%nat -> W n k = W n (k mod Z.of_nat n).
Proof.
  intros Hn. rewrite (Z.div_mod k (Z.of_nat n)) at 1 by lia. rewrite W_plus, W_mult_n by auto. ring.
Qed.
Lemma W_one n k : (0 < n)%nat -> W n k = 1 -> (k mod Z.of_nat n = 0)%Z.
Proof.
  intros Hn E. rewrite W_mod in E by auto. set (r := (k mod Z.of_nat n)%Z) in *.
  assert (Hr : (0 <= r < Z.of_nat n)%Z) by (apply Z.mod_pos_bound; lia).
  destruct (Z.eq_dec r 0) as [|Hr0]; auto. exfalso.
  assert (Hn' : (0 < INR n)%R) by (apply lt_0_INR; auto).
  assert (H0 : (1 <= IZR r)%R) by (apply IZR_le; lia).
  assert (H1 : (IZR r < INR n)%R) by (rewrite INR_IZR_INZ; apply IZR_lt; lia).
  unfold W, expi in E. assert (Ec : cos (2 * PI * IZR r / INR n) = 1%R) by (injection E; auto).
  set (t := (PI * (IZR r / INR n))%R).
  assert (Et : (2 * PI * IZR r / INR n = 2 * t)%R) by (unfold t; field; lra).
  rewrite Et in Ec. rewrite cos_2a_sin in Ec.
  assert (Hd : (0 < IZR r / INR n < 1)%R).
  { split; [apply Rdiv_lt_0_compat; lra|]. apply Rmult_lt_reg_r with (INR n); auto.
    unfold Rdiv. rewrite Rmult_assoc, Rinv_l by lra. lra. }
  assert (Hs : (0 < sin t)%R).
  { apply sin_gt_0; unfold t; pose proof PI_RGT_0; nra. }
  nra.
Qed.
Lemma W_sum n k : (0 < n)%nat ->
  csum n (fun u => W n (Z.of_nat u * k)) = if (k mod Z.of_nat n =? 0)%Z then RtoC (INR n) else 0.
Proof.
  intros Hn. destruct (Z.eqb_spec (k mod Z.of_nat n) 0) as [E|E].
  - rewrite (csum_ext (g := fun _ => 1)).
    + rewrite csum_const. ring.
    + intros i Hi. rewrite W_mod by auto. rewrite Z.mul_mod, E, Z.mul_0_r, Z.mod_0_l by lia. apply W_0.
  - set (Sm := csum n _).
    assert (H : W n k * Sm = Sm).
    { unfold Sm. rewrite <- csum_scal.
      transitivity (csum n (fun u => W n (Z.of_nat (S u) * k))).
      { apply csum_ext. intros u _. rewrite <- W_plus. f_equal. lia. }
      assert (A := csum_S_l n (fun u => W n (Z.of_nat u * k))). cbn [csum] in A.
      rewrite W_mult_n in A by auto. cbn [Z.of_nat Z.mul] in A. rewrite W_0 in A.
      assert (B : forall x y : C, x + 1 = 1 + y -> y = x).
      { intros x y Hxy. replace y with (1 + y - 1) by ring. rewrite <- Hxy. ring. }
      apply B. exact A. }
    assert (Hne : W n k - 1 <> 0).
    { intros Z0. apply E. apply W_one; auto. replace (W n k) with (W n k - 1 + 1) by ring. rewrite Z0. ring. }
    assert (H0 : (W n k - 1) * Sm = 0) by (replace ((W n k - 1) * Sm) with (W n k * Sm - Sm) by ring; rewrite H; ring).
    destruct (Ceq_dec Sm 0) as [|Hs]; auto. exfalso. exact (Cmult_neq_0 _ _ Hne Hs H0).
Qed.

(** ---- transforms of images given as functions of (row, column) ---- *)
Section D.
  Variables nR nC : nat.
  Hypothesis HR : (0 < nR)%nat.
  Hypothesis HC : (0 < nC)%nat.

  Definition D (a : nat -> nat -> R) (u v : nat) : C :=
    csum2 nR nC (fun i j => RtoC (a i j) * (W nR (- (Z.of_nat u * Z.of_nat i)) * W nC (- (Z.of_nat v * Z.of_nat j)))).

  Lemma inversion a (p q : Z) :
    csum2 nR nC (fun u v => D a u v * (W nR (Z.of_nat u * p) * W nC (Z.of_nat v * q))) =
    RtoC (INR nR * INR nC * a (Z.to_nat (p mod Z.of_nat nR)) (Z.to_nat (q mod Z.of_nat nC))).
  Proof.
    transitivity (csum2 nR nC (fun i j => RtoC (a i j) *
      (csum nR (fun u => W nR (Z.of_nat u * (p - Z.of_nat i))) * csum nC (fun v => W nC (Z.of_nat v * (q - Z.of_nat j)))))).
    - unfold D.
      transitivity (csum2 nR nC (fun u v => csum2 nR nC (fun i j => RtoC (a i j) *
        (W nR (Z.of_nat u * (p - Z.of_nat i)) * W nC (Z.of_nat v * (q - Z.of_nat j)))))).
      { apply csum2_ext. intros u v _ _. rewrite <- csum2_scal_r. apply csum2_ext. intros i j _ _.
        replace (Z.of_nat u * (p - Z.of_nat i))%Z with (- (Z.of_nat u * Z.of_nat i) + Z.of_nat u * p)%Z by ring.
        replace (Z.of_nat v * (q - Z.of_nat j))%Z with (- (Z.of_nat v * Z.of_nat j) + Z.of_nat v * q)%Z by ring.
        rewrite !W_plus. ring. }
      rewrite csum2_swap. apply csum2_ext. intros i j _ _. rewrite csum2_scal, csum2_prod. reflexivity.
    - unfold csum2.
      assert (Hp : (0 <= p mod Z.of_nat nR < Z.of_nat nR)%Z) by (apply Z.mod_pos_bound; lia).
      assert (Hq : (0 <= q mod Z.of_nat nC < Z.of_nat nC)%Z) by (apply Z.mod_pos_bound; lia).
      assert (Key : forall n x i, (0 < n)%nat -> (i < n)%nat ->
        csum n (fun u => W n (Z.of_nat u * (x - Z.of_nat i))) = if (i =? Z.to_nat (x mod Z.of_nat n))%nat then RtoC (INR n) else 0).
      { intros n x i Hn Hi. rewrite W_sum by auto.
        assert (B : ((x - Z.of_nat i) mod Z.of_nat n =? 0)%Z = (i =? Z.to_nat (x mod Z.of_nat n))%nat).
        { assert (Hx : (0 <= x mod Z.of_nat n < Z.of_nat n)%Z) by (apply Z.mod_pos_bound; lia).
          apply eq_true_iff_eq. rewrite Z.eqb_eq, Nat.eqb_eq. split; intros H.
          - apply Z.mod_divide in H; [|lia]. destruct H as [c Hc].
            assert (x = Z.of_nat n * c + Z.of_nat i)%Z by lia.
            assert (x mod Z.of_nat n = Z.of_nat i)%Z; [|lia].
            symmetry. apply Z.mod_unique with c; [lia|auto].
          - subst i. rewrite Z2Nat.id by lia. rewrite Zminus_mod_idemp_r, Z.sub_diag. apply Z.mod_0_l. lia. }
        rewrite B. reflexivity. }
      etransitivity; [apply (@csum_single nR (Z.to_nat (p mod Z.of_nat nR))); [lia|]|].
      + intros i Hi Hne. apply csum_zero. intros j Hj. rewrite (Key nR) by lia.
        apply Nat.eqb_neq in Hne. rewrite Hne. ring.
      + cbv beta. etransitivity; [apply (@csum_single nC (Z.to_nat (q mod Z.of_nat nC))); [lia|]|].
        * intros j Hj Hne. rewrite (Key nC) by lia. apply Nat.eqb_neq in Hne. rewrite Hne. ring.
        * cbv beta. rewrite !Key by lia. rewrite !Nat.eqb_refl. rewrite !RtoC_mult. ring.
  Qed.

  Lemma circular a b (p q : Z) :
    csum2 nR nC (fun u v => (D a u v * D b u v) * (W nR (Z.of_nat u * p) * W nC (Z.of_nat v * q))) =
    RtoC (INR nR * INR nC * rsum nR (fun i => rsum nC (fun j => b i j *
      a (Z.to_nat ((p - Z.of_nat i) mod Z.of_nat nR)) (Z.to_nat ((q - Z.of_nat j) mod Z.of_nat nC)))))%R.
  Proof.
    transitivity (csum2 nR nC (fun i j => RtoC (b i j) *
       csum2 nR nC (fun u v => D a u v * (W nR (Z.of_nat u * (p - Z.of_nat i)) * W nC (Z.of_nat v * (q - Z.of_nat j)))))).
    - transitivity (csum2 nR nC (fun u v => csum2 nR nC (fun i j => RtoC (b i j) * 
        (D a u v * (W nR (Z.of_nat u * (p - Z.of_nat i)) * W nC (Z.of_nat v * (q - Z.of_nat j))))))).
      + apply csum2_ext. intros u v _ _. unfold D at 2.
        set (X := D a u v). set (Y := W nR (Z.of_nat u * p) * W nC (Z.of_nat v * q)).
        replace (X * csum2 nR nC (fun i j => RtoC (b i j) * (W nR (- (Z.of_nat u * Z.of_nat i)) * W nC (- (Z.of_nat v * Z.of_nat j)))) * Y)
          with (csum2 nR nC (fun i j => RtoC (b i j) * (W nR (- (Z.of_nat u * Z.of_nat i)) * W nC (- (Z.of_nat v * Z.of_nat j)))) * (X * Y)) by ring.
        rewrite <- csum2_scal_r. apply csum2_ext. intros i j _ _. unfold Y.
        replace (Z.of_nat u * (p - Z.of_nat i))%Z with (- (Z.of_nat u * Z.of_nat i) + Z.of_nat u * p)%Z by ring.
        replace (Z.of_nat v * (q - Z.of_nat j))%Z with (- (Z.of_nat v * Z.of_nat j) + Z.of_nat v * q)%Z by ring.
        rewrite !W_plus. ring.
      + rewrite csum2_swap. apply csum2_ext. intros i j _ _. apply csum2_scal.
    - transitivity (csum2 nR nC (fun i j => RtoC (INR nR * INR nC * (b i j *
        a (Z.to_nat ((p - Z.of_nat i) mod Z.of_nat nR)) (Z.to_nat ((q - Z.of_nat j) mod Z.of_nat nC))))%R)).
      + apply csum2_ext. intros i j _ _. rewrite inversion, !RtoC_mult. ring.
      + unfold csum2. rewrite <- rsum_scal.
        rewrite (csum_ext (g := fun i => RtoC (INR nR * INR nC * rsum nC (fun j => b i j *
          a (Z.to_nat ((p - Z.of_nat i) mod Z.of_nat nR)) (Z.to_nat ((q - Z.of_nat j) mod Z.of_nat nC))))%R)).
        * apply csum_RtoC.
        * intros i _. rewrite csum_RtoC. f_equal. apply rsum_scal.
  Qed.

  (** the transform of a real image is Hermitian *)
  Lemma D_conj a u v : (u < nR)%nat -> (0 < v)%nat -> (v < nC)%nat ->
    conj (D a ((nR - u) mod nR) (nC - v)) = D a u v.
  Proof.
    intros Hu Hv0 Hv. unfold D, csum2. rewrite conj_csum. apply csum_ext. intros i _.
    rewrite conj_csum. apply csum_ext. intros j _.
    rewrite !conj_mult, conj_RtoC, !conj_W, !Z.opp_involutive. f_equal. f_equal.
    - rewrite (@W_mod nR (Z.of_nat _ * _)), (@W_mod nR (- _)) by auto. f_equal.
      rewrite Nat2Z.inj_mod. rewrite Z.mul_mod_idemp_l by lia. rewrite Nat2Z.inj_sub by lia.
      replace ((Z.of_nat nR - Z.of_nat u) * Z.of_nat i)%Z with (- (Z.of_nat u * Z.of_nat i) + Z.of_nat i * Z.of_nat nR)%Z by ring.
      apply Z.mod_add. lia.
    - rewrite (@W_mod nC (Z.of_nat _ * _)), (@W_mod nC (- _)) by auto. f_equal.
      rewrite Nat2Z.inj_sub by lia.
      replace ((Z.of_nat nC - Z.of_nat v) * Z.of_nat j)%Z with (- (Z.of_nat v * Z.of_nat j) + Z.of_nat j * Z.of_nat nC)%Z by ring.
      apply Z.mod_add. lia.
  Qed.
End D.

(** ---- the transforms of Conv_Spec ---- *)
Section Spec.
  Variables nR nC : nat.
  Hypothesis HR : (0 < nR)%nat.
  Hypothesis HC : (0 < nC)%nat.
  Let half := (nC / 2 + 1)%nat.
  Definition im (a : list R) (i j : nat) : R := nth (i * nC + j) a 0%R.

  Lemma W_angle u v i j : W nR (Z.of_nat u * Z.of_nat i) * W nC (Z.of_nat v * Z.of_nat j) = expi (angle nR nC u v i j).
  Proof.
    unfold W. rewrite <- expi_plus. f_equal. unfold angle. rewrite !mult_IZR, <- !INR_IZR_INZ.
    unfold Rdiv. ring.
  Qed.
  Lemma r2c_length a : length (dft_r2c nR nC a) = (nR * half)%nat.
  Proof. unfold dft_r2c. now rewrite map_length, seq_length. Qed.
  Lemma r2c_nth a u v : (u < nR)%nat -> (v < half)%nat ->
    nth (u * half + v) (dft_r2c nR nC a) (0, 0)%R = D nR nC (im a) u v.
  Proof.
    intros Hu Hv. unfold dft_r2c.
    rewrite (nth_indep _ (0, 0)%R ((fun z => (rsum nR (fun i => rsum nC (fun j => nth (i * nC + j) a 0 * cos (angle nR nC (z / half) (z mod half) i j))),
     - rsum nR (fun i => rsum nC (fun j => nth (i * nC + j) a 0 * sin (angle nR nC (z / half) (z mod half) i j))))) 0%nat)%R)
      by (rewrite map_length, seq_length; fold half; nia).
    fold half. rewrite (map_nth (fun z => (rsum nR (fun i => rsum nC (fun j => nth (i * nC + j) a 0 * cos (angle nR nC (z / half) (z mod half) i j))),
     - rsum nR (fun i => rsum nC (fun j => nth (i * nC + j) a 0 * sin (angle nR nC (z / half) (z mod half) i j)))))%R).
    rewrite seq_nth by nia. cbn [Nat.add].
    destruct (@rowcol_div half u v Hv) as [-> ->].
    unfold D, csum2. rewrite csum_parts. f_equal.
    - apply rsum_ext. intros i _. rewrite csum_parts. cbn [fst]. apply rsum_ext. intros j _.
      rewrite <- !conj_W, <- conj_mult, W_angle. unfold conj, expi, RtoC, Cmult, im. cbn [fst snd]. ring.
    - rewrite <- (Rmult_1_l (rsum _ _)), Ropp_mult_distr_l, <- rsum_scal. apply rsum_ext. intros i _.
      rewrite csum_parts. cbn [snd]. rewrite <- rsum_scal. apply rsum_ext. intros j _.
      rewrite <- !conj_W, <- conj_mult, W_angle. unfold conj, expi, RtoC, Cmult, im. cbn [fst snd]. ring.
  Qed.

  (** [h] holds the product of the transforms of a and b *)
  Lemma c2r_ok a b h p q :
    (forall u v, (u < nR)%nat -> (v < half)%nat -> nth (u * half + v) h (0, 0)%R = D nR nC (im a) u v * D nR nC (im b) u v) ->
    (p < nR)%nat -> (q < nC)%nat ->
    nth (p * nC + q) (dft_c2r nR nC h) 0%R =
    (INR nR * INR nC * rsum nR (fun i => rsum nC (fun j => im b i j *
      im a (Z.to_nat ((Z.of_nat p - Z.of_nat i) mod Z.of_nat nR)) (Z.to_nat ((Z.of_nat q - Z.of_nat j) mod Z.of_nat nC)))))%R.
  Proof.
    intros Hh Hp Hq.
    assert (HH : forall u v, (u < nR)%nat -> (v < nC)%nat -> hermitian nR nC h u v = D nR nC (im a) u v * D nR nC (im b) u v).
    { intros u v Hu Hv. unfold hermitian. fold half. destruct (Nat.ltb_spec v half) as [L|L].
      - apply Hh; auto.
      - assert (E := Hh ((nR - u) mod nR)%nat (nC - v)%nat).
        assert (Hd : (nC < 2 * (nC / 2) + 2)%nat) by (pose proof (Nat.div_mod nC 2); pose proof (Nat.mod_upper_bound nC 2); lia).
        rewrite E; [|apply Nat.mod_upper_bound; lia|unfold half in *; lia].
        rewrite <- (D_conj HR HC (im a) Hu (v := v)) by (unfold half in *; lia).
        rewrite <- (D_conj HR HC (im b) Hu (v := v)) by (unfold half in *; lia).
        rewrite <- conj_mult.
        destruct (D nR nC (im a) ((nR - u) mod nR) (nC - v) * D nR nC (im b) ((nR - u) mod nR) (nC - v)) as [x y]. reflexivity. }
    unfold dft_c2r.
    rewrite (nth_indep _ 0%R ((fun z => rsum nR (fun u => rsum nC (fun v =>
      fst (hermitian nR nC h u v) * cos (angle nR nC u v (z / nC) (z mod nC)) -
      snd (hermitian nR nC h u v) * sin (angle nR nC u v (z / nC) (z mod nC))))) 0%nat)%R)
      by (rewrite map_length, seq_length; nia).
    rewrite (map_nth (fun z => rsum nR (fun u => rsum nC (fun v =>
      fst (hermitian nR nC h u v) * cos (angle nR nC u v (z / nC) (z mod nC)) -
      snd (hermitian nR nC h u v) * sin (angle nR nC u v (z / nC) (z mod nC))))))%R.
    rewrite seq_nth by nia. cbn [Nat.add]. destruct (@rowcol_div nC p q Hq) as [-> ->].
    assert (E := circular HR HC (im a) (im b) (Z.of_nat p) (Z.of_nat q)).
    apply (f_equal fst) in E. unfold RtoC at 1 in E. cbn [fst] in E. rewrite <- E.
    unfold csum2. rewrite csum_parts. cbn [fst]. apply rsum_ext. intros u Hu. rewrite csum_parts. cbn [fst].
    apply rsum_ext. intros v Hv. rewrite HH by auto. rewrite W_angle. unfold expi, Cmult. cbn [fst snd]. ring.
  Qed.
End Spec.
