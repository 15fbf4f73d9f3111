(** mp_qrsolv() in exact arithmetic: the damped normal equations. *)
From Coq Require Import ZArith List Bool Lia Reals Lra Permutation.
From Verif Require Import Base Num Sums Stats_Model Stats_Spec Stats_Proof DE_Model LM_Model LM_Spec DE_Proof LM_QR LM_Solve.
Import ListNotations.
Set Implicit Arguments. Unset Strict Implicit.
Local Open Scope R_scope.

Notation en := (@en R NumR).
Notation vn := (@vn R NumR).

Lemma rsum_update n k f g : (k < n)%nat -> (forall i, (i < n)%nat -> i <> k -> g i = f i) -> rsum n g = rsum n f + (g k - f k).
Proof.
  intros K H. assert (E : rsum n (fun i => g i - f i) = g k - f k).
  { apply (@rsum_single n k (fun i => g i - f i)); [exact K|]. intros i Hi Nk. rewrite H by assumption. ring. }
  rewrite rsum_minus in E. lra.
Qed.

Lemma rot_spec a b : b <> 0 -> let c := fst (rot NumR a b) in let s := snd (rot NumR a b) in
  c * c + s * s = 1 /\ - s * a + c * b = 0.
Proof.
  intros B. unfold rot, p5, p25. cbn [nltb nabs ndiv nmul nadd nsqrt ndec NumR].
  assert (H : forall t, let u := 5 / IZR (10 ^ 1) / sqrt (25 / IZR (10 ^ 2) + 25 / IZR (10 ^ 2) * t * t) in u * u * (1 + t * t) = 1).
  { intros t. cbv zeta. assert (IZR (10 ^ 1) = 10) as -> by reflexivity. assert (IZR (10 ^ 2) = 100) as -> by reflexivity. set (w := 25 / 100 + 25 / 100 * t * t).
    assert (W : 0 < w) by (unfold w; nra). pose proof (sqrt_lt_R0 w W) as P. pose proof (sqrt_sqrt w (Rlt_le _ _ W)) as Q.
    replace (5 / 10 / sqrt w * (5 / 10 / sqrt w) * (1 + t * t)) with (w / (sqrt w * sqrt w)) by (unfold w at 1; field; lra).
    rewrite Q. field. lra. }
  destruct (Rltb (Rabs a) (Rabs b)) eqn:E; cbv zeta; cbn [fst snd].
  - specialize (H (a / b)). cbv zeta in H. set (u := 5 / IZR (10 ^ 1) / sqrt (25 / IZR (10 ^ 2) + 25 / IZR (10 ^ 2) * (a / b) * (a / b))) in *. split; [|field; exact B].
    rewrite <- H. ring.
  - assert (A : a <> 0). { intros ->. apply Rltb_false in E. rewrite Rabs_R0 in E. pose proof (Rabs_pos_lt b B). lra. }
    specialize (H (b / a)). cbv zeta in H. set (u := 5 / IZR (10 ^ 1) / sqrt (25 / IZR (10 ^ 2) + 25 / IZR (10 ^ 2) * (b / a) * (b / a))) in *. split; [|field; exact A].
    rewrite <- H. ring.
Qed.

Section E.
Variable m n : nat.
Hypothesis NM : (n <= m)%nat.

(** the triangular matrix being built, by rows: rows before [j] have their
    diagonal entry in [sd] *)
Definition row (j : nat) (sd : list R) (r : matrix R) (k a : nat) : R :=
  if (k <? a)%nat then en r a k else if (k =? a)%nat then (if (k <? j)%nat then vn sd k else en r k k) else 0.
Definition gram (j : nat) sd r a b : R := rsum n (fun k => row j sd r k a * row j sd r k b).
Definition rhs (j : nat) sd r wa a : R := rsum n (fun k => row j sd r k a * vn wa k).
(** the row being eliminated *)
Definition ext (k : nat) (sd : list R) (a : nat) : R := if (k <=? a)%nat then vn sd a else 0.

(** a rotation of row [k] and the extra row *)
Lemma givens_exact j k r sd wa q r' sd' wa' q' : (j <= k < n)%nat -> shape m n r -> length sd = n -> length wa = n ->
  givens NumR n k (r, sd, wa, q) = Ok (r', sd', wa', q') ->
  shape m n r' /\ length sd' = n /\ length wa' = n /\
  (forall a b, (a < n)%nat -> (b < n)%nat -> gram j sd' r' a b + ext (S k) sd' a * ext (S k) sd' b = gram j sd r a b + ext k sd a * ext k sd b) /\
  (forall a, (a < n)%nat -> rhs j sd' r' wa' a + ext (S k) sd' a * q' = rhs j sd r wa a + ext k sd a * q) /\
  (forall a, (a <= k)%nat -> (a < n)%nat -> vn sd' a = vn sd a) /\
  (forall a b, (a < n)%nat -> (b < n)%nat -> (a < b)%nat \/ (a = b /\ a <> k) -> en r' a b = en r a b) /\
  (vn sd k <> 0 -> en r' k k <> 0).
Proof.
  intros K Sh Ls Lw E. destruct (@givens_ok R NumR m n NM r sd wa q k Sh Ls Lw) as (r1 & sd1 & wa1 & q1 & E1 & S1 & L1 & W1 & H); [lia|].
  rewrite E1 in E. apply Ok_inj in E. injection E as -> -> -> ->. split; [exact S1|]. split; [exact L1|]. split; [exact W1|].
  cbn [neqb nofZ NumR] in H. destruct (Reqb (vn sd k) 0) eqn:Z.
  - destruct H as (-> & -> & -> & ->). apply Reqb_true in Z.
    assert (X : forall a, ext (S k) sd a = ext k sd a).
    { intros a. unfold ext. destruct (Nat.leb_spec (S k) a), (Nat.leb_spec k a); try lia; try reflexivity. assert (a = k) by lia. subst. now rewrite Z. }
    split; [intros a b _ _; now rewrite !X|]. split; [intros a _; now rewrite X|]. split; [reflexivity|]. split; [reflexivity|]. intros Q. contradiction.
  - apply Reqb_false in Z. cbv zeta in H. destruct H as (HR & HS & HW & HQ). pose proof (@rot_spec (en r k k) (vn sd k) Z) as Ro. cbv zeta in Ro.
    set (c := fst (rot NumR (en r k k) (vn sd k))) in *. set (s := snd (rot NumR (en r k k) (vn sd k))) in *. destruct Ro as (C1 & C2).
    cbn [nadd nmul nneg NumR] in *.
    assert (Rk : forall a, (a < n)%nat -> row j sd' r' k a = c * row j sd r k a + s * ext k sd a).
    { intros a Ha. unfold row, ext. assert (k <? j = false)%nat as -> by (apply Nat.ltb_ge; lia).
      destruct (Nat.ltb_spec k a) as [Hka|Hka].
      - rewrite HR by lia. rewrite Nat.eqb_refl. destruct (Nat.eqb_spec a k); [lia|]. assert (k <? a = true)%nat as -> by (apply Nat.ltb_lt; lia).
        assert (k <=? a = true)%nat as -> by (apply Nat.leb_le; lia). reflexivity.
      - destruct (Nat.eqb_spec k a) as [<-|Ne].
        + rewrite HR by lia. rewrite !Nat.eqb_refl, Nat.leb_refl. reflexivity.
        + destruct (Nat.leb_spec k a); [lia|]. ring. }
    assert (Xk : forall a, (a < n)%nat -> ext (S k) sd' a = - s * row j sd r k a + c * ext k sd a).
    { intros a Ha. unfold row, ext. assert (k <? j = false)%nat as -> by (apply Nat.ltb_ge; lia).
      destruct (Nat.ltb_spec k a) as [Hka|Hka].
      - rewrite HS by lia. assert (k <? a = true)%nat as -> by (apply Nat.ltb_lt; lia). assert (k <=? a = true)%nat as -> by (apply Nat.leb_le; lia).
        assert (S k <=? a = true)%nat as -> by (apply Nat.leb_le; lia). reflexivity.
      - assert (S k <=? a = false)%nat as -> by (apply Nat.leb_gt; lia). destruct (Nat.eqb_spec k a) as [<-|Ne].
        + rewrite Nat.leb_refl. lra.
        + destruct (Nat.leb_spec k a); [lia|]. ring. }
    assert (Ro : forall i a, (i < n)%nat -> (a < n)%nat -> i <> k -> row j sd' r' i a = row j sd r i a).
    { intros i a Hi Ha Nk. unfold row. destruct (Nat.ltb_spec i a) as [Hia|Hia].
      - rewrite HR by lia. destruct (Nat.eqb_spec i k); [lia|reflexivity].
      - destruct (Nat.eqb_spec i a) as [<-|]; [|reflexivity]. destruct (Nat.ltb_spec i j) as [Hij|Hij].
        + rewrite HS by lia. assert (k <? i = false)%nat as -> by (apply Nat.ltb_ge; lia). reflexivity.
        + rewrite HR by lia. destruct (Nat.eqb_spec i k); [lia|reflexivity]. }
    split; [|split; [|split; [|split]]].
    + intros a b Ha Hb. unfold gram. rewrite (@rsum_update n k (fun i => row j sd r i a * row j sd r i b) (fun i => row j sd' r' i a * row j sd' r' i b)); [|lia|].
      * rewrite !Rk, !Xk by assumption. set (u := row j sd r k a). set (v := row j sd r k b). set (x := ext k sd a). set (y := ext k sd b).
        transitivity (rsum n (fun k0 : nat => row j sd r k0 a * row j sd r k0 b) - u * v + (c * c + s * s) * (u * v + x * y)); [ring|rewrite C1; ring].
      * intros i Hi Nk. rewrite !Ro by assumption. reflexivity.
    + intros a Ha. unfold rhs. rewrite (@rsum_update n k (fun i => row j sd r i a * vn wa i) (fun i => row j sd' r' i a * vn wa' i)); [|lia|].
      * rewrite Rk, Xk by assumption. rewrite HW, HQ by lia. rewrite Nat.eqb_refl. set (u := row j sd r k a). set (x := ext k sd a). set (v := vn wa k).
        transitivity (rsum n (fun k0 : nat => row j sd r k0 a * vn wa k0) - u * v + (c * c + s * s) * (u * v + x * q)); [ring|rewrite C1; ring].
      * intros i Hi Nk. rewrite Ro by assumption. rewrite HW by assumption. destruct (Nat.eqb_spec i k); [lia|reflexivity].
    + intros a Hak Ha. rewrite HS by assumption. assert (k <? a = false)%nat as -> by (apply Nat.ltb_ge; lia). reflexivity.
    + intros a b Ha Hb Q. rewrite HR by assumption. destruct (Nat.eqb_spec b k) as [->|]; [|reflexivity].
      destruct (Nat.eqb_spec a k); [lia|]. destruct (Nat.ltb_spec k a); [lia|reflexivity].
    + intros _. rewrite HR by lia. rewrite !Nat.eqb_refl. intros Q. set (u := en r k k) in *. set (v := vn sd k) in *.
      assert (X : (c * u + s * v) * (c * u + s * v) + (- s * u + c * v) * (- s * u + c * v) = (c * c + s * s) * (u * u + v * v)) by ring.
      rewrite Q, C2, C1 in X. assert (0 < v * v) by nra. nra.
Qed.

(** [d2 a]: the square of the entry of the diagonal matrix for column [a] *)
Lemma eliminate_exact ip diag x j r sd wa r' sd' wa' : perm n ip -> length diag = n -> length x = n -> (j < n)%nat -> shape m n r -> length sd = n -> length wa = n ->
  eliminate NumR n ip diag x j (r, sd, wa) = Ok (r', sd', wa') ->
  shape m n r' /\ length sd' = n /\ length wa' = n /\
  (forall a b, (a < n)%nat -> (b < n)%nat -> gram (S j) sd' r' a b = gram j sd r a b +
      (if ((a =? j) && (b =? j))%nat then vn diag (nth j ip 0%nat) * vn diag (nth j ip 0%nat) else 0)) /\
  (forall a, (a < n)%nat -> rhs (S j) sd' r' wa' a = rhs j sd r wa a) /\
  (forall a, (a < j)%nat -> vn sd' a = vn sd a) /\ (vn diag (nth j ip 0%nat) <> 0 -> vn sd' j <> 0) /\
  (forall a b, (a < n)%nat -> (b < n)%nat -> (a < b)%nat \/ (a = b /\ (a < j)%nat) -> en r' a b = en r a b) /\
  en r' j j = vn x j.
Proof.
  intros P Ld Lx J Sh Ls Lw E.
  destruct (@eliminate_ok R NumR m n NM ip diag x j r sd wa P Ld Lx J Sh Ls Lw) as (r2 & sd2 & wa2 & E2 & S2 & L2 & W2 & r1 & sd1 & wa1 & S1 & L1 & H & -> & HS & HR).
  rewrite E2 in E. apply Ok_inj in E. injection E as -> -> ->. split; [exact S2|]. split; [exact L2|]. split; [exact W2|].
  set (d := vn diag (nth j ip 0%nat)) in *.
  (* storing the diagonal entry changes no row *)
  assert (Rw : forall k a, row (S j) sd' r' k a = row j sd1 r1 k a).
  { intros k a. unfold row. rewrite HR. destruct (Nat.ltb_spec k a).
    - destruct (Nat.eqb_spec a j), (Nat.eqb_spec k j); cbn [andb]; try lia; reflexivity.
    - destruct (Nat.eqb_spec k a) as [<-|]; [|reflexivity]. rewrite HS, HR.
      destruct (Nat.ltb_spec k j), (Nat.ltb_spec k (S j)), (Nat.eqb_spec k j); cbn [andb]; try lia; try reflexivity. subst k. reflexivity. }
  assert (G : forall a b, gram (S j) sd' r' a b = gram j sd1 r1 a b) by (intros; apply rsum_ext; intros; now rewrite !Rw).
  assert (Hh : forall a, rhs (S j) sd' r' wa' a = rhs j sd1 r1 wa' a) by (intros; apply rsum_ext; intros; now rewrite !Rw).
  assert (M : (forall a b, (a < n)%nat -> (b < n)%nat -> gram j sd1 r1 a b = gram j sd r a b + (if ((a =? j) && (b =? j))%nat then d * d else 0)) /\
              (forall a, (a < n)%nat -> rhs j sd1 r1 wa' a = rhs j sd r wa a) /\
              (forall a, (a < j)%nat -> vn sd1 a = vn sd a) /\ (d <> 0 -> en r1 j j <> 0) /\
              (forall a b, (a < n)%nat -> (b < n)%nat -> (a < b)%nat \/ (a = b /\ (a < j)%nat) -> en r1 a b = en r a b)).
  { cbn [neqb nofZ NumR] in H. destruct (Reqb d 0) eqn:Z.
    - apply Reqb_true in Z. destruct H as (-> & -> & ->). split; [|split; [reflexivity|split; [reflexivity|split; [intros Q; contradiction|reflexivity]]]].
      intros a b Ha Hb. rewrite Z. destruct (_ && _); ring.
    - destruct H as (sd0 & q & L0 & D0 & Eg).
      assert (Q := fun A B => @for_from_ok (matrix R * list R * list R * R) (fun k '(r1, sd1, wa1, q) => shape m n r1 /\ length sd1 = n /\ length wa1 = n /\
        (forall a b, (a < n)%nat -> (b < n)%nat -> gram j sd1 r1 a b + ext k sd1 a * ext k sd1 b = gram j sd r a b + (if ((a =? j) && (b =? j))%nat then d * d else 0)) /\
        (forall a, (a < n)%nat -> rhs j sd1 r1 wa1 a + ext k sd1 a * q = rhs j sd r wa a) /\
        (forall a, (a < j)%nat -> vn sd1 a = vn sd a) /\ (k = j -> vn sd1 j = d) /\ ((j < k)%nat -> d <> 0 -> en r1 j j <> 0) /\
        (forall a b, (a < n)%nat -> (b < n)%nat -> (a < b)%nat \/ (a = b /\ (a < j)%nat) -> en r1 a b = en r a b))
        (givens NumR n) _ _ _ _ A B Eg). cbv beta iota in Q. destruct Q as (_ & _ & _ & Q1 & Q2 & Q3 & _ & Q4 & Q5).
      + split; [exact Sh|]. split; [exact L0|]. split; [exact Lw|].
        assert (X : forall a, (a < n)%nat -> ext j sd0 a = if (a =? j)%nat then d else 0).
        { intros a Ha. unfold ext. rewrite D0 by assumption. destruct (Nat.leb_spec j a), (Nat.eqb_spec a j); try lia; reflexivity. }
        assert (Y : forall k a, (k < n)%nat -> row j sd0 r k a = row j sd r k a).
        { intros k a Hk. unfold row. destruct (k <? a)%nat; [reflexivity|]. destruct (k =? a)%nat; [|reflexivity]. destruct (Nat.ltb_spec k j); [|reflexivity].
          rewrite D0 by assumption. destruct (Nat.eqb_spec k j); [lia|]. destruct (Nat.leb_spec j k); [lia|reflexivity]. }
        split; [|split; [|split; [|split; [|split]]]].
        * intros a b Ha Hb. rewrite !X by assumption. f_equal; [apply rsum_ext; intros; now rewrite !Y|]. destruct (a =? j)%nat, (b =? j)%nat; cbn [andb]; ring.
        * intros a Ha. cbn [nofZ NumR]. rewrite Rmult_0_r, Rplus_0_r. apply rsum_ext. intros; now rewrite Y.
        * intros a Ha. rewrite D0 by lia. destruct (Nat.eqb_spec a j); [lia|]. destruct (Nat.leb_spec j a); [lia|reflexivity].
        * intros _. rewrite D0 by assumption. rewrite Nat.eqb_refl. reflexivity.
        * intros; lia.
        * reflexivity.
      + intros k [[[ra sa] wa2'] qa] [[[rb sb] wb] qb] Hk (Sa & La & Wa & A1 & A2 & A3 & A4 & A5 & A6) Ek.
        destruct (@givens_exact j k ra sa wa2' qa rb sb wb qb) as (Sb & Lb & Wb & B1 & B2 & B3 & B4 & B5); [lia|assumption|assumption|assumption|exact Ek|].
        split; [exact Sb|]. split; [exact Lb|]. split; [exact Wb|]. split; [|split; [|split; [|split; [|split]]]].
        * intros a b Ha Hb. rewrite B1 by assumption. now apply A1.
        * intros a Ha. rewrite B2 by assumption. now apply A2.
        * intros a Ha. rewrite B3 by lia. now apply A3.
        * intros; lia.
        * intros _ Hd. destruct (Nat.eq_dec k j) as [->|Nk].
          -- apply B5. rewrite A4 by reflexivity. exact Hd.
          -- rewrite B4; [apply A5; [lia|exact Hd]|lia|lia|right; lia].
        * intros a b Ha Hb O. rewrite B4; [now apply A6|assumption|assumption|lia].
      + replace (j + (n - j))%nat with n in * by lia.
        assert (X : forall a, (a < n)%nat -> ext n sd1 a = 0) by (intros a Ha; unfold ext; destruct (Nat.leb_spec n a); [lia|reflexivity]).
        split; [|split; [|split; [exact Q3|split; [exact (Q4 J)|exact Q5]]]].
        * intros a b Ha Hb. rewrite <- Q1 by assumption. rewrite !X by assumption. ring.
        * intros a Ha. rewrite <- Q2 by assumption. rewrite !X by assumption. ring. }
  destruct M as (M1 & M2 & M3 & M4 & M5). split; [intros; rewrite G; now apply M1|]. split; [intros; rewrite Hh; now apply M2|].
  split; [intros a Ha; rewrite HS; destruct (Nat.eqb_spec a j); [lia|now apply M3]|]. split; [intros Hd; rewrite HS, Nat.eqb_refl; now apply M4|].
  split; [|rewrite HR, Nat.eqb_refl; reflexivity].
  intros a b Ha Hb O. rewrite HR. destruct (Nat.eqb_spec a j), (Nat.eqb_spec b j); cbn [andb]; try lia; now apply M5.
Qed.

(** the upper triangular matrix that is given *)
Definition ut (r : matrix R) (k a : nat) : R := if (k <=? a)%nat then en r k a else 0.

(** x solves (R^T R + P^T D^2 P) z = R^T qtb, x = P z, when D is not singular *)
Lemma qrsolv_exact r ip diag qtb r' x sd : shape m n r -> perm n ip -> length diag = n -> (n <= length qtb)%nat ->
  (forall l, (l < n)%nat -> vn diag l <> 0) -> qrsolv NumR n r ip diag qtb = Ok (r', x, sd) ->
  shape m n r' /\ length x = n /\ length sd = n /\ (forall a b, (a <= b < n)%nat -> en r' a b = en r a b) /\
  (forall l, (l < n)%nat -> vn sd l <> 0) /\
  forall a, (a < n)%nat ->
    rsum n (fun b => rsum n (fun k => ut r k a * ut r k b) * vn x (nth b ip 0%nat)) + vn diag (nth a ip 0%nat) * vn diag (nth a ip 0%nat) * vn x (nth a ip 0%nat) =
    rsum n (fun k => ut r k a * vn qtb k).
Proof.
  intros Sh P Ld Lq Dn E.
  destruct (@qrsolv_ok R NumR m n NM r ip diag qtb Sh P Ld Lq) as (r2 & x2 & sd2 & E2 & S2 & Lx & Ls & r0 & x0 & wa0 & wa1 & wa2 & wa3 & ns & S0 & Lx0 & L0 & L1 & L2 & L3 & Hns & R0 & X0 & W0 & El & N1 & N2 & W2 & Eb & X).
  rewrite E2 in E. apply Ok_inj in E. injection E as -> -> ->. clear E2.
  assert (Q := fun A B => @for_ok (matrix R * list R * list R) (fun j '(r1, sd1, w1) => shape m n r1 /\ length sd1 = n /\ length w1 = n /\
    (forall a b, (a < n)%nat -> (b < n)%nat -> gram j sd1 r1 a b = rsum n (fun k => ut r k a * ut r k b) +
       (if ((a =? b) && (a <? j))%nat then vn diag (nth a ip 0%nat) * vn diag (nth a ip 0%nat) else 0)) /\
    (forall a, (a < n)%nat -> rhs j sd1 r1 w1 a = rsum n (fun k => ut r k a * vn qtb k)) /\
    (forall a, (a < j)%nat -> (a < n)%nat -> vn sd1 a <> 0) /\
    (forall a b, (a < n)%nat -> (b < n)%nat -> (a < b)%nat \/ (a = b /\ (a < j)%nat) -> en r1 a b = en r a b))
    _ _ _ _ A B El). cbv beta iota in Q. destruct Q as (_ & _ & _ & Q1 & Q2 & Q3 & Q4).
  - split; [exact S0|]. split; [apply repeat_length|]. split; [exact L0|].
    assert (Rw : forall k a, (k < n)%nat -> (a < n)%nat -> row 0 (zeros NumR n) r0 k a = ut r k a).
    { intros k a Hk Ha. unfold row, ut. destruct (Nat.ltb_spec k a).
      - rewrite R0 by assumption. destruct (Nat.leb_spec a k); [lia|]. destruct (Nat.leb_spec k a); [reflexivity|lia].
      - destruct (Nat.eqb_spec k a) as [<-|]; [|destruct (Nat.leb_spec k a); [lia|reflexivity]]. destruct (Nat.ltb_spec k 0); [lia|].
        rewrite R0 by assumption. rewrite Nat.leb_refl. reflexivity. }
    split; [|split; [|split]].
    + intros a b Ha Hb. assert (a <? 0 = false)%nat as -> by (apply Nat.ltb_ge; lia). rewrite andb_false_r, Rplus_0_r. apply rsum_ext. intros k Hk. now rewrite !Rw.
    + intros a Ha. apply rsum_ext. intros k Hk. rewrite Rw by assumption. now rewrite W0.
    + intros; lia.
    + intros a b Ha Hb O. rewrite R0 by assumption. destruct (Nat.leb_spec a b); [reflexivity|lia].
  - intros j [[ra sa] wa] [[rb sb] wb] Hj (Sa & La & Wa & A1 & A2 & A3 & A4) Ej.
    destruct (@eliminate_exact ip diag x0 j ra sa wa rb sb wb P Ld Lx0 Hj Sa La Wa Ej) as (Sb & Lb & Wb & B1 & B2 & B3 & B4 & B5 & B6).
    split; [exact Sb|]. split; [exact Lb|]. split; [exact Wb|]. split; [|split; [|split]].
    + intros a b Ha Hb. rewrite B1, A1 by assumption. rewrite Rplus_assoc. f_equal.
      destruct (Nat.eqb_spec a b) as [<-|Nab]; cbn [andb].
      * destruct (Nat.ltb_spec a j), (Nat.ltb_spec a (S j)), (Nat.eqb_spec a j); cbn [andb]; try lia; subst; ring.
      * destruct (Nat.eqb_spec a j), (Nat.eqb_spec b j); cbn [andb]; try lia; ring.
    + intros a Ha. rewrite B2 by assumption. now apply A2.
    + intros a Haj Ha. destruct (Nat.eq_dec a j) as [->|]; [apply B4; apply Dn; apply (perm_get P Hj)|]. rewrite B3 by lia. apply A3; lia.
    + intros a b Ha Hb O. destruct (Nat.eq_dec a b) as [<-|Nab].
      * destruct (Nat.eq_dec a j) as [->|]; [rewrite B6; now apply X0|]. rewrite B5; [apply A4|lia|lia|right]; try lia; right; lia.
      * rewrite B5; [apply A4|lia|lia|left]; try lia; left; lia.
  - split; [exact S2|]. split; [exact Lx|]. split; [exact Ls|]. split; [intros a b Hab; apply Q4; lia|]. split; [intros l Hl; apply Q3; lia|].
    assert (ns = n) as ->. { destruct (Nat.eq_dec ns n); [assumption|]. specialize (N2 ltac:(lia)). cbn [neqb nofZ NumR] in N2. apply Reqb_true in N2. exfalso. apply (Q3 ns); [lia|lia|exact N2]. }
    destruct (@back_subst_ok R NumR m n NM n r' sd wa2 (Nat.le_refl n) S2 Ls L2) as (w & Ew & Lw & _ & Bs). rewrite Ew in Eb. apply Ok_inj in Eb. subst w.
    (* the triangular system *)
    assert (Tri : forall k, (k < n)%nat -> rsum n (fun b => row n sd r' k b * vn wa3 b) = vn wa1 k).
    { intros k Hk. destruct (Bs k Hk) as (sum & Esum & Ek). cbn [nsub ndiv NumR] in Ek.
      assert (Es : sum = rsum (n - S k) (fun i => en r' (S k + i) k * vn wa3 (S k + i))).
      { revert Esum. cbn [nadd nmul NumR]. intros Esum.
        assert (Q := fun A B => @for_from_ok R (fun e s => s = rsum (e - S k) (fun i => en r' (S k + i) k * vn wa3 (S k + i))) _ _ _ _ _ A B Esum).
        cbv beta in Q. replace (S k + (n - S k) - S k)%nat with (n - S k)%nat in Q by lia. apply Q.
        - rewrite Nat.sub_diag. reflexivity.
        - intros i s s' Hi Hs. rewrite (@get2_ok R NumR m n r' i k S2) by lia. cbn [bind]. rewrite (@get_vn R NumR wa3 i) by lia. cbn [bind]. intros Q'. apply Ok_inj in Q'. subst s' s.
          replace (S i - S k)%nat with (S (i - S k)) by lia. cbn [rsum]. replace (S k + (i - S k))%nat with i by lia. reflexivity. }
      assert (Z : vn sd k <> 0) by (apply Q3; lia). rewrite W2 in Ek by assumption. assert (k <? n = true)%nat as Ln by (apply Nat.ltb_lt; lia). rewrite Ln in Ek.
      transitivity (rsum (S k + (n - S k)) (fun b => row n sd r' k b * vn wa3 b)); [f_equal; lia|]. rewrite rsum_app. cbn [rsum].
      rewrite rsum_zero; [|intros b Hb; unfold row; destruct (Nat.ltb_spec k b); [lia|]; destruct (Nat.eqb_spec k b); [lia|ring]].
      unfold row at 1. rewrite Nat.ltb_irrefl, Nat.eqb_refl, Ln. rewrite Ek.
      rewrite (@rsum_ext (n - S k) _ (fun i => en r' (S k + i) k * vn wa3 (S k + i))); [|intros i Hi; unfold row; destruct (Nat.ltb_spec k (S k + i)); [reflexivity|lia]].
      rewrite <- Es. field. exact Z. }
    intros a Ha.
    rewrite (@rsum_ext n _ (fun b => rsum n (fun k => ut r k a * ut r k b) * vn wa3 b)) by (intros b Hb; now rewrite X).
    rewrite X by exact Ha. rewrite <- Q2 by exact Ha. unfold rhs.
    rewrite (@rsum_ext n (fun k => row n sd r' k a * vn wa1 k) (fun k => rsum n (fun b => row n sd r' k a * (row n sd r' k b * vn wa3 b)))).
    2:{ intros k Hk. rewrite rsum_scal, Tri by assumption. reflexivity. }
    rewrite rsum_swap.
    rewrite (@rsum_ext n (fun j : nat => rsum n (fun i : nat => row n sd r' i a * (row n sd r' i j * vn wa3 j))) (fun b => gram n sd r' a b * vn wa3 b)).
    2:{ intros b Hb. unfold gram. rewrite <- rsum_scal_r. apply rsum_ext. intros; ring. }
    rewrite (@rsum_ext n (fun b => gram n sd r' a b * vn wa3 b) (fun b => rsum n (fun k => ut r k a * ut r k b) * vn wa3 b +
      (if (a =? b)%nat then vn diag (nth a ip 0%nat) * vn diag (nth a ip 0%nat) * vn wa3 b else 0))).
    2:{ intros b Hb. rewrite Q1 by assumption. assert (a <? n = true)%nat as -> by (now apply Nat.ltb_lt). rewrite andb_true_r. destruct (a =? b)%nat; ring. }
    rewrite rsum_plus. f_equal. rewrite (@rsum_single n a); [rewrite Nat.eqb_refl; reflexivity|exact Ha|]. intros i Hi Ne. destruct (Nat.eqb_spec a i); [congruence|reflexivity].
Qed.
End E.
