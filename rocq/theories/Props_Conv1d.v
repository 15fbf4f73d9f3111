(** C102: convolution of profiles with a PSF, in exact arithmetic and with the exact discrete Fourier transform. *)
From Coq Require Import Reals Lra List Arith ZArith Lia Bool.
From Coquelicot Require Import Complex.
From Verif Require Import Base Num Sums LM_QR Conv_Model Conv_Spec Dft Conv_Proof Conv1d_Model.
Import ListNotations.
Set Implicit Arguments.
Unset Strict Implicit.
Local Open Scope nat_scope.

(** ** Specification *)

(** value number x of a profile, 0 outside *)
Definition zval (data : list R) (x : Z) : R :=
  if ((0 <=? x) && (x <? Z.of_nat (length data)))%Z then nth (Z.to_nat x) data 0%R else 0%R.
(** the PSF divided by its sum *)
Definition unit_psf (psf : list R) : list R := map (fun p => p / rsum (length psf) (fun k => nth k psf 0))%R psf.
(** every value of the PSF times the value of the profile displaced by its offset from the middle of the PSF *)
Definition convolved1 (psf data : list R) (c : nat) : R :=
  rsum (length psf) (fun k => nth k psf 0 * zval data (Z.of_nat c - (Z.of_nat k - Z.of_nat (length psf / 2))))%R.

(** the transforms FFTW computes (FFTW 3 manual, section 4.8.1): sum of a_j exp(-+ 2 pi i v j / n) *)
Definition dft_1d (forward : bool) (n : nat) (a : list (R * R)) : list (R * R) :=
  let s := (if forward then -1 else 1)%R in
  map (fun v =>
    (rsum n (fun j => fst (nth j a (0, 0)) * cos (2 * PI * (INR v * INR j) / INR n) -
                      s * (snd (nth j a (0, 0)) * sin (2 * PI * (INR v * INR j) / INR n))),
     rsum n (fun j => snd (nth j a (0, 0)) * cos (2 * PI * (INR v * INR j) / INR n) +
                      s * (fst (nth j a (0, 0)) * sin (2 * PI * (INR v * INR j) / INR n))))%R) (seq 0 n).

(** ** Proofs *)

Lemma dft_1d_length f n a : length (dft_1d f n a) = n.
Proof. unfold dft_1d. now rewrite map_length, seq_length. Qed.

Lemma nth_map_seq A (f : nat -> A) n k d : k < n -> nth k (map f (seq 0 n)) d = f k.
Proof.
  intros H. rewrite (nth_indep _ d (f 0)) by (rewrite map_length, seq_length; exact H).
  rewrite (map_nth f). now rewrite seq_nth.
Qed.

Lemma W_cs n v j : W n (Z.of_nat v * Z.of_nat j) = expi (2 * PI * (INR v * INR j) / INR n).
Proof. unfold W. rewrite mult_IZR, <- !INR_IZR_INZ. reflexivity. Qed.

Lemma csum_1 f : csum 1 f = f 0.
Proof. cbn [csum]. ring. Qed.

Lemma dft_1d_real n a v : v < n -> (forall j, j < n -> snd (nth j a (0, 0)%R) = 0%R) ->
  nth v (dft_1d true n a) (0, 0)%R = D 1 n (fun _ j => fst (nth j a (0, 0)%R)) 0 v.
Proof.
  intros Hv H0. unfold dft_1d. rewrite nth_map_seq by exact Hv. unfold D, csum2. rewrite csum_1.
  change (- (Z.of_nat 0 * Z.of_nat 0))%Z with 0%Z.
  rewrite csum_parts. f_equal; apply rsum_ext; intros j Hj; rewrite W_0, <- conj_W, W_cs, (H0 j Hj);
    unfold conj, expi, RtoC, Cmult; cbn [fst snd]; ring.
Qed.

Lemma dft_1d_back n a b P q : 0 < n -> q < n ->
  (forall v, v < n -> nth v P (0, 0)%R = Cmult (D 1 n (fun _ j => a j) 0 v) (D 1 n (fun _ j => b j) 0 v)) ->
  fst (nth q (dft_1d false n P) (0, 0)%R) =
  (INR n * rsum n (fun j => b j * a (Z.to_nat ((Z.of_nat q - Z.of_nat j) mod Z.of_nat n))))%R.
Proof.
  intros Hn Hq HP. unfold dft_1d. rewrite nth_map_seq by exact Hq. cbn [fst].
  assert (E := circular Nat.lt_0_1 Hn (fun _ j => a j) (fun _ j => b j) 0%Z (Z.of_nat q)).
  apply (f_equal fst) in E. unfold RtoC at 1 in E. cbn [fst] in E.
  cbn [rsum] in E. rewrite Rplus_0_l in E. change (INR 1) with 1%R in E. rewrite Rmult_1_l in E. rewrite <- E.
  unfold csum2. rewrite csum_1. rewrite csum_parts. cbn [fst]. apply rsum_ext. intros v Hv.
  rewrite (HP v Hv). change (Z.of_nat 0 * 0)%Z with 0%Z. rewrite W_0, W_cs.
  destruct (Cmult (D 1 n (fun _ j => a j) 0 v) (D 1 n (fun _ j => b j) 0 v)) as [x y].
  unfold expi, Cmult, RtoC. cbn [fst snd]. rewrite (Rmult_comm (INR q)). ring.
Qed.

Lemma Normalize1D_ok psf : Normalize1D NumR (length psf) psf = Ok (unit_psf psf).
Proof.
  transitivity (NormalizePSF NumR (length psf) psf); [| apply NormalizePSF_ok].
  unfold Normalize1D, NormalizePSF. rewrite kahan_total_ok by lia.
  match goal with |- context [bind (for_ (length psf) ?f ?s0) _] =>
    destruct (@for_inv R (fun k s => s = rsum k (fun k => nth k psf 0%R)) f (length psf) s0) as (s & E & ->) end.
  - reflexivity.
  - intros k s Hk ->. rewrite (@get_nth R 0%R) by lia. cbn [bind]. eexists; split; reflexivity.
  - rewrite E. reflexivity.
Qed.

Lemma in_range (dest : nat -> nat) m x : (exists k, k < m /\ x = dest k) \/ (forall k, k < m -> x <> dest k).
Proof.
  induction m as [|m IH].
  - right. intros; lia.
  - destruct IH as [(k & Hk & E)|H]; [left; exists k; split; auto|].
    destruct (Nat.eq_dec x (dest m)); [left; exists m; auto|right]. intros k Hk.
    destruct (Nat.eq_dec k m); [subst; auto|apply H; lia].
Qed.

(** writing reals into a complex array of zeros *)
Lemma write_real (src : list R) (dest : nat -> nat) m n :
  m <= length src -> (forall j, j < m -> dest j < n) ->
  (forall j j', j < m -> j' < m -> dest j = dest j' -> j = j') ->
  exists a, for_ m (fun j a => do v <- (do x <- get src j; Ok (x, 0%R)); set a (dest j) v) (repeat (0, 0)%R n) = Ok a /\
    length a = n /\ (forall j, j < m -> fst (nth (dest j) a (0, 0)%R) = nth j src 0%R) /\
    (forall x, (forall j, j < m -> x <> dest j) -> fst (nth x a (0, 0)%R) = 0%R) /\
    (forall x, snd (nth x a (0, 0)%R) = 0%R).
Proof.
  intros Hs Hd Hi.
  destruct (@write1 (R * R) (0, 0)%R (fun j => do x <- get src j; Ok (x, 0%R)) (fun j => (nth j src 0, 0)%R) dest m (repeat (0, 0)%R n))
    as (a & E & L & V & O).
  - intros j Hj. rewrite (@get_nth R 0%R) by lia. reflexivity.
  - intros j Hj. rewrite repeat_length. auto.
  - exact Hi.
  - exists a. split; [exact E|]. rewrite repeat_length in L. split; [exact L|].
    split; [intros j Hj; rewrite V by exact Hj; reflexivity|].
    split; [intros x Hx; rewrite O by exact Hx; rewrite nth_repeat; reflexivity|].
    intros x. destruct (in_range dest m x) as [(k & Hk & ->)|H]; [rewrite V by exact Hk; reflexivity|].
    rewrite O by exact H. rewrite nth_repeat. reflexivity.
Qed.

(** ** C102 *)

(** Each value of the result is the sum over the PSF, divided by its sum, times the displaced values of the profile, which
    is 0 outside: nothing wraps around. *)
Theorem C102_convolution : forall psf data : list R,
  1 <= length psf -> 1 <= length data -> rsum (length psf) (fun k => nth k psf 0%R) <> 0%R ->
  exists out, convolve1D NumR dft_1d psf data = Ok out /\ length out = length data /\
    forall c, c < length data -> nth c out 0%R = convolved1 (unit_psf psf) data c.
Proof.
  intros psf data Hp Hw _. unfold convolve1D, DoFullSetup1D. rewrite Normalize1D_ok. cbn [bind].
  assert (Lu : length (unit_psf psf) = length psf) by (unfold unit_psf; apply map_length).
  set (u := unit_psf psf) in *. set (pw := length psf) in *. set (w := length data) in *. set (n := w + pw - 1).
  pose proof (half_le Hp) as Hh. assert (Hn : 0 < n) by (unfold n; lia).
  unfold ShiftAndWrapPSF1D. change (nofZ NumR 0) with 0%R.
  destruct (@write_real u (wdest n (pw / 2)) pw n) as (b & Eb & Lb & Vb & Ob & Ib).
  { lia. } { intros; apply wdest_lt; exact Hn. }
  { intros j j' Hj Hj' E. apply wdest_inj in E; auto; unfold n; lia. }
  unfold wdest in Eb at 1. rewrite Eb. cbn [bind fst snd]. unfold ConvolveProfile. change (nofZ NumR 0) with 0%R.
  destruct (@write_real data (fun j => j) w n) as (a & Ea & La & Va & Oa & Ia).
  { unfold w; lia. } { intros; unfold n; lia. } { auto. }
  rewrite Ea. cbn [bind].
  destruct (@multiply_ok [0%R] 1 1 [0%R] 1 1 (le_n 1) (le_n 1) (le_n 1) (le_n 1) eq_refl eq_refl n (dft_1d true n a) (dft_1d true n b))
    as (P & EP & LP & VP); [rewrite dft_1d_length; lia ..|].
  rewrite EP. cbn [bind].
  set (raw := dft_1d false n P).
  set (rf := ndiv NumR (nofZ NumR 1) (nofZ NumR (Z.of_nat n))).
  destruct (@write1 R 0%R (fun i => do z <- get raw i; Ok (nmul NumR rf (fst z))) (fun i => (rf * fst (nth i raw (0, 0)))%R)
    (fun i => i) w data) as (out & Eo & Lo & Vo & _).
  { intros j Hj. rewrite (@get_nth (R * R) (0, 0)%R); [reflexivity|]. unfold raw. rewrite dft_1d_length. unfold n. lia. }
  { intros j Hj. exact Hj. } { auto. }
  exists out. split; [exact Eo|]. split; [exact Lo|]. intros c Hc. rewrite (Vo c Hc). unfold raw.
  rewrite (@dft_1d_back n (fun j => fst (nth j a (0, 0)%R)) (fun j => fst (nth j b (0, 0)%R)) P c Hn);
    [| unfold n; lia | intros v Hv; rewrite (VP v Hv), !dft_1d_real by auto; reflexivity].
  rewrite <- Rmult_assoc.
  assert (Ef : (rf * INR n = 1)%R).
  { unfold rf. cbn [ndiv nofZ NumR]. rewrite <- INR_IZR_INZ. field. apply not_0_INR. lia. }
  rewrite Ef, Rmult_1_l. unfold convolved1. rewrite Lu. fold pw.
  rewrite (@rsum_reindex n pw (wdest n (pw / 2))).
  - apply rsum_ext. intros k Hk. rewrite (Vb k Hk). f_equal.
    rewrite wrap_source by (unfold n; lia).
    pose proof (wrap_pixel Hp Hk Hc) as Rx. cbv zeta in Rx. fold n in Rx. unfold zval. fold w.
    set (x := (Z.of_nat c - (Z.of_nat k - Z.of_nat (pw / 2)))%Z) in *.
    destruct ((0 <=? x) && (x <? Z.of_nat w))%Z eqn:Ex.
    + apply andb_prop in Ex. destruct Ex as [Ex1 Ex2]. apply Z.leb_le in Ex1. apply Z.ltb_lt in Ex2.
      rewrite Rx. apply Va. lia.
    + apply Oa. intros j Hj. lia.
  - intros; apply wdest_lt; exact Hn.
  - intros j j' Hj Hj' E. apply wdest_inj in E; auto; unfold n; lia.
  - intros i Hi Hno. rewrite (Ob i Hno). ring.
Qed.
Print Assumptions C102_convolution.

(** In profilefit the model is longer than the data by the length of the PSF on both sides: for the data, no value outside
    the profile is needed. *)
Theorem C102_no_edges : forall (psf model : list R) (nData c : nat),
  1 <= length psf -> 1 <= nData -> length model = nData + 2 * length psf ->
  rsum (length psf) (fun k => nth k psf 0%R) <> 0%R -> c < nData ->
  exists out, convolve1D NumR dft_1d psf model = Ok out /\
    nth (length psf + c) out 0%R =
    rsum (length psf) (fun k => nth k (unit_psf psf) 0 * nth (length psf + c + length psf / 2 - k) model 0)%R.
Proof.
  intros psf model nData c Hp Hd Lm Ht Hc.
  destruct (@C102_convolution psf model Hp ltac:(lia) Ht) as (out & E & _ & V). exists out. split; [exact E|].
  rewrite V by lia. unfold convolved1. assert (Lu : length (unit_psf psf) = length psf) by (unfold unit_psf; apply map_length).
  rewrite Lu. pose proof (half_le Hp) as Hh. apply rsum_ext. intros k Hk. f_equal. unfold zval.
  set (x := (Z.of_nat (length psf + c) - (Z.of_nat k - Z.of_nat (length psf / 2)))%Z).
  replace (0 <=? x)%Z with true by (symmetry; apply Z.leb_le; unfold x; lia).
  replace (x <? Z.of_nat (length model))%Z with true by (symmetry; apply Z.ltb_lt; unfold x; lia).
  cbn [andb]. f_equal. unfold x. lia.
Qed.
Print Assumptions C102_no_edges.

(** without padding, the first value would also receive 1/4 * 8 from the other end *)
Example C102_case :
  rsum 3 (fun k => nth k [1; 2; 1]%R 0%R) = 4%R /\
  convolved1 (unit_psf [1; 2; 1]%R) [4; 0; 8]%R 0 = 2%R /\ convolved1 (unit_psf [1; 2; 1]%R) [4; 0; 8]%R 1 = 3%R /\
  convolved1 (unit_psf [1; 2; 1]%R) [4; 0; 8]%R 2 = 4%R.
Proof.
  unfold convolved1, unit_psf, zval. cbn -[IZR Rmult Rplus Rdiv].
  repeat split; try (change (Pos.to_nat 1) with 1%nat; change (Pos.to_nat 2) with 2%nat; cbv iota; lra).
Qed.
