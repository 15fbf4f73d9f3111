(** Texts for real numbers that meet the contract [PrintfOK] of Save_Spec.v: a number
    is written as an integer with an exponent, rounded to the nearest. This shows the
    contract can be met; it is not a model of printf. *)
From Coq Require Import Ascii String List ZArith Lia Reals Lra Bool.
From Flocq Require Import Core.
From Verif Require Import StrUtil_Spec StrUtil_Proof Config_Spec Save_Spec.
Import ListNotations.
Local Open Scope list_scope.

Definition digit_of (v : Z) : ascii := ascii_of_nat (Z.to_nat (48 + v)).
Fixpoint print (fuel : nat) (z : Z) : text :=
  match fuel with
  | O => []
  | S k => if (z <? 10)%Z then [digit_of z] else print k (z / 10) ++ [digit_of (z mod 10)]
  end.
Lemma digit_of_val v : (0 <= v <= 9)%Z -> DigitVal (digit_of v) v.
Proof.
  intros H. split; auto. unfold digit_of. apply nat_ascii_embedding. lia.
Qed.
Lemma print_digits k : forall z, (0 <= z < 10 ^ Z.of_nat k)%Z -> (0 < k)%nat -> Digits (print k z) z.
Proof.
  induction k as [|k IH]; intros z Hz Hk; [lia|]. cbn [print]. destruct (Z.ltb_spec z 10).
  - apply Dig_one. apply digit_of_val. lia.
  - replace (Digits (print k (z / 10) ++ [digit_of (z mod 10)]) z) with (Digits (print k (z / 10) ++ [digit_of (z mod 10)]) (10 * (z / 10) + z mod 10))
      by (f_equal; symmetry; apply Z.div_mod; lia). apply Dig_more.
    + destruct k as [|k]; [cbn in Hz; lia|]. apply IH; [|lia]. split; [apply Z.div_pos; lia|].
      apply Z.div_lt_upper_bound; [lia|]. rewrite Nat2Z.inj_succ, Z.pow_succ_r in Hz by lia. lia.
    + apply digit_of_val. pose proof (Z.mod_pos_bound z 10). lia.
Qed.
Lemma print_length k : forall z, (List.length (print k z) <= k)%nat.
Proof. induction k as [|k IH]; intros z; cbn [print]; [auto|]. destruct (z <? 10)%Z; cbn; [lia|]. rewrite app_length. specialize (IH (z / 10)%Z). cbn. lia. Qed.

Definition sign_of (n : Z) : text := if (n <? 0)%Z then [ch 45] else [].
Definition sci (n e : Z) : text := sign_of n ++ print 40 (Z.abs n) ++ [ch 101] ++ sign_of e ++ print 40 (Z.abs e).
Lemma sign_ok n : SignText (sign_of n) (n <? 0)%Z.
Proof. unfold sign_of. destruct (n <? 0)%Z; constructor. Qed.
Lemma sci_decimal n e : (Z.abs n < 10 ^ 40)%Z -> (Z.abs e < 10 ^ 40)%Z -> Decimal (sci n e) (IZR n * powerRZ 10 e).
Proof.
  intros Hn He. unfold Decimal, sci.
  assert (Dn : Digits (print 40 (Z.abs n)) (Z.abs n)) by (apply print_digits; [change (Z.of_nat 40) with 40%Z; lia|lia]).
  assert (De : Digits (print 40 (Z.abs e)) (Z.abs e)) by (apply print_digits; [change (Z.of_nat 40) with 40%Z; lia|lia]).
  exists (sign_of n), (n <? 0)%Z, (print 40 (Z.abs n)), (Z.abs n), [], [], ([ch 101] ++ sign_of e ++ print 40 (Z.abs e)), e, (Z.abs n).
  split; [reflexivity|]. split; [apply sign_ok|]. split; [exact Dn|]. split; [constructor|]. split.
  - pose proof (Ex_some (sign_of e) (e <? 0)%Z _ _ (sign_ok e) De) as H.
    replace (if (e <? 0)%Z then (- Z.abs e)%Z else Z.abs e) with e in H by (destruct (Z.ltb_spec e 0); lia). exact H.
  - split; [rewrite app_nil_r; exact Dn|]. cbn [List.length]. change (Z.of_nat 0) with 0%Z. rewrite Z.sub_0_r. f_equal.
    destruct (Z.ltb_spec n 0); rewrite ?Z.abs_neq, ?Z.abs_eq by lia; rewrite ?opp_IZR; lra.
Qed.
Lemma digit_harmless v : (0 <= v <= 9)%Z -> Harmless (digit_of v).
Proof. intros H. destruct (digit_of_val v H) as [_ E]. unfold Harmless. rewrite E. lia. Qed.
Lemma print_harmless k : forall z, (0 <= z)%Z -> Forall Harmless (print k z).
Proof.
  induction k as [|k IH]; intros z Hz; cbn [print]; [constructor|]. destruct (Z.ltb_spec z 10).
  - constructor; [apply digit_harmless; lia|constructor].
  - apply Forall_app. split; [apply IH; apply Z.div_pos; lia|]. constructor; [|constructor]. apply digit_harmless. pose proof (Z.mod_pos_bound z 10). lia.
Qed.
Lemma sign_harmless n : Forall Harmless (sign_of n).
Proof. unfold sign_of. destruct (n <? 0)%Z; repeat constructor; try (vm_compute; discriminate); intros [A B]; vm_compute in A, B; lia. Qed.
Lemma sci_harmless n e : Forall Harmless (sci n e) /\ (List.length (sci n e) <= 400)%nat.
Proof.
  unfold sci. split.
  - repeat (apply Forall_app; split); try apply sign_harmless; try (apply print_harmless; lia).
    constructor; [|constructor]. repeat split; try (vm_compute; discriminate). intros [A B]; vm_compute in A, B; lia.
  - assert (S : forall n, (List.length (sign_of n) <= 1)%nat) by (intros z; unfold sign_of; destruct (z <? 0)%Z; cbn; lia).
    rewrite !app_length. pose proof (S n). pose proof (S e). pose proof (print_length 40 (Z.abs n)). pose proof (print_length 40 (Z.abs e)). cbn [List.length]. lia.
Qed.

(** the numbers the texts are good for *)
Definition moderate (v : R) : Prop := (v = 0 \/ / IZR (10 ^ 20) <= Rabs v < IZR (10 ^ 20))%R.
Definition f4R (v : R) : text := sci (ZnearestE (v * IZR (10 ^ 4))) (-4).
Definition radix10 : radix := Build_radix 10 eq_refl.
Definition gR (v : R) : text := if Req_EM_T v 0 then sci 0 0 else let e := (mag radix10 v - 6)%Z in sci (ZnearestE (v * bpow radix10 (- e))) e.

Lemma bpow_rz e : bpow radix10 e = powerRZ 10 e.
Proof. rewrite bpow_powerRZ. reflexivity. Qed.
Lemma near_half x : (Rabs (IZR (ZnearestE x) - x) <= / 2)%R.
Proof. rewrite Rabs_minus_sym. apply Znearest_half. Qed.
Lemma near_small x k : (Rabs x <= IZR k)%R -> (Z.abs (ZnearestE x) <= k + 1)%Z.
Proof.
  intros H. pose proof (near_half x) as Hh. apply le_IZR. rewrite abs_IZR, plus_IZR.
  pose proof (Rabs_triang_inv (IZR (ZnearestE x)) x). lra.
Qed.

Lemma moderate_mag v : moderate v -> (v <> 0)%R -> (-19 <= mag radix10 v <= 20)%Z.
Proof.
  intros [H|H] Hv; [contradiction|]. split.
  - replace (-19)%Z with (-20 + 1)%Z by lia. apply mag_ge_bpow. replace (-20 + 1 - 1)%Z with (-20)%Z by lia.
    replace (bpow radix10 (-20)) with (/ IZR (10 ^ 20))%R by reflexivity. tauto.
  - apply mag_le_bpow; [exact Hv|]. replace (bpow radix10 20) with (IZR (10 ^ 20)) by reflexivity. tauto.
Qed.

Lemma printfR : PrintfOK (fun v => v) moderate f4R gR gR.
Proof.
  constructor.
  - intros v Hv. exists (IZR (ZnearestE (v * IZR (10 ^ 4))) * powerRZ 10 (-4))%R. split.
    + apply sci_decimal; [|vm_compute; reflexivity].
      assert (Hs : (Rabs (v * IZR (10 ^ 4)) <= IZR (10 ^ 24))%R).
      { rewrite Rabs_mult, (Rabs_pos_eq (IZR (10 ^ 4))) by (apply IZR_le; vm_compute; discriminate).
        replace (10 ^ 24)%Z with (10 ^ 20 * 10 ^ 4)%Z by reflexivity. rewrite mult_IZR.
        apply Rmult_le_compat_r; [apply IZR_le; vm_compute; discriminate|].
        destruct Hv as [->|Hv]; [rewrite Rabs_R0; apply IZR_le; vm_compute; discriminate|lra]. }
      apply near_small in Hs. assert (10 ^ 24 + 1 < 10 ^ 40)%Z by reflexivity. lia.
    + pose proof (near_half (v * IZR (10 ^ 4))) as H.
      replace (IZR (ZnearestE (v * IZR (10 ^ 4))) * powerRZ 10 (-4) - v)%R
        with ((IZR (ZnearestE (v * IZR (10 ^ 4))) - v * IZR (10 ^ 4)) * / 10000)%R by (change (10 ^ 4)%Z with 10000%Z; simpl powerRZ; field).
      rewrite Rabs_mult, (Rabs_pos_eq (/ 10000)) by lra. lra.
  - intros v Hv. unfold gR. destruct (Req_EM_T v 0) as [Hz|Hz].
    { subst v. exists 0%R. split; [|rewrite Rminus_0_r, Rabs_R0; lra].
      pose proof (sci_decimal 0 0 eq_refl eq_refl) as D. rewrite Rmult_0_l in D. exact D. }
    set (e := (mag radix10 v - 6)%Z). exists (IZR (ZnearestE (v * bpow radix10 (- e))) * powerRZ 10 e)%R.
    pose proof (moderate_mag v Hv Hz) as Hmag.
    assert (Hb : (bpow radix10 e * 100000 <= Rabs v)%R).
    { replace (bpow radix10 e * 100000)%R with (bpow radix10 (mag radix10 v - 1)).
      - apply bpow_mag_le. exact Hz.
      - replace (mag radix10 v - 1)%Z with (e + 5)%Z by (unfold e; lia). rewrite bpow_plus. f_equal. }
    assert (Hu : (Rabs v < bpow radix10 e * 1000000)%R).
    { replace (bpow radix10 e * 1000000)%R with (bpow radix10 (mag radix10 v)).
      - apply bpow_mag_gt.
      - replace (mag radix10 v : Z) with (e + 6)%Z by (unfold e; lia). rewrite bpow_plus. f_equal. }
    assert (Pe : (0 < bpow radix10 e)%R) by apply bpow_gt_0.
    assert (Inv : (bpow radix10 (- e) * bpow radix10 e = 1)%R).
    { rewrite <- bpow_plus. replace (- e + e)%Z with 0%Z by lia. reflexivity. }
    assert (Pi : (0 < bpow radix10 (- e))%R) by apply bpow_gt_0.
    rewrite <- bpow_rz. split.
    + rewrite (bpow_rz e). apply sci_decimal; [|unfold e; assert (40 < 10 ^ 40)%Z by reflexivity; lia].
      assert (Hs : (Rabs (v * bpow radix10 (- e)) <= IZR 1000000)%R).
      { rewrite Rabs_mult, (Rabs_pos_eq (bpow radix10 (- e))) by lra.
        apply Rle_trans with (bpow radix10 e * 1000000 * bpow radix10 (- e))%R; [apply Rmult_le_compat_r; lra|].
        replace (bpow radix10 e * 1000000 * bpow radix10 (- e))%R with (1000000 * (bpow radix10 (- e) * bpow radix10 e))%R by ring.
        rewrite Inv. lra. }
      apply near_small in Hs. assert (1000000 + 1 < 10 ^ 40)%Z by reflexivity. lia.
    + pose proof (near_half (v * bpow radix10 (- e))) as H.
      replace (IZR (ZnearestE (v * bpow radix10 (- e))) * bpow radix10 e - v)%R
        with ((IZR (ZnearestE (v * bpow radix10 (- e))) - v * bpow radix10 (- e)) * bpow radix10 e)%R.
      * rewrite Rabs_mult, (Rabs_pos_eq (bpow radix10 e)) by lra.
        apply Rle_trans with (/ 2 * bpow radix10 e)%R; [apply Rmult_le_compat_r; lra|lra].
      * rewrite Rmult_minus_distr_r. f_equal. rewrite Rmult_assoc, Inv. ring.
  - intros v. apply sci_harmless.
  - intros v. unfold gR. destruct (Req_EM_T v 0); apply sci_harmless.
  - intros v. unfold gR. destruct (Req_EM_T v 0); apply sci_harmless.
Qed.
