(** C94: SimpleCheckerboard. *)
From Coq Require Import Reals Lra Lia List ZArith.
From Flocq Require Import Core.Raux.
From Verif Require Import Base Num Board_Model.
Import ListNotations.
Open Scope R_scope.

Lemma int_floor_R a f : 0 <= f < 1 -> int_floor NumR (IZR a + f) = Ok a.
Proof.
  intros F. unfold int_floor. cbn [ntrunc nleb nofZ NumR].
  destruct (Z_le_gt_dec 0 a) as [H|H].
  - apply IZR_le in H. rewrite Ztrunc_floor by lra. rewrite (Zfloor_imp a) by (rewrite plus_IZR; lra).
    rewrite (proj2 (Rleb_true _ _)) by lra. reflexivity.
  - assert (IZR a <= -1) by (apply IZR_le; lia). rewrite Ztrunc_ceil by lra. destruct (Req_dec f 0) as [->|N].
    + rewrite Rplus_0_r, Zceil_IZR, (proj2 (Rleb_true _ _)) by lra. reflexivity.
    + rewrite (Zceil_imp (a + 1)) by (rewrite minus_IZR, plus_IZR; lra). rewrite (proj2 (Rleb_false _ _)) by (rewrite plus_IZR; lra).
      f_equal. lia.
Qed.

(** The pixel [a] columns to the right of the centre and [b] rows above it is the set of
    points less than half a pixel away from (x0 + a, y0 + b) *)
Definition drawn (params : list R) (offset : nat) (x0 y0 : R) (a b : Z) (fx fy : R) : res R :=
  SimpleCheckerboard_value NumR params offset x0 y0 (x0 + IZR a + fx) (y0 + IZR b + fy).
Definition within (f : R) : Prop := - (1 / 2) <= f < 1 / 2.

Lemma drawn_eq params offset x0 y0 a b fx fy : (offset < length params)%nat -> within fx -> within fy ->
  drawn params offset x0 y0 a b fx fy =
  Ok (if Z.eqb (Z.rem (Z.quot b 10) 2) 0 then (if Z.eqb (Z.rem (Z.quot a 10) 2) 0 then nth offset params 0 else 0)
      else (if Z.eqb (Z.rem (Z.quot a 10) 2) 1 then nth offset params 0 else 0)).
Proof.
  intros L Fx Fy. unfold drawn, SimpleCheckerboard_value, within in *. cbn [Nat.add]. rewrite (get_nth 0) by auto. cbn [bind nadd nsub ndec NumR].
  replace (x0 + IZR a + fx - x0 + IZR 5 / IZR (10 ^ 1)) with (IZR a + (fx + 1 / 2)) by (simpl; field).
  replace (y0 + IZR b + fy - y0 + IZR 5 / IZR (10 ^ 1)) with (IZR b + (fy + 1 / 2)) by (simpl; field).
  rewrite !int_floor_R by lra. cbn [bind]. reflexivity.
Qed.

(** Right of the centre and above it: squares of 10 by 10 pixels, bright and dark in turn, beginning with a bright one *)
Theorem C94_board_partial : forall params offset x0 y0 a b fx fy, (offset < length params)%nat -> within fx -> within fy ->
  (0 <= a)%Z -> (0 <= b)%Z ->
  drawn params offset x0 y0 a b fx fy = Ok (if Z.even (a / 10 + b / 10) then nth offset params 0 else 0).
Proof.
  intros params offset x0 y0 a b fx fy L Fx Fy A B. rewrite drawn_eq by auto. f_equal.
  rewrite !Z.quot_div_nonneg by lia. set (u := (a / 10)%Z). set (v := (b / 10)%Z).
  assert (0 <= u)%Z by (apply Z.div_pos; lia). assert (0 <= v)%Z by (apply Z.div_pos; lia).
  rewrite !Z.rem_mod_nonneg by lia. rewrite !Zmod_even, Z.even_add.
  destruct (Z.even u), (Z.even v); reflexivity.
Qed.

(** Left of the centre the squares do not begin: ten columns further to the left the colour is the same *)
Theorem C94_left_refuted : forall params offset x0 y0 a b fx fy, (offset < length params)%nat -> within fx -> within fy ->
  (-9 <= a <= -1)%Z -> drawn params offset x0 y0 a b fx fy = drawn params offset x0 y0 (a + 10) b fx fy.
Proof.
  intros params offset x0 y0 a b fx fy L Fx Fy A. rewrite !drawn_eq by auto.
  assert (Z.quot a 10 = 0)%Z as ->. { apply Z.quot_small_iff; lia. }
  assert (Z.quot (a + 10) 10 = 0)%Z as ->. { apply Z.quot_small_iff; lia. }
  reflexivity.
Qed.

(** ... and every second row of squares is dark from there to the edge of the image *)
Theorem C94_dark_refuted : forall params offset x0 y0 a b fx fy, (offset < length params)%nat -> within fx -> within fy ->
  (a < 10)%Z -> Z.odd (Z.quot b 10) = true -> drawn params offset x0 y0 a b fx fy = Ok 0.
Proof.
  intros params offset x0 y0 a b fx fy L Fx Fy A B. rewrite drawn_eq by auto. f_equal.
  replace (Z.eqb (Z.rem (Z.quot b 10) 2) 0) with false.
  - replace (Z.eqb (Z.rem (Z.quot a 10) 2) 1) with false; [reflexivity|]. symmetry. apply Z.eqb_neq.
    assert (Z.quot a 10 <= 0)%Z. { destruct (Z_le_gt_dec 0 a); [rewrite Z.quot_small; lia|].
      pose proof (Z.quot_rem' a 10) as Q. destruct (@Z.rem_bound_pos_neg a 10 ltac:(lia) ltac:(lia)) as (Q1 & Q2). lia. }
    assert (Z.rem (Z.quot a 10) 2 <= 0)%Z by (apply Z.rem_nonpos; [lia|assumption]). lia.
  - symmetry. apply Z.eqb_neq. intros E. apply Z.rem_divide in E as (k & K); [|lia]. rewrite K, Z.odd_mul in B. cbn in B.
    now rewrite Bool.andb_false_r in B.
Qed.

(** Not all dark: the square of the centre is bright, the one to its right is not; and a row the last theorem is about *)
Example C94_case : within 0 /\ drawn [3] 0 50 50 4 7 0 0 = Ok 3 /\ drawn [3] 0 50 50 14 7 0 0 = Ok 0 /\ drawn [3] 0 50 50 14 17 0 0 = Ok 3 /\
  Z.odd (Z.quot 17 10) = true.
Proof.
  assert (W : within 0) by (unfold within; lra). split; [exact W|]. rewrite !C94_board_partial by (auto; cbn; lia). repeat split; reflexivity.
Qed.

Print Assumptions C94_board_partial.
Print Assumptions C94_left_refuted.
Print Assumptions C94_dark_refuted.
