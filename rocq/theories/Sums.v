(** Finite sums of real numbers, and image arrays. Used by specifications. *)
From Coq Require Import Reals Lra List Arith Lia ZArith Bool.
Import ListNotations.
Local Open Scope R_scope.

(** f 0 + f 1 + ... + f (n-1) *)
Fixpoint rsum (n : nat) (f : nat -> R) : R :=
  match n with O => 0 | S m => rsum m f + f m end.

Lemma rsum_ext n f g : (forall i, (i < n)%nat -> f i = g i) -> rsum n f = rsum n g.
Proof. induction n as [|n IH]; intros H; simpl; auto. rewrite H by lia. rewrite IH; auto. Qed.

Lemma rsum_0 n : rsum n (fun _ => 0) = 0.
Proof. induction n as [|n IH]; simpl; auto. rewrite IH. ring. Qed.

Lemma rsum_zero n f : (forall i, (i < n)%nat -> f i = 0) -> rsum n f = 0.
Proof. intros H. rewrite (rsum_ext n f (fun _ => 0)); auto. apply rsum_0. Qed.

Lemma rsum_plus n f g : rsum n (fun i => f i + g i) = rsum n f + rsum n g.
Proof. induction n as [|n IH]; simpl; [ring|]. rewrite IH. ring. Qed.

Lemma rsum_minus n f g : rsum n (fun i => f i - g i) = rsum n f - rsum n g.
Proof. induction n as [|n IH]; simpl; [ring|]. rewrite IH. ring. Qed.

Lemma rsum_scal n c f : rsum n (fun i => c * f i) = c * rsum n f.
Proof. induction n as [|n IH]; simpl; [ring|]. rewrite IH. ring. Qed.

Lemma rsum_scal_r n c f : rsum n (fun i => f i * c) = rsum n f * c.
Proof. induction n as [|n IH]; simpl; [ring|]. rewrite IH. ring. Qed.

Lemma rsum_const n c : rsum n (fun _ => c) = INR n * c.
Proof. induction n as [|n IH]; [simpl; ring|]. rewrite S_INR. simpl rsum. rewrite IH. ring. Qed.

Lemma rsum_swap n m f : rsum n (fun i => rsum m (f i)) = rsum m (fun j => rsum n (fun i => f i j)).
Proof.
  induction n as [|n IH]; simpl.
  - symmetry. apply rsum_0.
  - rewrite IH. rewrite <- rsum_plus. apply rsum_ext. auto.
Qed.

Lemma rsum_app n m f : rsum (n + m) f = rsum n f + rsum m (fun i => f (n + i)%nat).
Proof.
  induction m as [|m IH]; simpl.
  - rewrite Nat.add_0_r. ring.
  - rewrite Nat.add_succ_r. simpl. rewrite IH. ring.
Qed.

Lemma rsum_S_l n f : rsum (S n) f = f O + rsum n (fun i => f (S i)).
Proof. change (S n) with (1 + n)%nat. rewrite rsum_app. simpl. ring. Qed.

Lemma rsum_rev n f : rsum n f = rsum n (fun i => f (n - 1 - i)%nat).
Proof.
  revert f. induction n as [|n IH]; intros f; auto.
  rewrite (rsum_S_l n (fun i => f (S n - 1 - i)%nat)). simpl rsum. rewrite (IH f).
  replace (S n - 1 - 0)%nat with n by lia. rewrite Rplus_comm. f_equal.
  apply rsum_ext. intros i Hi. f_equal. lia.
Qed.

Lemma rsum_single n k f : (k < n)%nat -> (forall i, (i < n)%nat -> i <> k -> f i = 0) -> rsum n f = f k.
Proof.
  intros Hk H. induction n as [|n IH]; [lia|]. simpl.
  destruct (Nat.eq_dec k n) as [->|Hne].
  - rewrite rsum_zero; [ring|]. intros i Hi. apply H; lia.
  - rewrite IH; [|lia|intros; apply H; lia]. rewrite (H n) by lia. ring.
Qed.

Lemma rsum_nonneg n f : (forall i, (i < n)%nat -> 0 <= f i) -> 0 <= rsum n f.
Proof.
  induction n as [|n IH]; intros H; simpl; [lra|].
  assert (0 <= rsum n f) by (apply IH; auto). assert (0 <= f n) by (apply H; auto). lra.
Qed.

Lemma rsum_le n f g : (forall i, (i < n)%nat -> f i <= g i) -> rsum n f <= rsum n g.
Proof.
  induction n as [|n IH]; intros H; simpl; [lra|].
  assert (rsum n f <= rsum n g) by (apply IH; auto). assert (f n <= g n) by (apply H; auto). lra.
Qed.

Lemma rsum_zero_terms n f : (forall i, (i < n)%nat -> 0 <= f i) -> rsum n f = 0 ->
  forall i, (i < n)%nat -> f i = 0.
Proof.
  induction n as [|n IH]; intros Hp H0 i Hi; [lia|]. simpl in H0.
  assert (0 <= rsum n f) by (apply rsum_nonneg; auto).
  assert (0 <= f n) by (apply Hp; lia).
  assert (rsum n f = 0) by lra. assert (f n = 0) by lra.
  destruct (Nat.eq_dec i n) as [->|]; auto. apply IH; auto; lia.
Qed.

(** n*m terms as n rows of m terms *)
Lemma rsum_rows n m f : rsum (n * m) f = rsum n (fun i => rsum m (fun j => f (i * m + j)%nat)).
Proof.
  induction n as [|n IH]; auto. simpl rsum. rewrite <- IH. simpl Nat.mul.
  rewrite Nat.add_comm, rsum_app. reflexivity.
Qed.

(** sum of a list *)
Definition rsuml (l : list R) : R := fold_right Rplus 0 l.
Lemma rsuml_app a b : rsuml (a ++ b) = rsuml a + rsuml b.
Proof. induction a as [|x a IH]; simpl; [ring|]. unfold rsuml in *. simpl. rewrite IH. ring. Qed.
Lemma rsuml_nth l : rsuml l = rsum (length l) (fun i => nth i l 0).
Proof.
  induction l as [|x l IH]; auto. simpl length. rewrite rsum_S_l. simpl. unfold rsuml in *. simpl. rewrite IH. reflexivity.
Qed.
Lemma fold_left_rsuml l : forall a, fold_left Rplus l a = a + rsuml l.
Proof.
  induction l as [|x l IH]; intros a; simpl; [unfold rsuml; simpl; ring|].
  rewrite IH. unfold rsuml. simpl. ring.
Qed.
Lemma rsuml_map_seq n f : rsuml (map f (seq 0 n)) = rsum n f.
Proof.
  rewrite rsuml_nth, map_length, seq_length. apply rsum_ext. intros i Hi.
  rewrite (nth_indep _ 0 (f O)) by now rewrite map_length, seq_length.
  rewrite map_nth, seq_nth; auto.
Qed.

(** row-major index arithmetic *)
Local Close Scope R_scope.
Lemma rowcol_inj w i j i' j' : j < w -> j' < w -> i * w + j = i' * w + j' -> i = i' /\ j = j'.
Proof.
  intros Hj Hj' E.
  assert (i = i').
  { assert (A : (i * w + j) / w = i).
    { rewrite Nat.div_add_l by lia. rewrite Nat.div_small by lia. lia. }
    assert (B : (i' * w + j') / w = i').
    { rewrite Nat.div_add_l by lia. rewrite Nat.div_small by lia. lia. }
    rewrite E in A. congruence. }
  subst. split; auto. lia.
Qed.
Lemma rowcol_lt w h i j : j < w -> i < h -> i * w + j < w * h.
Proof. intros Hj Hi. assert (S i * w <= h * w) by (apply Nat.mul_le_mono_r; lia). lia. Qed.
Lemma rowcol_div w i j : j < w -> (i * w + j) / w = i /\ (i * w + j) mod w = j.
Proof.
  intros Hj. split.
  - rewrite Nat.div_add_l by lia. rewrite Nat.div_small by lia. lia.
  - rewrite Nat.add_comm, Nat.mod_add by lia. now apply Nat.mod_small.
Qed.
