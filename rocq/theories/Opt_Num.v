(** Proofs about NotANumber and the conversions of option values. *)
From Coq Require Import Ascii String List ZArith Lia Bool.
From Verif Require Import Base CmdLine_Model StrUtil_Proof CmdLine_Spec Opt_Model Opt_Spec.
Local Open Scope list_scope.
Set Implicit Arguments.
Unset Strict Implicit.

Lemma dig_is c : Dig c <-> is_digit c = true.
Proof.
  unfold Dig, code, is_digit, digit_val.
  destruct (Nat.leb_spec 48 (nat_of_ascii c)); destruct (Nat.leb_spec (nat_of_ascii c) 57);
    cbv [andb]; split; intros; try lia; try discriminate; auto.
Qed.
Lemma dig_val c : Dig c -> digit_val c = Some (Z.of_nat (code c) - 48)%Z.
Proof.
  unfold Dig, digit_val, code. intros H.
  rewrite (proj2 (Nat.leb_le 48 _)) by lia. rewrite (proj2 (Nat.leb_le _ 57)) by lia. reflexivity.
Qed.
Lemma not_dig c : ~ Dig c -> is_digit c = false.
Proof. intros H. destruct (is_digit c) eqn:E; auto. exfalso. apply H. now apply dig_is. Qed.

Lemma isdigit_dig c : Dig c -> isdigit c = Ok true.
Proof.
  intros H. unfold isdigit. rewrite (proj2 (Nat.ltb_lt (nat_of_ascii c) 128)) by (unfold Dig, code in H; lia).
  f_equal. now apply dig_is.
Qed.
Lemma isdigit_not c : (code c < 128)%nat -> ~ Dig c -> isdigit c = Ok false.
Proof.
  intros L H. unfold isdigit. rewrite (proj2 (Nat.ltb_lt (nat_of_ascii c) 128)) by exact L.
  f_equal. now apply not_dig.
Qed.
Lemma code_neq c n : (n < 256)%nat -> code c <> n -> ch_eqb c (ascii_of_nat n) = false.
Proof.
  intros L H. apply ch_eqb_false. intros ->. apply H. unfold code. now apply nat_ascii_embedding.
Qed.
Lemma dig_code c n : (n < 48 \/ 57 < n)%nat -> (n < 256)%nat -> Dig c -> ch_eqb c (ascii_of_nat n) = false.
Proof. intros L M H. apply code_neq; auto. unfold Dig in H. lia. Qed.

Lemma nan_posint_good v m : Positive v m -> NotANumber v kPosInt = Ok false.
Proof.
  intros (Hne & Hd & Hz & _). destruct v as [|c d]; [congruence|]. apply Forall_cons_iff in Hd. destruct Hd as [Hc _].
  cbn [NotANumber]. rewrite (isdigit_dig Hc). cbn [bind].
  rewrite (@code_neq c 48) by (try lia; exact (Hz c d eq_refl)). reflexivity.
Qed.
Lemma nan_posint_bad v : Alien (fun c => 49 <= code c <= 57)%nat v -> NotANumber v kPosInt = Ok true.
Proof.
  intros H. destruct v as [|c d]; [reflexivity|]. destruct (H c d eq_refl) as [L N]. cbn [NotANumber].
  destruct (is_digit c) eqn:E.
  - assert (D : Dig c) by (now apply dig_is). rewrite (isdigit_dig D). cbn [bind].
    replace (ch_eqb c (ascii_of_nat 48)) with true; [reflexivity|]. symmetry. apply ch_eqb_true.
    unfold Dig in D. assert (code c = 48%nat) by lia. unfold code in *. rewrite <- H0. now rewrite ascii_nat_embedding.
  - rewrite (isdigit_not L); [reflexivity|]. intros D. apply dig_is in D. congruence.
Qed.
Lemma nan_digits v : v <> [] -> Forall Dig v -> NotANumber v kAnyInt = Ok false.
Proof.
  intros Hne Hd. destruct v as [|c d]; [congruence|]. apply Forall_cons_iff in Hd. destruct Hd as [Hc _].
  cbn [NotANumber]. unfold dash. rewrite (@dig_code c 45) by (auto; lia). rewrite (isdigit_dig Hc). reflexivity.
Qed.
Lemma nan_int_good v : Good Int v -> NotANumber v kAnyInt = Ok false.
Proof.
  intros [(Hne & Hd & _)|(d & -> & Hne & Hd & _)].
  - now apply nan_digits.
  - cbn [NotANumber]. unfold dash. rewrite ch_eqb_refl. now apply nan_digits.
Qed.
Lemma nan_int_bad v : Bad Int v -> NotANumber v kAnyInt = Ok true.
Proof.
  intros H. destruct v as [|c d]; [reflexivity|]. destruct (H c d eq_refl) as [L N]. cbn [NotANumber].
  unfold dash. rewrite (ch_eqb_false (a:=c)) by tauto. rewrite (isdigit_not L) by tauto. reflexivity.
Qed.
Lemma nan_number v r : r = kPosReal \/ r = kAnyReal -> Number v -> NotANumber v r = Ok false.
Proof.
  intros Hr [(c & d & -> & D)|(c & d & -> & D)].
  - destruct Hr as [-> | ->]; cbn [NotANumber]; unfold dash; rewrite (@dig_code c 45) by (auto; lia);
      rewrite (@dig_code c 46) by (auto; lia); rewrite (isdigit_dig D); reflexivity.
  - destruct Hr as [-> | ->]; cbn [NotANumber]; unfold dash;
      rewrite (@dig_code c 45) by (auto; lia); rewrite (isdigit_dig D); reflexivity.
Qed.
Lemma nan_posreal_good v : Good PosReal v -> NotANumber v kPosReal = Ok false.
Proof. intros [_ H]. apply nan_number; auto. Qed.
Lemma nan_real_good v : Good Real v -> NotANumber v kAnyReal = Ok false.
Proof.
  intros [_ [H|(d & -> & H)]].
  - apply nan_number; auto.
  - cbn [NotANumber]. unfold dash. rewrite ch_eqb_refl. apply nan_number; auto.
Qed.
Lemma nan_posreal_bad v : Bad PosReal v -> NotANumber v kPosReal = Ok true.
Proof.
  intros H. destruct v as [|c d]; [reflexivity|]. destruct (H c d eq_refl) as [L N]. cbn [NotANumber].
  destruct (ch_eqb c dash); auto.
  rewrite (ch_eqb_false (a:=c)) by tauto. rewrite (isdigit_not L) by tauto. reflexivity.
Qed.
Lemma nan_real_bad v : Bad Real v -> NotANumber v kAnyReal = Ok true.
Proof.
  intros H. destruct v as [|c d]; [reflexivity|]. destruct (H c d eq_refl) as [L N]. cbn [NotANumber].
  unfold dash. rewrite (ch_eqb_false (a:=c)) by tauto. rewrite (ch_eqb_false (a:=c)) by tauto.
  rewrite (isdigit_not L) by tauto. reflexivity.
Qed.

(** conversions *)
Lemma read_decimal v : Forall Dig v -> forall a, read_digits v a =
  fold_left (fun a c => (10 * a + (Z.of_nat (code c) - 48))%Z) v a.
Proof.
  induction v as [|c v IH]; intros H a; [reflexivity|]. apply Forall_cons_iff in H. destruct H as [Hc Hv].
  cbn [read_digits fold_left]. rewrite (dig_val Hc). now apply IH.
Qed.
Lemma fold_nonneg v : Forall Dig v -> forall a, (0 <= a)%Z ->
  (0 <= fold_left (fun a c => (10 * a + (Z.of_nat (code c) - 48))%Z) v a)%Z.
Proof.
  induction v as [|c v IH]; intros H a Ha; [exact Ha|]. apply Forall_cons_iff in H. destruct H as [Hc Hv].
  cbn [fold_left]. apply IH; auto. unfold Dig in Hc. lia.
Qed.
Lemma decimal_nonneg v : Forall Dig v -> (0 <= decimal v)%Z.
Proof. intros H. apply fold_nonneg; auto. lia. Qed.
Lemma cstr_no_nul v : no_nul v -> c_str v = v.
Proof.
  intros H. unfold c_str. replace (index_of (ch_eqb zero) v) with (@None nat); auto.
  symmetry. induction v as [|c v IH]; [reflexivity|]. cbn [index_of].
  assert (N : ch_eqb zero c = false).
  { apply ch_eqb_false. intros E. apply H. left. symmetry. exact E. }
  rewrite N. rewrite IH; auto. intros I. apply H. right. exact I.
Qed.
Lemma digits_no_nul v : Forall Dig v -> no_nul v.
Proof.
  intros H I. rewrite Forall_forall in H. specialize (H _ I). unfold Dig, code in H.
  rewrite nat_ascii_embedding in H by lia. lia.
Qed.
Lemma digits_read_atox v : v <> [] -> Forall Dig v ->
  (match skip_spaces v with
   | c :: t => if ch_eqb c (ascii_of_nat 45) then (- read_digits t 0)%Z
               else if ch_eqb c (ascii_of_nat 43) then read_digits t 0
               else read_digits (skip_spaces v) 0
   | [] => 0%Z
   end) = decimal v.
Proof.
  intros Hne H. destruct v as [|c v]; [congruence|]. pose proof H as H'. apply Forall_cons_iff in H. destruct H as [Hc Hv].
  cbn [skip_spaces]. rewrite (digit_not_space (proj1 (dig_is c) Hc)).
  rewrite (@dig_code c 45) by (auto; lia). rewrite (@dig_code c 43) by (auto; lia).
  now rewrite (read_decimal H').
Qed.
Lemma digits_integer v : Forall Dig v -> integer v = decimal v.
Proof.
  intros H. destruct v as [|c v]; [reflexivity|]. apply Forall_cons_iff in H. destruct H as [Hc Hv].
  unfold integer. change (Ascii.eqb c (ascii_of_nat 45)) with (ch_eqb c (ascii_of_nat 45)).
  now rewrite (@dig_code c 45) by (auto; lia).
Qed.
Lemma to_int_id z : (- 2 ^ 31 <= z < 2 ^ 31)%Z -> to_int z = z.
Proof. intros H. unfold to_int. rewrite Z.mod_small by lia. lia. Qed.
Lemma to_ulong_id z : (0 <= z < 2 ^ 63)%Z -> to_ulong z = z.
Proof. intros H. unfold to_ulong. rewrite Z.mod_small by lia. reflexivity. Qed.

Lemma atoi_positive v : Positive v (2 ^ 31 - 1) -> atoi (c_str v) = Ok (integer v).
Proof.
  intros (Hne & Hd & _ & Hm). rewrite (cstr_no_nul (digits_no_nul Hd)). unfold atoi.
  rewrite (digits_read_atox Hne Hd). rewrite (digits_integer Hd). pose proof (decimal_nonneg Hd).
  unfold fits_int, INT_MIN, INT_MAX. rewrite (proj2 (Z.leb_le _ (decimal v))) by lia.
  rewrite (proj2 (Z.leb_le (decimal v) _)) by lia. reflexivity.
Qed.
Lemma atol_digits v : v <> [] -> Forall Dig v -> (decimal v < 2 ^ 63)%Z -> atol (c_str v) = Ok (decimal v).
Proof.
  intros Hne Hd Hm. rewrite (cstr_no_nul (digits_no_nul Hd)). unfold atol.
  rewrite (digits_read_atox Hne Hd). pose proof (decimal_nonneg Hd).
  rewrite (proj2 (Z.leb_le _ (decimal v))) by lia. rewrite (proj2 (Z.ltb_lt (decimal v) _)) by lia. reflexivity.
Qed.
Lemma atol_int v : Good Int v -> exists z, atol (c_str v) = Ok z /\ to_int z = integer v.
Proof.
  intros [(Hne & Hd & Hm)|(d & -> & Hne & Hd & Hm)].
  - exists (decimal v). pose proof (decimal_nonneg Hd). split.
    + apply atol_digits; auto. lia.
    + rewrite (digits_integer Hd). apply to_int_id. lia.
  - exists (- decimal d)%Z. pose proof (decimal_nonneg Hd). split.
    + rewrite cstr_no_nul.
      2:{ intros [I|I]; [discriminate I|]. exact (digits_no_nul Hd I). }
      unfold atol. cbn [skip_spaces].
      replace (is_space (ascii_of_nat 45)) with false by reflexivity.
      rewrite ch_eqb_refl. rewrite (read_decimal Hd). fold (decimal d).
      rewrite (proj2 (Z.leb_le _ (- decimal d))) by lia. rewrite (proj2 (Z.ltb_lt (- decimal d) _)) by lia. reflexivity.
    + unfold integer. rewrite Ascii.eqb_refl. apply to_int_id. lia.
Qed.

Lemma solver_valid v : ValidNLOptSolverName v = true <-> In v solver_names.
Proof.
  unfold ValidNLOptSolverName. rewrite existsb_exists. split.
  - intros (x & Hx & E). apply str_eqb_true in E. subst. exact Hx.
  - intros H. exists v. split; [exact H|apply str_eqb_refl].
Qed.
