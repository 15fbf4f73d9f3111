From Coq Require Import ZArith List Lia Bool.
From Verif Require Import Base Num MT_Model MT_Spec.
Local Open Scope Z_scope.
Set Implicit Arguments.
Unset Strict Implicit.

Definition B32 (x : Z) : Prop := 0 <= x < 2 ^ 32.

Lemma bits_bound k x : 0 <= k -> 0 <= x -> (x < 2 ^ k <-> forall n, k <= n -> Z.testbit x n = false).
Proof.
  intros Hk Hx. split.
  - intros H n Hn. destruct (Z.eq_dec x 0) as [->|]; [apply Z.bits_0|].
    apply Z.bits_above_log2; auto. apply Z.log2_lt_pow2; try lia.
    eapply Z.lt_le_trans; [exact H|]. apply Z.pow_le_mono_r; lia.
  - intros H. destruct (Z.eq_dec x 0) as [->|Hne]; [apply Z.pow_pos_nonneg; lia|].
    destruct (Z_lt_le_dec x (2 ^ k)) as [|Hge]; auto. exfalso.
    assert (Hl : k <= Z.log2 x) by (apply Z.log2_le_pow2; lia).
    pose proof (H _ Hl) as E. rewrite Z.bit_log2 in E by lia. discriminate.
Qed.

Lemma B32_bits x : B32 x <-> 0 <= x /\ forall n, 32 <= n -> Z.testbit x n = false.
Proof.
  unfold B32. split.
  - intros [H1 H2]. split; auto. apply bits_bound; auto; lia.
  - intros [H1 H2]. split; auto. apply bits_bound; auto; lia.
Qed.

Lemma B32_lxor a b : B32 a -> B32 b -> B32 (Z.lxor a b).
Proof.
  rewrite !B32_bits. intros [A1 A2] [B1 B2]. split.
  - apply Z.lxor_nonneg. tauto.
  - intros n Hn. rewrite Z.lxor_spec, A2, B2; auto.
Qed.
Lemma B32_lor a b : B32 a -> B32 b -> B32 (Z.lor a b).
Proof.
  rewrite !B32_bits. intros [A1 A2] [B1 B2]. split.
  - apply Z.lor_nonneg. tauto.
  - intros n Hn. rewrite Z.lor_spec, A2, B2; auto.
Qed.
Lemma B32_land a m : 0 <= a -> B32 m -> B32 (Z.land a m).
Proof.
  rewrite !B32_bits. intros A1 [B1 B2]. split.
  - apply Z.land_nonneg. tauto.
  - intros n Hn. rewrite Z.land_spec, B2, andb_false_r; auto.
Qed.
Lemma B32_shiftr a k : 0 <= k -> B32 a -> B32 (Z.shiftr a k).
Proof.
  intros Hk. rewrite !B32_bits. intros [A1 A2]. split.
  - now apply Z.shiftr_nonneg.
  - intros n Hn. rewrite Z.shiftr_spec by lia. apply A2. lia.
Qed.
Lemma B32_const x : (0 <=? x) && (x <? 2 ^ 32) = true -> B32 x.
Proof. intros H. apply andb_true_iff in H. rewrite Z.leb_le, Z.ltb_lt in H. exact H. Qed.

Definition good_v (v : list Z) : Prop := length v = mt_N /\ Forall B32 v.

Lemma get_good v i : good_v v -> (i < mt_N)%nat -> exists x, get v i = Ok x /\ B32 x.
Proof.
  intros [L F] Hi. destruct (get_lt v (i := i)) as (x & E); [lia|]. exists x. split; auto.
  apply get_Ok_iff in E. apply nth_error_In in E. rewrite Forall_forall in F. auto.
Qed.
Lemma upd_Forall {A} (P : A -> Prop) l i x : Forall P l -> P x -> Forall P (upd l i x).
Proof. intros F Hx. revert i. induction F as [|h t Hh Ht IH]; intros [|i]; simpl; constructor; auto. Qed.
Lemma set_good v i x : good_v v -> (i < mt_N)%nat -> B32 x -> exists v', set v i x = Ok v' /\ good_v v'.
Proof.
  intros [L F] Hi Hx. exists (upd v i x). rewrite set_lt by lia. split; auto. split.
  - now rewrite upd_length.
  - now apply upd_Forall.
Qed.

Section W.
  Variable W : Z.
  Hypothesis HW : 32 <= W.

  Lemma wrap_nonneg x : 0 <= wrap W x.
  Proof. unfold wrap. apply Z.mod_pos_bound. apply Z.pow_pos_nonneg; lia. Qed.

  Lemma mask_wrap x m : B32 m -> Z.land (wrap W x) m = Z.land x m.
  Proof.
    intros Hm. apply B32_bits in Hm. destruct Hm as [Hm0 Hm]. apply Z.bits_inj'. intros n Hn.
    rewrite !Z.land_spec. destruct (Z_lt_le_dec n 32) as [Hl|Hl].
    - unfold wrap. rewrite Z.mod_pow2_bits_low by lia. reflexivity.
    - rewrite (Hm n Hl), !andb_false_r. reflexivity.
  Qed.

  Lemma full_B32 : B32 FULL. Proof. apply B32_const. reflexivity. Qed.

  Definition tw (a b c : Z) : Z := Z.lxor c (times_A (joined a b)).

  Lemma joined_B32 a b : B32 a -> B32 b -> B32 (joined a b).
  Proof.
    intros [A1 A2] [B1 B2]. unfold joined, B32.
    pose proof (Z.mod_pos_bound b (2 ^ 31) ltac:(lia)).
    assert (0 <= a / 2 ^ 31 <= 1). { split; [apply Z.div_pos; lia|]. change 1 with ((2 ^ 32 - 1) / 2 ^ 31). apply Z.div_le_mono; lia. }
    change (2 ^ 32) with (2 ^ 31 * 1 + 2 ^ 31). lia.
  Qed.

  Lemma joined_lor a b : B32 a -> 0 <= b -> Z.lor (Z.land a UPPER_MASK) (Z.land b LOWER_MASK) = joined a b.
  Proof.
    intros Ha Hb. unfold joined.
    change LOWER_MASK with (Z.ones 31). rewrite Z.land_ones by lia.
    assert (E1 : Z.land a UPPER_MASK = 2 ^ 31 * (a / 2 ^ 31)).
    { rewrite Z.mul_comm, <- Z.shiftl_mul_pow2, <- Z.shiftr_div_pow2 by lia.
      apply Z.bits_inj'. intros n Hn. rewrite Z.land_spec. change UPPER_MASK with (2 ^ 31).
      rewrite Z.pow2_bits_eqb by lia. rewrite Z.shiftl_spec by lia.
      destruct (Z.eqb_spec 31 n) as [<-|Hne].
      - rewrite andb_true_r, Z.shiftr_spec by lia. f_equal; lia.
      - rewrite andb_false_r. symmetry. destruct (Z_lt_le_dec n 31); [apply Z.testbit_neg_r; lia|].
        rewrite Z.shiftr_spec by lia. apply B32_bits in Ha. apply Ha. lia. }
    rewrite E1. rewrite <- Z.lxor_lor, <- Z.add_nocarry_lxor; auto.
    all: apply Z.bits_inj'; intros n Hn; rewrite Z.bits_0, Z.land_spec;
      rewrite Z.mul_comm, Z.mul_pow2_bits by lia;
      destruct (Z_lt_le_dec n 31); [rewrite Z.testbit_neg_r by lia; reflexivity|rewrite Z.mod_pow2_bits_high by lia; apply andb_false_r].
  Qed.

  Lemma times_A_B32 y : B32 y -> B32 (times_A y).
  Proof.
    intros Hy. unfold times_A. apply B32_lxor.
    - change 2 with (2 ^ 1). rewrite <- Z.shiftr_div_pow2 by lia. apply B32_shiftr; auto; lia.
    - destruct (Z.odd y); apply B32_const; reflexivity.
  Qed.

  Lemma tw_B32 a b c : B32 a -> B32 b -> B32 c -> B32 (tw a b c).
  Proof. intros. unfold tw. apply B32_lxor; auto. apply times_A_B32. apply joined_B32; auto. Qed.

  Lemma twist_ok a b c : B32 a -> B32 b -> B32 c -> twist a b c = Ok (tw a b c).
  Proof.
    intros Ha Hb Hc. unfold twist. rewrite joined_lor by (auto; apply Hb). set (y := joined a b).
    assert (H1 : Z.land y 1 = if Z.odd y then 1 else 0).
    { pose proof (Z.land_ones y 1 ltac:(lia)) as X. change (Z.ones 1) with 1 in X. change (2 ^ 1) with 2 in X. rewrite X.
      apply Zmod_odd. }
    unfold tw. fold y. unfold times_A. rewrite H1.
    rewrite Z.shiftr_div_pow2 by lia. change (2 ^ 1) with 2.
    replace (get mag01 (Z.to_nat (if Z.odd y then 1 else 0))) with (Ok (if Z.odd y then 0x9908b0df else 0)) by (destruct (Z.odd y); reflexivity).
    cbn [bind]. rewrite Z.lxor_assoc. reflexivity.
  Qed.

  Ltac gg v i H := let x := fresh "x" in let E := fresh "E" in let B := fresh "B" in
    destruct (@get_good v i H) as (x & E & B); [unfold mt_N, mt_M in *; lia|]; rewrite E; cbn [bind].

  Definition nz (v : list Z) (i : nat) : Z := nth i v 0.

  Lemma get_nz v i : good_v v -> (i < mt_N)%nat -> get v i = Ok (nz v i) /\ B32 (nz v i).
  Proof.
    intros G Hi. destruct (get_good G Hi) as (x & E & B). apply get_Ok_iff in E. 
    assert (nz v i = x) by (unfold nz; now apply nth_error_nth). subst x. split; auto. apply get_Ok_iff. exact E.
  Qed.
  Lemma set_nz v i x : good_v v -> (i < mt_N)%nat -> B32 x ->
    exists v', set v i x = Ok v' /\ good_v v' /\ nz v' i = x /\ forall j, j <> i -> nz v' j = nz v j.
  Proof.
    intros G Hi Hx. destruct (set_good G Hi Hx) as (v' & E & G'). exists v'. repeat split; auto; try apply G'.
    - rewrite set_lt in E by (destruct G; lia). apply Ok_inj in E. subst v'. unfold nz.
      apply nth_error_nth. rewrite nth_error_upd, Nat.eqb_refl. destruct G as [-> _]. apply Nat.ltb_lt in Hi. now rewrite Hi.
    - intros j Hj. rewrite set_lt in E by (destruct G; lia). apply Ok_inj in E. subst v'. unfold nz.
      assert (A : nth_error (upd v i x) j = nth_error v j).
      { rewrite nth_error_upd. destruct (Nat.eqb_spec i j); [congruence|reflexivity]. }
      destruct (nth_error v j) eqn:Ev.
      + rewrite (nth_error_nth _ _ 0 A), (nth_error_nth _ _ 0 Ev). reflexivity.
      + apply nth_error_None in A, Ev. rewrite !nth_overflow; auto.
  Qed.

  (** words of the next block, from the old words [o] and the new words [w] *)
  Definition next_word (o w : nat -> Z) (k : nat) : Z :=
    tw (o k) (if (k <? mt_N - 1)%nat then o (k + 1)%nat else w 0%nat)
       (if (k <? mt_N - mt_M)%nat then o (k + mt_M)%nat else w (k + mt_M - mt_N)%nat).

  Lemma regenerate_ok v : good_v v -> exists v', regenerate v = Ok v' /\ good_v v' /\
    forall k, (k < mt_N)%nat -> nz v' k = next_word (nz v) (nz v') k.
  Proof.
    intros Hv. unfold regenerate.
    set (P := fun (k : nat) (s : list Z) => good_v s /\ (forall j, (k <= j)%nat -> nz s j = nz v j) /\
                forall j, (j < k)%nat -> nz s j = next_word (nz v) (nz s) j).
    assert (Keep : forall k s s', (k < mt_N)%nat -> P k s -> good_v s' -> (forall j, j <> k -> nz s' j = nz s j) ->
              nz s' k = next_word (nz v) (nz s) k -> P (S k) s').
    { intros k s s' Hk (Gs & U & D) Gs' Same New. split; [exact Gs'|]. split.
      - intros j Hj. rewrite Same by lia. apply U. lia.
      - intros j Hj.
        assert (NW : next_word (nz v) (nz s') j = next_word (nz v) (nz s) j).
        { unfold next_word. f_equal.
          - destruct (Nat.ltb_spec j (mt_N - 1)); auto. apply Same. unfold mt_N in *. lia.
          - destruct (Nat.ltb_spec j (mt_N - mt_M)); auto. apply Same. unfold mt_N, mt_M in *. lia. }
        rewrite NW. destruct (Nat.eq_dec j k) as [->|Hne]; [exact New|].
        rewrite Same by auto. apply D. lia. }
    destruct (@for_inv _ P (fun kk v =>
      do a <- get v kk; do b <- get v (kk + 1)%nat; do c <- get v (kk + mt_M)%nat;
      do x <- twist a b c; set v kk x) (mt_N - mt_M)%nat v) as (v1 & E1 & G1).
    { split; auto. split; auto. intros j Hj; lia. }
    { intros i s Hi Ps. pose proof Ps as (Hs & U & D).
      destruct (@get_nz s i Hs) as [Ea Ba]; [unfold mt_N, mt_M in *; lia|]. rewrite Ea. cbn [bind].
      destruct (@get_nz s (i + 1)%nat Hs) as [Eb Bb]; [unfold mt_N, mt_M in *; lia|]. rewrite Eb. cbn [bind].
      destruct (@get_nz s (i + mt_M)%nat Hs) as [Ec Bc]; [unfold mt_N, mt_M in *; lia|]. rewrite Ec. cbn [bind].
      rewrite twist_ok by auto. cbn [bind].
      destruct (@set_nz s i (tw (nz s i) (nz s (i + 1)%nat) (nz s (i + mt_M)%nat)) Hs) as (s' & Es & Gs & N1 & N2);
        try (unfold mt_N, mt_M in *; lia); try (now apply tw_B32).
      exists s'. split; auto. apply (Keep i s s'); auto; [unfold mt_N, mt_M in *; lia|].
      rewrite N1. unfold next_word.
      destruct (Nat.ltb_spec i (mt_N - 1)); [|unfold mt_N, mt_M in *; lia].
      destruct (Nat.ltb_spec i (mt_N - mt_M)); [|lia].
      rewrite !U by lia. reflexivity. }
    rewrite E1. cbn [bind].
    destruct (@for_from_inv _ P (fun kk v =>
      do a <- get v kk; do b <- get v (kk + 1)%nat; do c <- get v (kk + mt_M - mt_N)%nat;
      do x <- twist a b c; set v kk x) (mt_M - 1)%nat (mt_N - mt_M)%nat v1 G1) as (v2 & E2 & G2).
    { intros i s Hi Ps. pose proof Ps as (Hs & U & D).
      destruct (@get_nz s i Hs) as [Ea Ba]; [unfold mt_N, mt_M in *; lia|]. rewrite Ea. cbn [bind].
      destruct (@get_nz s (i + 1)%nat Hs) as [Eb Bb]; [unfold mt_N, mt_M in *; lia|]. rewrite Eb. cbn [bind].
      destruct (@get_nz s (i + mt_M - mt_N)%nat Hs) as [Ec Bc]; [unfold mt_N, mt_M in *; lia|]. rewrite Ec. cbn [bind].
      rewrite twist_ok by auto. cbn [bind].
      destruct (@set_nz s i (tw (nz s i) (nz s (i + 1)%nat) (nz s (i + mt_M - mt_N)%nat)) Hs) as (s' & Es & Gs & N1 & N2);
        try (unfold mt_N, mt_M in *; lia); try (now apply tw_B32).
      exists s'. split; auto. apply (Keep i s s'); auto; [unfold mt_N, mt_M in *; lia|].
      rewrite N1. unfold next_word.
      destruct (Nat.ltb_spec i (mt_N - 1)); [|unfold mt_N, mt_M in *; lia].
      destruct (Nat.ltb_spec i (mt_N - mt_M)); [lia|].
      rewrite !U by lia. reflexivity. }
    rewrite E2. cbn [bind].
    replace (mt_N - mt_M + (mt_M - 1))%nat with (mt_N - 1)%nat in G2 by reflexivity.
    pose proof G2 as (Hs & U & D).
    destruct (@get_nz v2 (mt_N - 1)%nat Hs) as [Ea Ba]; [unfold mt_N, mt_M in *; lia|]. rewrite Ea. cbn [bind].
    destruct (@get_nz v2 0%nat Hs) as [Eb Bb]; [unfold mt_N, mt_M in *; lia|]. rewrite Eb. cbn [bind].
    destruct (@get_nz v2 (mt_M - 1)%nat Hs) as [Ec Bc]; [unfold mt_N, mt_M in *; lia|]. rewrite Ec. cbn [bind].
    rewrite twist_ok by auto. cbn [bind].
    destruct (@set_nz v2 (mt_N - 1)%nat (tw (nz v2 (mt_N - 1)%nat) (nz v2 0%nat) (nz v2 (mt_M - 1)%nat)) Hs) as (s' & Es & Gs & N1 & N2);
        try (unfold mt_N, mt_M in *; lia); try (now apply tw_B32).
    exists s'. split; auto. split; auto.
    assert (PP : P (S (mt_N - 1)) s').
    { apply (Keep (mt_N - 1)%nat v2 s'); try assumption; [unfold mt_N, mt_M in *; lia|].
      rewrite N1. unfold next_word.
      destruct (Nat.ltb_spec (mt_N - 1) (mt_N - 1)); [lia|].
      destruct (Nat.ltb_spec (mt_N - 1) (mt_N - mt_M)); [unfold mt_N, mt_M in *; lia|].
      rewrite U by lia. replace (mt_N - 1 + mt_M - mt_N)%nat with (mt_M - 1)%nat by (unfold mt_N, mt_M; lia). reflexivity. }
    intros k Hk. apply PP. unfold mt_N in *. lia.
  Qed.

  Definition shape (st : mtstate) : Prop := length (mt_v st) = mt_N.

  Lemma land_full x : Z.land x FULL = x mod 2 ^ 32.
  Proof. change FULL with (Z.ones 32). apply Z.land_ones. lia. Qed.
  Lemma wrap_mod x : (wrap W x) mod 2 ^ 32 = x mod 2 ^ 32.
  Proof. rewrite <- !land_full. apply mask_wrap. apply full_B32. Qed.

  Lemma init_genrand_ok s st : shape st ->
    exists st', init_genrand W s st = Ok st' /\ good_v (mt_v st') /\ mt_i st' = mt_N /\ seed_words s (nz (mt_v st')).
  Proof.
    intros L. unfold init_genrand.
    rewrite set_lt by (rewrite L; unfold mt_N; lia). cbn [bind].
    set (P := fun (k : nat) (v : list Z) => length v = mt_N /\ forall i, (i < k)%nat -> B32 (nz v i) /\
       nz v i = (if (i =? 0)%nat then s else 1812433253 * Z.lxor (nz v (i - 1)) (nz v (i - 1) / 2 ^ 30) + Z.of_nat i) mod 2 ^ 32).
    assert (NU : forall v i x j, (i < length v)%nat -> nz (upd v i x) j = if (i =? j)%nat then x else nz v j).
    { intros v i x j Hi. unfold nz. rewrite <- !nth_default_eq. unfold nth_default. rewrite nth_error_upd.
      apply Nat.ltb_lt in Hi. rewrite Hi, andb_true_r. destruct (i =? j)%nat; reflexivity. }
    match goal with |- context [for_from 1 (mt_N - 1)%nat ?f ?v0] =>
      destruct (@for_from_inv _ P f (mt_N - 1)%nat 1%nat v0) as (v & E & G) end.
    - split; [now rewrite upd_length|]. intros i Hi. assert (i = O) by lia. subst.
      rewrite NU by (rewrite L; unfold mt_N; lia). cbn [Nat.eqb]. split.
      + apply B32_land; [apply wrap_nonneg|apply full_B32].
      + rewrite land_full, wrap_mod. reflexivity.
    - intros i v Hi [Lv Hv]. destruct (Hv (i - 1)%nat) as (Bp & _); [lia|].
      assert (Eg : get v (i - 1) = Ok (nz v (i - 1))) by (apply get_nth; rewrite Lv; unfold mt_N in *; lia). rewrite Eg. cbn [bind].
      rewrite set_lt by (rewrite Lv; unfold mt_N in *; lia). eexists. split; [reflexivity|]. split; [now rewrite upd_length|].
      intros j Hj. rewrite !NU by (rewrite Lv; unfold mt_N in *; lia).
      destruct (Nat.eqb_spec i j).
      + subst j. split; [apply B32_land; [apply wrap_nonneg|apply full_B32]|].
        rewrite land_full, wrap_mod. destruct (Nat.eqb_spec i 0); [lia|]. destruct (Nat.eqb_spec i (i - 1)); [lia|].
        rewrite Z.add_mod, wrap_mod, <- Z.add_mod by lia.
        rewrite Z.shiftr_div_pow2 by lia. reflexivity.
      + destruct (Hv j) as [B1 B2]; [lia|]. split; auto. rewrite B2 at 1.
        destruct (Nat.eqb_spec j 0); auto. destruct (Nat.eqb_spec i (j - 1)); [lia|]. reflexivity.
    - rewrite E. cbn [bind]. eexists. split; [reflexivity|]. cbn [mt_v mt_i].
      destruct G as [Lv Hv]. replace (1 + (mt_N - 1))%nat with mt_N in Hv by reflexivity.
      split; [split; [exact Lv|]|split; [reflexivity|split]].
      + apply Forall_forall. intros x Hx. apply (In_nth _ _ 0) in Hx. destruct Hx as (i & Hi & <-).
        apply Hv. now rewrite <- Lv.
      + apply (Hv 0%nat). unfold mt_N. lia.
      + intros i Hi. destruct (Hv i) as [_ B2]; [unfold mt_N; lia|]. rewrite B2. destruct (Nat.eqb_spec i 0); [lia|]. reflexivity.
  Qed.

  Lemma key_step_ok i x v : good_v v -> (1 <= i < mt_N)%nat -> 0 <= x ->
    exists i' v', key_step i x v = Ok (i', v') /\ good_v v' /\ (1 <= i' < mt_N)%nat.
  Proof.
    intros Hv Hi Hx. unfold key_step.
    destruct (@set_good v i (Z.land x FULL) Hv) as (v1 & E1 & G1); [lia|apply B32_land; auto; apply full_B32|].
    rewrite E1. cbn [bind]. destruct (Nat.leb_spec mt_N (S i)).
    - gg v1 (mt_N - 1)%nat G1. destruct (@set_good v1 0%nat x0 G1) as (v2 & E2 & G2); [unfold mt_N; lia|auto|].
      rewrite E2. cbn [bind]. exists 1%nat, v2. repeat split; auto; try apply G2; unfold mt_N; lia.
    - exists (S i), v1. repeat split; auto; try apply G1; lia.
  Qed.

  Lemma init_by_array_ok key st : shape st -> key <> [] ->
    exists st', init_by_array W key st = Ok st' /\ good_v (mt_v st') /\ mt_i st' = mt_N.
  Proof.
    intros L Hk. unfold init_by_array.
    destruct (@init_genrand_ok 19650218 st L) as (st1 & E1 & G1 & I1 & _). rewrite E1. cbn [bind].
    assert (Lk : (0 < length key)%nat) by (destruct key; [congruence|simpl; lia]).
    set (P := fun (_ : nat) '(i, j, v) => good_v v /\ (1 <= i < mt_N)%nat /\ (j < length key)%nat).
    match goal with |- context [for_ (Nat.max _ _) ?f _] => destruct (@for_inv _ P f (Nat.max mt_N (length key)) (1%nat, 0%nat, mt_v st1)) as ([[i j] v] & E2 & G2 & I2 & J2) end.
    - simpl. repeat split; auto; try apply G1; unfold mt_N; lia.
    - intros n [[i j] v] _ (Gv & Hi & Hj).
      destruct (@get_good v i Gv) as (a & Ea & Ba); [lia|]. rewrite Ea. cbn [bind].
      destruct (@get_good v (i - 1)%nat Gv) as (b & Eb & Bb); [lia|]. rewrite Eb. cbn [bind].
      destruct (get_lt key Hj) as (ky & Ek). rewrite Ek. cbn [bind].
      match goal with |- context [key_step i ?x v] => destruct (@key_step_ok i x v Gv Hi) as (i' & v' & Es & Gs & Is) end.
      { apply wrap_nonneg. }
      rewrite Es. cbn [bind]. eexists. split; [reflexivity|]. simpl. repeat split; try apply Gs; try lia.
      destruct (Nat.leb_spec (length key) (S j)); lia.
    - rewrite E2. cbn [bind].
      set (Q := fun (_ : nat) '(i, v) => good_v v /\ (1 <= i < mt_N)%nat).
      match goal with |- context [for_ (mt_N - 1)%nat ?f _] => destruct (@for_inv _ Q f (mt_N - 1)%nat (i, v)) as ([i3 v3] & E3 & G3 & I3) end.
      + simpl. auto.
      + intros n [i4 v4] _ (Gv & Hi).
        destruct (@get_good v4 i4 Gv) as (a & Ea & Ba); [lia|]. rewrite Ea. cbn [bind].
        destruct (@get_good v4 (i4 - 1)%nat Gv) as (b & Eb & Bb); [lia|]. rewrite Eb. cbn [bind].
        match goal with |- context [key_step i4 ?x v4] => destruct (@key_step_ok i4 x v4 Gv Hi) as (i' & v' & Es & Gs & Is) end.
        { apply wrap_nonneg. }
        rewrite Es. eexists. split; [reflexivity|]. simpl. auto.
      + rewrite E3. cbn [bind].
        destruct (@set_good v3 0%nat 0x80000000 G3) as (v5 & E5 & G5); [unfold mt_N; lia|apply B32_const; reflexivity|].
        rewrite E5. cbn [bind]. eexists. split; [reflexivity|]. simpl. auto.
  Qed.

  (** reachable generator states: freshly started, or good words and an index <= N *)
  Definition ready (st : mtstate) : Prop :=
    (shape st /\ mt_i st = (mt_N + 1)%nat) \/ (good_v (mt_v st) /\ (mt_i st <= mt_N)%nat).

  Lemma temper_ok y : B32 y -> B32 (temper W y).
  Proof.
    intros Hy. unfold temper.
    set (y1 := Z.lxor y _). assert (H1 : B32 y1) by (apply B32_lxor; auto; apply B32_shiftr; auto; lia).
    set (y2 := Z.lxor y1 _). assert (H2 : B32 y2).
    { apply B32_lxor; auto. apply B32_land; [apply wrap_nonneg|apply B32_const; reflexivity]. }
    set (y3 := Z.lxor y2 _). assert (H3 : B32 y3).
    { apply B32_lxor; auto. apply B32_land; [apply wrap_nonneg|apply B32_const; reflexivity]. }
    apply B32_lxor; auto. apply B32_shiftr; auto; lia.
  Qed.

  Lemma genrand_int32_ok st : ready st ->
    exists y st', genrand_int32 W st = Ok (y, st') /\ B32 y /\ ready st'.
  Proof.
    intros H. unfold genrand_int32.
    assert (A : exists st1, (if (mt_N <=? mt_i st)%nat then
      do st <- (if (mt_i st =? mt_N + 1)%nat then init_genrand W 5489 st else Ok st);
      do v <- regenerate (mt_v st);
      Ok (mkMT v 0)
      else Ok st) = Ok st1 /\ good_v (mt_v st1) /\ (mt_i st1 < mt_N)%nat).
    { destruct (Nat.leb_spec mt_N (mt_i st)) as [Hle|Hlt].
      - destruct H as [[Sh Hi]|[Gv Hi]].
        + rewrite Hi, Nat.eqb_refl. destruct (@init_genrand_ok 5489 st Sh) as (s1 & E1 & G1 & I1 & _). rewrite E1. cbn [bind].
          destruct (regenerate_ok G1) as (v & Ev & Gv & _). rewrite Ev. cbn [bind]. eexists. split; [reflexivity|].
          simpl. split; auto. unfold mt_N. lia.
        + destruct (Nat.eqb_spec (mt_i st) (mt_N + 1)); [lia|]. cbn [bind].
          destruct (regenerate_ok Gv) as (v & Ev & Gv' & _). rewrite Ev. cbn [bind]. eexists. split; [reflexivity|].
          simpl. split; auto. unfold mt_N. lia.
      - destruct H as [[Sh Hi]|[Gv Hi]]; [lia|]. exists st. auto. }
    destruct A as (st1 & E1 & G1 & I1). rewrite E1. cbn [bind].
    destruct (get_good G1 I1) as (y & Ey & By). rewrite Ey. cbn [bind].
    eexists. eexists. split; [reflexivity|]. split; [now apply temper_ok|].
    right. simpl. split; auto.
  Qed.

  Lemma draws_ok n : forall st, ready st ->
    exists ys st', draws W n st = Ok (ys, st') /\ length ys = n /\ Forall B32 ys /\ ready st'.
  Proof.
    induction n as [|n IH]; intros st H; cbn [draws].
    - exists [], st. auto.
    - destruct (genrand_int32_ok H) as (y & st1 & E1 & B1 & R1). rewrite E1. cbn [bind].
      destruct (IH st1 R1) as (ys & st2 & E2 & L2 & B2 & R2). rewrite E2. cbn [bind].
      exists (y :: ys), st2. repeat split; simpl; auto.
  Qed.

  Lemma start_ready : ready mt_start.
  Proof. left. split; reflexivity. Qed.
  Lemma init_ready s st st' : shape st -> init_genrand W s st = Ok st' -> ready st'.
  Proof.
    intros Sh E. destruct (@init_genrand_ok s st Sh) as (s1 & E1 & G1 & I1 & _). rewrite E in E1. inversion E1; subst.
    right. split; auto. rewrite I1. auto.
  Qed.
  Lemma ready_shape st : ready st -> shape st.
  Proof. intros [[H _]|[[H _] _]]; exact H. Qed.

  (** ---- tempering is injective ---- *)
  Lemma xor_shiftr_inj k a b : 0 < k -> 0 <= a -> 0 <= b ->
    Z.lxor a (Z.shiftr a k) = Z.lxor b (Z.shiftr b k) -> a = b.
  Proof.
    intros Hk Ha Hb E. apply Z.lxor_eq. set (c := Z.lxor a b).
    assert (Hc : 0 <= c) by (apply Z.lxor_nonneg; tauto).
    assert (Ec : c = Z.shiftr c k).
    { unfold c. apply Z.bits_inj'. intros n Hn. rewrite Z.shiftr_spec, !Z.lxor_spec by lia.
      assert (X : Z.testbit (Z.lxor a (Z.shiftr a k)) n = Z.testbit (Z.lxor b (Z.shiftr b k)) n) by now rewrite E.
      rewrite !Z.lxor_spec, !Z.shiftr_spec in X by lia.
      destruct (Z.testbit a n), (Z.testbit b n), (Z.testbit a (n + k)), (Z.testbit b (n + k)); simpl in *; congruence. }
    rewrite Z.shiftr_div_pow2 in Ec by lia.
    destruct (Z.eq_dec c 0) as [|Hne]; auto. exfalso.
    assert (2 ^ 1 <= 2 ^ k) by (apply Z.pow_le_mono_r; lia).
    assert (c / 2 ^ k < c) by (apply Z.div_lt; lia). lia.
  Qed.

  Lemma xor_shiftl_inj k m a b : 0 < k -> 0 <= a -> 0 <= b -> B32 m ->
    Z.lxor a (Z.land (wrap W (Z.shiftl a k)) m) = Z.lxor b (Z.land (wrap W (Z.shiftl b k)) m) -> a = b.
  Proof.
    intros Hk Ha Hb Hm E. rewrite !mask_wrap in E by auto.
    apply Z.bits_inj'. intros n Hn. 
    enough (G : forall i : nat, forall n, 0 <= n <= Z.of_nat i -> Z.testbit a n = Z.testbit b n).
    { apply (G (Z.to_nat n)). lia. }
    clear n Hn. induction i as [|i IH]; intros n Hn.
    - assert (n = 0) by lia. subst. 
      assert (X : Z.testbit (Z.lxor a (Z.land (Z.shiftl a k) m)) 0 = Z.testbit (Z.lxor b (Z.land (Z.shiftl b k) m)) 0) by now rewrite E.
      rewrite !Z.lxor_spec, !Z.land_spec, !Z.shiftl_spec in X by lia.
      rewrite !(Z.testbit_neg_r _ (0 - k)) in X by lia. simpl in X. now rewrite !xorb_false_r in X.
    - assert (X : Z.testbit (Z.lxor a (Z.land (Z.shiftl a k) m)) n = Z.testbit (Z.lxor b (Z.land (Z.shiftl b k) m)) n) by now rewrite E.
      rewrite !Z.lxor_spec, !Z.land_spec, !Z.shiftl_spec in X by lia.
      assert (Y : Z.testbit a (n - k) = Z.testbit b (n - k)).
      { destruct (Z_lt_le_dec (n - k) 0); [rewrite !Z.testbit_neg_r by lia; reflexivity|apply IH; lia]. }
      rewrite Y in X. destruct (Z.testbit a n), (Z.testbit b n), (Z.testbit b (n - k)), (Z.testbit m n); simpl in *; congruence.
  Qed.

  Lemma temper_inj a b : B32 a -> B32 b -> temper W a = temper W b -> a = b.
  Proof.
    intros Ha Hb. unfold temper. intros E.
    assert (S1 : forall y, B32 y -> B32 (Z.lxor y (Z.shiftr y 11))) by (intros; apply B32_lxor; auto; apply B32_shiftr; auto; lia).
    assert (S2 : forall k m y, B32 m -> B32 y -> B32 (Z.lxor y (Z.land (wrap W (Z.shiftl y k)) m))).
    { intros. apply B32_lxor; auto. apply B32_land; auto. apply wrap_nonneg. }
    assert (M1 : B32 0x9d2c5680) by (apply B32_const; reflexivity).
    assert (M2 : B32 0xefc60000) by (apply B32_const; reflexivity).
    apply xor_shiftr_inj in E; [|lia|apply S2; auto|apply S2; auto].
    apply xor_shiftl_inj in E; auto; [|lia|apply S2; auto|apply S2; auto].
    apply xor_shiftl_inj in E; auto; [|lia|apply S1; auto|apply S1; auto].
    apply xor_shiftr_inj in E; [auto|lia|apply Ha|apply Hb].
  Qed.

  (** ---- seeds ---- *)
  Lemma init_history s s' st st' : shape st -> shape st' -> Z.land s FULL = Z.land s' FULL ->
    init_genrand W s st = init_genrand W s' st'.
  Proof.
    intros L L' Es. unfold init_genrand.
    rewrite !set_lt by (rewrite ?L, ?L'; unfold mt_N; lia). cbn [bind].
    rewrite (@mask_wrap s FULL full_B32), (@mask_wrap s' FULL full_B32), Es.
    set (f := fun (i : nat) (v : list Z) => do p <- get v (i - 1)%nat;
      let x := wrap W (wrap W (1812433253 * Z.lxor p (Z.shiftr p 30)) + Z.of_nat i) in set v i (Z.land x FULL)).
    (* after k steps both arrays agree on the first k entries *)
    enough (G : forall n k v v', length v = mt_N -> length v' = mt_N -> firstn k v = firstn k v' -> (1 <= k)%nat -> (k + n = mt_N)%nat ->
      for_from k n f v = for_from k n f v').
    { rewrite (G (mt_N - 1)%nat 1%nat (upd (mt_v st) 0 (Z.land s' FULL)) (upd (mt_v st') 0 (Z.land s' FULL))); auto; try lia.
      - now rewrite upd_length.
      - now rewrite upd_length.
      - destruct (mt_v st) as [|h t] eqn:E1; [unfold shape in L; rewrite E1 in L; discriminate L|].
        destruct (mt_v st') as [|h' t'] eqn:E2; [unfold shape in L'; rewrite E2 in L'; discriminate L'|]. reflexivity. }
    induction n as [|n IH]; intros k v v' Lv Lv' F Hk Hn; cbn [for_from].
    - f_equal. assert (k = mt_N) by lia. subst. rewrite <- Lv in F at 1. rewrite firstn_all in F. rewrite <- Lv' in F. rewrite firstn_all in F. exact F.
    - assert (Eg : get v (k - 1) = get v' (k - 1)).
      { unfold get. assert (A : forall u : list Z, nth_error u (k - 1) = nth_error (firstn k u) (k - 1)).
        { intros u. rewrite <- (firstn_skipn k u) at 1. destruct (Nat.le_gt_cases (length u) (k - 1)).
          - rewrite firstn_all2 by lia. rewrite skipn_all2 by lia. now rewrite app_nil_r.
          - rewrite nth_error_app1; auto. rewrite firstn_length. lia. }
        rewrite (A v), (A v'), F. reflexivity. }
      unfold f at 1 3. rewrite Eg. destruct (get v' (k - 1)) as [p| | |] eqn:Ep; cbn [bind]; auto.
      rewrite !set_lt by lia. cbn [bind].
      apply IH; rewrite ?upd_length; auto; try lia.
      assert (U : forall (u : list Z) x i, (i < length u)%nat -> firstn (S i) (upd u i x) = firstn i u ++ [x]).
      { induction u as [|h t IHu]; intros x [|i] Hi; simpl in *; try lia; auto. f_equal. apply IHu. lia. }
      rewrite !U by lia. now rewrite F.
  Qed.

  (** ---- the reference sequence ---- *)
  Fixpoint block (v : list Z) (b : nat) : list Z :=
    match b with O => v | S b => match regenerate (block v b) with Ok w => w | _ => [] end end.
  Definition Xof (v : list Z) (k : nat) : Z := nz (block v (k / mt_N)) (k mod mt_N).

  Lemma block_good v b : good_v v -> good_v (block v b).
  Proof.
    intros G. induction b as [|b IH]; cbn [block]; auto.
    destruct (regenerate_ok IH) as (w & E & Gw & _). now rewrite E.
  Qed.
  Lemma block_next v b : good_v v -> regenerate (block v b) = Ok (block v (S b)).
  Proof.
    intros G. cbn [block]. destruct (regenerate_ok (block_good b G)) as (w & E & _). now rewrite E.
  Qed.
  Lemma block_word v b k : good_v v -> (k < mt_N)%nat ->
    nz (block v (S b)) k = next_word (nz (block v b)) (nz (block v (S b))) k.
  Proof.
    intros G Hk. destruct (regenerate_ok (block_good b G)) as (w & E & _ & D).
    rewrite (block_next b G) in E. apply Ok_inj in E. subst w. auto.
  Qed.
  Lemma Xof_eq v b r : (r < mt_N)%nat -> Xof v (b * mt_N + r) = nz (block v b) r.
  Proof.
    intros Hr. unfold Xof. rewrite Nat.div_add_l, Nat.div_small by (unfold mt_N in *; lia).
    rewrite (Nat.add_comm (b * mt_N) r), Nat.mod_add, Nat.mod_small by (unfold mt_N in *; lia). now rewrite Nat.add_0_r.
  Qed.

  Lemma Xof_rec v : good_v v -> recurrence (Xof v).
  Proof.
    intros G k. 
    assert (Ek : k = (k / mt_N * mt_N + k mod mt_N)%nat).
    { rewrite Nat.mul_comm. apply Nat.div_mod. discriminate. }
    assert (Hr : (k mod mt_N < mt_N)%nat) by (apply Nat.mod_upper_bound; discriminate).
    set (b := (k / mt_N)%nat) in *. set (r := (k mod mt_N)%nat) in *. clearbody b r. subst k.
    replace (b * mt_N + r + 624)%nat with (S b * mt_N + r)%nat by (unfold mt_N; lia).
    rewrite !Xof_eq by auto. rewrite block_word by auto. unfold next_word, tw.
    f_equal.
    - destruct (Nat.ltb_spec r (mt_N - mt_M)).
      + replace (b * mt_N + r + 397)%nat with (b * mt_N + (r + mt_M))%nat by (unfold mt_M; lia).
        rewrite Xof_eq; auto. unfold mt_N, mt_M in *. lia.
      + replace (b * mt_N + r + 397)%nat with (S b * mt_N + (r + mt_M - mt_N))%nat by (unfold mt_M, mt_N in *; lia).
        rewrite Xof_eq; auto. unfold mt_N, mt_M in *. lia.
    - f_equal. f_equal. destruct (Nat.ltb_spec r (mt_N - 1)).
      + replace (b * mt_N + r + 1)%nat with (b * mt_N + (r + 1))%nat by lia. rewrite Xof_eq; auto. unfold mt_N in *. lia.
      + replace (b * mt_N + r + 1)%nat with (S b * mt_N + 0)%nat by (unfold mt_N in *; lia). rewrite Xof_eq; auto. unfold mt_N in *. lia.
  Qed.

  Lemma temper_spec y : B32 y -> temper W y = tempered y.
  Proof.
    intros Hy. unfold temper, tempered. rewrite !mask_wrap by (apply B32_const; reflexivity).
    rewrite !Z.shiftr_div_pow2, !Z.shiftl_mul_pow2 by lia. reflexivity.
  Qed.

  Lemma Xof_B32 v k : good_v v -> B32 (Xof v k).
  Proof.
    intros G. unfold Xof. apply get_nz; [now apply block_good|]. apply Nat.mod_upper_bound. discriminate.
  Qed.

  Lemma draws_ref v n : good_v v -> forall st b, mt_v st = block v b -> (mt_i st <= mt_N)%nat ->
    exists st', draws W n st = Ok (map (fun k => tempered (Xof v k)) (seq (b * mt_N + mt_i st) n), st').
  Proof.
    intros G. induction n as [|n IH]; intros st b Ev Hi; cbn [draws seq map].
    - eexists. reflexivity.
    - unfold genrand_int32. destruct (Nat.leb_spec mt_N (mt_i st)) as [Hle|Hlt].
      + destruct (Nat.eqb_spec (mt_i st) (mt_N + 1)); [lia|]. cbn [bind].
        rewrite Ev, (block_next b G). cbn [bind mt_v mt_i].
        destruct (@get_nz (block v (S b)) 0%nat) as [E B]; [now apply block_good|unfold mt_N; lia|].
        rewrite E. cbn [bind].
        destruct (IH (mkMT (block v (S b)) 1) (S b)) as (st' & Est); [reflexivity|cbn; unfold mt_N; lia|].
        rewrite Est. cbn [bind]. exists st'. f_equal. f_equal. cbn [mt_i].
        replace (b * mt_N + mt_i st)%nat with (S b * mt_N + 0)%nat by lia.
        rewrite Xof_eq by (unfold mt_N; lia). rewrite temper_spec by auto. f_equal. f_equal. f_equal. lia.
      + cbn [bind]. rewrite Ev.
        destruct (@get_nz (block v b) (mt_i st)) as [E B]; [now apply block_good|lia|].
        rewrite E. cbn [bind].
        destruct (IH (mkMT (block v b) (S (mt_i st))) b) as (st' & Est); [reflexivity|cbn; lia|].
        rewrite Est. cbn [bind]. exists st'. f_equal. f_equal. cbn [mt_i].
        rewrite Xof_eq by auto. rewrite temper_spec by auto. f_equal. f_equal. f_equal. lia.
  Qed.

  Lemma reference s st n : shape st -> exists X, seed_words s X /\ recurrence X /\ (forall k, B32 (X k)) /\
    exists st', (do st1 <- init_genrand W s st; draws W n st1) =
      Ok (map (fun k => tempered (X k)) (seq 624 n), st').
  Proof.
    intros Sh. destruct (@init_genrand_ok s st Sh) as (st1 & E & G & I & SW).
    exists (Xof (mt_v st1)). split; [|split; [now apply Xof_rec|split; [intros; now apply Xof_B32|]]].
    - destruct SW as [S0 S1].
      assert (A : forall i, (i < 624)%nat -> Xof (mt_v st1) i = nz (mt_v st1) i).
      { intros i Hi. apply (@Xof_eq (mt_v st1) 0 i). exact Hi. }
      split; [rewrite A by lia; exact S0|]. intros i Hi. rewrite !A by lia. now apply S1.
    - rewrite E. cbn [bind]. destruct (@draws_ref (mt_v st1) n G st1 0%nat) as (st' & Ed); [reflexivity|lia|].
      exists st'. rewrite Ed, I. reflexivity.
  Qed.

End W.

Lemma reached_ready W st : 32 <= W -> reached W st -> ready st.
Proof.
  intros HW H. induction H.
  - apply start_ready.
  - eapply init_ready; eauto. now apply ready_shape.
  - destruct (@init_by_array_ok W HW key st (ready_shape IHreached) H0) as (s1 & E1 & G1 & I1).
    rewrite H1 in E1. apply Ok_inj in E1. subst. right. split; auto. rewrite I1. auto.
  - destruct (genrand_int32_ok HW IHreached) as (z & s1 & E1 & _ & R1). rewrite H0 in E1. apply Ok_inj in E1.
    inversion E1; subst. auto.
Qed.

Lemma X_unique s s' X Y : s mod 2 ^ 32 = s' mod 2 ^ 32 -> seed_words s X -> seed_words s' Y -> recurrence X -> recurrence Y ->
  forall k, X k = Y k.
Proof.
  intros Es [X0 X1] [Y0 Y1] RX RY k.
  induction k as [k IH] using (well_founded_induction lt_wf).
  destruct (Nat.lt_ge_cases k 624) as [Hlt|Hge].
  - destruct k as [|k]; [now rewrite X0, Y0|]. rewrite X1, Y1 by lia.
    replace (S k - 1)%nat with k by lia. now rewrite (IH k) by lia.
  - replace k with (k - 624 + 624)%nat by lia. rewrite RX, RY.
    rewrite (IH (k - 624 + 397)%nat), (IH (k - 624)%nat), (IH (k - 624 + 1)%nat) by lia. reflexivity.
Qed.

Lemma same_stream W W' s s' st st' n : 32 <= W -> 32 <= W' -> reached W st -> reached W' st' ->
  s mod 2 ^ 32 = s' mod 2 ^ 32 ->
  exists ys st1 st1', seeded_draws W s st n = Ok (ys, st1) /\ seeded_draws W' s' st' n = Ok (ys, st1').
Proof.
  intros HW HW' R R' Es. 
  destruct (@reference W HW s st n (ready_shape (reached_ready HW R))) as (X & SX & RX & _ & st1 & E1).
  destruct (@reference W' HW' s' st' n (ready_shape (reached_ready HW' R'))) as (Y & SY & RY & _ & st2 & E2).
  exists (map (fun k => tempered (X k)) (seq 624 n)), st1, st2. split; auto.
  unfold seeded_draws. rewrite E2. f_equal. f_equal. apply map_ext. intros k. now rewrite (X_unique Es SX SY RX RY).
Qed.

Lemma tempered_inj a b : word32 a -> word32 b -> tempered a = tempered b -> a = b.
Proof.
  intros Ha Hb E. apply (@temper_inj 32 (Z.le_refl _)); auto.
  now rewrite !temper_spec by (auto; lia).
Qed.
