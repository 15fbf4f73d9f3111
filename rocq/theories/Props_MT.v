(** C35: the pseudo-random generator. [W] is the number of bits of the
    platform's [unsigned long]; the results hold for 32 and for 64 bits alike. *)
From Coq Require Import ZArith List Lia Bool Reals.
From Flocq Require Import Core.Core IEEE754.BinarySingleNaN.
From Verif Require Import Base Num FloatFacts MT_Model MT_Spec MT_Proof MT_FloatProof.
Local Open Scope Z_scope.

(** From every reachable state a draw succeeds (no array access is out of
    bounds) and yields a 32-bit word, respectively a 31-bit one. *)
Theorem C35_int_range : forall W st, 32 <= W -> reached W st ->
  (exists y st', genrand_int32 W st = Ok (y, st') /\ 0 <= y < 2 ^ 32 /\ reached W st') /\
  (exists y st', genrand_int31 W st = Ok (y, st') /\ 0 <= y < 2 ^ 31 /\ reached W st').
Proof.
  intros W st HW R. destruct (genrand_int32_ok HW (reached_ready HW R)) as (y & st' & E & B & _).
  assert (R' : reached W st') by (econstructor 4; eauto). split.
  - exists y, st'. auto.
  - exists (Z.shiftr y 1), st'. unfold genrand_int31. rewrite E. split; [reflexivity|]. split; auto.
    rewrite Z.shiftr_div_pow2 by lia. change (2 ^ 1) with 2. destruct B. split; [apply Z.div_pos; lia|apply Z.div_lt_upper_bound; lia].
Qed.
Print Assumptions C35_int_range.

(** The floating-point draws, in binary64 with rounding: always finite, and in
    [0,1], [0,1), (0,1) and [0,1) respectively. *)
Theorem C35_real_range : forall W m st, 32 <= W -> reached W st ->
  (exists x st', genrand_real1 W (NumF m) st = Ok (x, st') /\ is_finite x = true /\ (0 <= B2R x <= 1)%R) /\
  (exists x st', genrand_real2 W (NumF m) st = Ok (x, st') /\ is_finite x = true /\ (0 <= B2R x < 1)%R) /\
  (exists x st', genrand_real3 W (NumF m) st = Ok (x, st') /\ is_finite x = true /\ (0 < B2R x < 1)%R) /\
  (exists x st', genrand_res53 W (NumF m) st = Ok (x, st') /\ is_finite x = true /\ (0 <= B2R x < 1)%R).
Proof.
  intros W m st HW R. pose proof (reached_ready HW R) as Hr.
  destruct (r1_ok HW m Hr) as (x1 & s1 & r1 & E1 & _ & [F1 B1] & H1).
  destruct (r2_ok HW m Hr) as (x2 & s2 & r2 & E2 & _ & [F2 B2] & H2).
  destruct (r3_ok HW m Hr) as (x3 & s3 & r3 & E3 & _ & [F3 B3] & H3).
  destruct (r53_ok HW m Hr) as (x4 & s4 & r4 & E4 & _ & [F4 B4] & H4). subst.
  repeat split; eauto 10.
Qed.
Print Assumptions C35_real_range.

(** [real1] does reach its upper end 1: code that multiplies it by an array
    size to obtain an index can leave the array (see C40). *)
Example real1_reaches_one : forall m, f_eqb (real1 (NumF m) (2 ^ 32 - 1)) (f_ofZ 1) = true.
Proof. intros m. vm_compute. reflexivity. Qed.

(** Seeding from any state makes the following draws the tempered words of
    MT19937's reference sequence for that seed. *)
Theorem C35_reference : forall W s st n, 32 <= W -> reached W st ->
  exists X, seed_words s X /\ recurrence X /\ (forall k, word32 (X k)) /\
  exists st', seeded_draws W s st n = Ok (map (fun k => tempered (X k)) (seq 624 n), st').
Proof. intros W s st n HW R. exact (reference HW s n (ready_shape (reached_ready HW R))). Qed.
Print Assumptions C35_reference.

(** The stream is a function of the seed modulo 2^32 only: not of anything drawn
    or seeded before, nor of the width of [unsigned long]. *)
Theorem C35_reproducible : forall W W' s s' st st' n, 32 <= W -> 32 <= W' ->
  reached W st -> reached W' st' -> s mod 2 ^ 32 = s' mod 2 ^ 32 ->
  exists ys st1 st1', seeded_draws W s st n = Ok (ys, st1) /\ seeded_draws W' s' st' n = Ok (ys, st1').
Proof. exact same_stream. Qed.
Print Assumptions C35_reproducible.

(** The output scrambling loses nothing: distinct words give distinct outputs. *)
Theorem C35_tempering : forall a b, word32 a -> word32 b -> tempered a = tempered b -> a = b.
Proof. exact tempered_inj. Qed.
Print Assumptions C35_tempering.

(** Seeding by an array of at least one key succeeds; with none it reads outside it. *)
Theorem C35_seed_array : forall W key st, 32 <= W -> reached W st ->
  (key <> nil -> exists st', init_by_array W key st = Ok st' /\ reached W st') /\
  init_by_array W nil st = Undef.
Proof.
  intros W key st HW R. split.
  - intros Hk. destruct (init_by_array_ok HW (ready_shape (reached_ready HW R)) Hk) as (st' & E & _).
    exists st'. split; auto. econstructor 3; eauto.
  - unfold init_by_array. destruct (init_genrand_ok HW 19650218 (ready_shape (reached_ready HW R))) as (st1 & E & G & _).
    rewrite E. cbn [bind]. unfold for_. change (Nat.max mt_N (length (@nil Z))) with (S 623). cbn [for_from].
    destruct (get_good (i := 1) G) as (a & Ea & _); [unfold mt_N; lia|]. rewrite Ea. cbn [bind].
    destruct (get_good (i := 1 - 1) G) as (b & Eb & _); [unfold mt_N; lia|]. rewrite Eb. reflexivity.
Qed.
Print Assumptions C35_seed_array.

(** The first outputs after the default seed 5489 are the published ones. *)
Example default_stream : match draws 64 4 mt_start with Ok (ys, _) => ys | _ => nil end
  = (3499211612 :: 581869302 :: 3890346734 :: 3586334585 :: nil).
Proof. vm_compute. reflexivity. Qed.
(** ... and those after init_by_array {0x123, 0x234, 0x345, 0x456}. *)
Example array_stream : match (do st <- init_by_array 64 (0x123 :: 0x234 :: 0x345 :: 0x456 :: nil) mt_start; draws 64 4 st) with
  Ok (ys, _) => ys | _ => nil end = (1067595299 :: 955945823 :: 477289528 :: 4107218783 :: nil).
Proof. vm_compute. reflexivity. Qed.
