(** Order and sign of binary64 results, overflow included. *)
From Coq Require Import Reals ZArith Bool Lia Lra.
From Flocq Require Import Core.Core IEEE754.BinarySingleNaN.
From Verif Require Import Num FloatFacts.
Local Open Scope R_scope.

(** [z] is the result of rounding the real number [r], infinite on overflow *)
Definition sat (z : F64) (r : R) : Prop :=
  (Rabs (rnd r) < big /\ isf z (rnd r)) \/ (big <= Rabs (rnd r) /\ z = B754_infinity (Rlt_bool r 0)).

Lemma sat_nn z r : sat z r -> is_nan z = false.
Proof. intros [(_ & F & _)|(_ & ->)]; [destruct z; try discriminate; reflexivity|reflexivity]. Qed.
Lemma fkey_fin (x : F64) : is_finite x = true -> fkey x = B2R x.
Proof. destruct x; try discriminate; reflexivity. Qed.
Lemma fkey_isf x r : isf x r -> fkey x = r.
Proof. intros (F & <-). now apply fkey_fin. Qed.
Lemma rnd_nonneg r : 0 <= r -> 0 <= rnd r.
Proof. intros H. apply rnd_ge_fmt; [apply fmt_0|assumption]. Qed.
Lemma rnd_nonpos r : r <= 0 -> rnd r <= 0.
Proof. intros H. apply rnd_le_fmt; [apply fmt_0|assumption]. Qed.
Lemma sat_le z r u : sat z r -> fmt u -> Rabs u < big -> r <= u -> fkey z <= u.
Proof.
  intros [(A & B)|(A & ->)] Fu Bu H.
  - rewrite (fkey_isf _ _ B). now apply rnd_le_fmt.
  - pose proof (rnd_le_fmt r u Fu H) as Q. apply Rabs_def2 in Bu. pose proof big_pos as P. cbn [fkey].
    case (Rlt_bool_spec r 0); intros C; [lra|]. pose proof (rnd_nonneg r C) as Q2. rewrite Rabs_pos_eq in A by assumption. lra.
Qed.
Lemma sat_ge z r u : sat z r -> fmt u -> Rabs u < big -> u <= r -> u <= fkey z.
Proof.
  intros [(A & B)|(A & ->)] Fu Bu H.
  - rewrite (fkey_isf _ _ B). now apply rnd_ge_fmt.
  - pose proof (rnd_ge_fmt r u Fu H) as Q. apply Rabs_def2 in Bu. pose proof big_pos as P. cbn [fkey].
    case (Rlt_bool_spec r 0); intros C; [|lra]. pose proof (rnd_nonpos r (Rlt_le _ _ C)) as Q2. rewrite Rabs_left1 in A by assumption. lra.
Qed.

Lemma B2SF_inf (z : F64) s : B2SF z = SpecFloat.S754_infinity s -> z = B754_infinity s.
Proof. destruct z; cbn; try discriminate. intros [= ->]. reflexivity. Qed.
Lemma sign_neg (x : F64) : is_finite x = true -> B2R x <> 0 -> Bsign x = Rlt_bool (B2R x) 0.
Proof.
  intros F NZ. destruct x as [s|s| |s m e H]; try discriminate; cbn in NZ; try lra. cbn [Bsign B2R].
  destruct s; symmetry.
  - apply Rlt_bool_true. apply F2R_lt_0. reflexivity.
  - apply Rlt_bool_false. apply F2R_ge_0. discriminate.
Qed.
Lemma rnd_big_nz r : big <= Rabs (rnd r) -> r <> 0.
Proof. intros H ->. rewrite rnd_0, Rabs_R0 in H. pose proof big_pos. lra. Qed.
Lemma xorb_lt a b : a <> 0 -> b <> 0 -> xorb (Rlt_bool a 0) (Rlt_bool b 0) = Rlt_bool (a * b) 0.
Proof.
  intros Ha Hb. destruct (Rlt_bool_spec a 0), (Rlt_bool_spec b 0); cbn; symmetry.
  - apply Rlt_bool_false. nra.
  - apply Rlt_bool_true. nra.
  - apply Rlt_bool_true. nra.
  - apply Rlt_bool_false. nra.
Qed.

Lemma sat_mul x y a b : isf x a -> isf y b -> sat (f_mul x y) (a * b).
Proof.
  intros X Y. destruct (Rlt_le_dec (Rabs (rnd (a * b))) big) as [H|H].
  - left. split; [assumption|]. now apply isf_mul.
  - right. split; [assumption|]. destruct X as (Fx & <-), Y as (Fy & <-).
    pose proof (Bmult_correct 53 1024 Hprec Hmax mode_NE x y) as C. rewrite Rlt_bool_false in C by exact H.
    apply B2SF_inf. unfold f_mul. rewrite C. pose proof (rnd_big_nz _ H) as NZ.
    assert (B2R x <> 0) by (intros Q; apply NZ; rewrite Q; ring). assert (B2R y <> 0) by (intros Q; apply NZ; rewrite Q; ring).
    rewrite !sign_neg by assumption. rewrite xorb_lt by assumption. reflexivity.
Qed.
Lemma sat_div x y a b : isf x a -> isf y b -> b <> 0 -> sat (f_div x y) (a / b).
Proof.
  intros X Y Hb. destruct (Rlt_le_dec (Rabs (rnd (a / b))) big) as [H|H].
  - left. split; [assumption|]. now apply isf_div.
  - right. split; [assumption|]. destruct X as (Fx & <-), Y as (Fy & <-).
    pose proof (Bdiv_correct 53 1024 Hprec Hmax mode_NE x y Hb) as C. rewrite Rlt_bool_false in C by exact H.
    apply B2SF_inf. unfold f_div. rewrite C. pose proof (rnd_big_nz _ H) as NZ.
    assert (B2R x <> 0) by (intros Q; apply NZ; rewrite Q; unfold Rdiv; ring).
    rewrite !sign_neg by assumption. cbn [binary_overflow overflow_to_inf]. f_equal.
    replace (Rlt_bool (B2R y) 0) with (Rlt_bool (/ B2R y) 0).
    + rewrite xorb_lt; auto. now apply Rinv_neq_0_compat.
    + destruct (Rlt_bool_spec (B2R y) 0) as [Q|Q]; [apply Rlt_bool_true; now apply Rinv_lt_0_compat|].
      apply Rlt_bool_false. left. apply Rinv_0_lt_compat. lra.
Qed.
Lemma sat_add x y a b : isf x a -> isf y b -> sat (f_add x y) (a + b).
Proof.
  intros X Y. destruct (Rlt_le_dec (Rabs (rnd (a + b))) big) as [H|H].
  - left. split; [assumption|]. now apply isf_add.
  - right. split; [assumption|]. destruct X as (Fx & <-), Y as (Fy & <-).
    pose proof (Bplus_correct 53 1024 Hprec Hmax mode_NE x y Fx Fy) as C. rewrite Rlt_bool_false in C by exact H.
    destruct C as (C & S). apply B2SF_inf. unfold f_add. rewrite C. pose proof (rnd_big_nz _ H) as NZ.
    cbn [binary_overflow overflow_to_inf]. f_equal.
    destruct x as [s|s| |s m e Hx]; try discriminate.
    + cbn [Bsign] in *. subst s. cbn [B2R]. rewrite Rplus_0_l. cbn [B2R] in NZ. rewrite Rplus_0_l in NZ. now apply sign_neg.
    + assert (NX : B2R (B754_finite s m e Hx) <> 0).
      { cbn [B2R]. destruct s; [apply Rlt_not_eq; apply F2R_lt_0; reflexivity|apply Rgt_not_eq; apply F2R_gt_0; reflexivity]. }
      destruct (Req_dec (B2R y) 0) as [Z|NY].
      * rewrite Z, Rplus_0_r. apply sign_neg; auto.
      * rewrite (sign_neg _ Fx NX) in *. rewrite (sign_neg _ Fy NY) in S.
        destruct (Rlt_bool_spec (B2R (B754_finite s m e Hx)) 0), (Rlt_bool_spec (B2R y) 0); try discriminate; symmetry.
        -- apply Rlt_bool_true. lra.
        -- apply Rlt_bool_false. lra.
Qed.
Lemma f_sub_add (x y : F64) : is_nan y = false -> f_sub x y = f_add x (Bopp y).
Proof.
  intros Hy. unfold f_sub, f_add, Bminus, Bplus. destruct x as [[]|[]| |s m e H], y as [[]|[]| |s' m' e' H']; try discriminate; try reflexivity.
Qed.
Lemma isf_opp x a : isf x a -> isf (Bopp x) (- a).
Proof. intros (F & <-). split; [now rewrite is_finite_Bopp|apply B2R_Bopp]. Qed.
Lemma isf_nn' x r : isf x r -> is_nan x = false.
Proof. intros (F & _). destruct x; try discriminate; reflexivity. Qed.
Lemma sat_sub x y a b : isf x a -> isf y b -> sat (f_sub x y) (a - b).
Proof. intros X Y. rewrite (f_sub_add x y (isf_nn' _ _ Y)). apply sat_add; [assumption|now apply isf_opp]. Qed.

Lemma fkey_bound (x : F64) : is_finite x = true -> - big < fkey x < big.
Proof. intros F. rewrite fkey_fin by assumption. pose proof (abs_B2R_lt_emax 53 1024 x) as Q. apply Rabs_def2 in Q. unfold big. lra. Qed.
Lemma leb_key_true (x y : F64) : f_leb x y = true <-> is_nan x = false /\ is_nan y = false /\ fkey x <= fkey y.
Proof.
  split.
  - intros H. destruct (f_leb_nan x y H). rewrite f_leb_key in H by assumption. apply Rleb_true in H. auto.
  - intros (A & B & C). rewrite f_leb_key by assumption. now apply Rleb_true.
Qed.
Lemma ltb_key_true (x y : F64) : f_ltb x y = true <-> is_nan x = false /\ is_nan y = false /\ fkey x < fkey y.
Proof.
  destruct (is_nan x) eqn:Nx.
  { split; [intros H; destruct x; try discriminate|intros (? & _); discriminate]. }
  destruct (is_nan y) eqn:Ny.
  { split; [intros H; destruct x as [[]|[]| |[] ? ? ?], y; try discriminate|intros (_ & ? & _); discriminate]. }
  rewrite f_ltb_leb by assumption. rewrite negb_true_iff, f_leb_key by assumption. rewrite Rleb_false. intuition.
Qed.

(** a float whose sign bit is clear, or NaN *)
Definition pos (x : F64) : Prop := is_nan x = true \/ Bsign x = false.
Lemma pos_key x : pos x -> is_nan x = false -> 0 <= fkey x.
Proof.
  intros [H|H] F; [congruence|]. pose proof big_pos. destruct x as [s|s| |s m e Hx]; try discriminate; cbn in H; subst; cbn [fkey B2R]; try lra.
  apply F2R_ge_0. discriminate.
Qed.
Lemma sign_mul (x y : F64) : is_nan (f_mul x y) = false -> Bsign (f_mul x y) = xorb (Bsign x) (Bsign y).
Proof.
  intros NN. unfold f_mul in *.
  destruct x as [[]|[]| |s m e H] eqn:Ex, y as [[]|[]| |s' m' e' H'] eqn:Ey; try discriminate; try reflexivity.
  rewrite <- Ex, <- Ey in *. pose proof (Bmult_correct 53 1024 Hprec Hmax mode_NE x y) as C.
  destruct (Rlt_bool_spec (Rabs (round radix2 (SpecFloat.fexp 53 1024) (round_mode mode_NE) (B2R x * B2R y))) (bpow radix2 1024)).
  - destruct C as (_ & _ & C). now apply C.
  - apply B2SF_inf in C. rewrite C. reflexivity.
Qed.
Lemma sign_div (x y : F64) : is_nan (f_div x y) = false -> Bsign (f_div x y) = xorb (Bsign x) (Bsign y).
Proof.
  intros NN. unfold f_div in *.
  destruct x as [[]|[]| |s m e H] eqn:Ex, y as [[]|[]| |s' m' e' H'] eqn:Ey; try discriminate; try reflexivity.
  rewrite <- Ex, <- Ey in *.
  assert (NZ : B2R y <> 0).
  { subst y. cbn [B2R]. destruct s'; [apply Rlt_not_eq; apply F2R_lt_0; reflexivity|apply Rgt_not_eq; apply F2R_gt_0; reflexivity]. }
  pose proof (Bdiv_correct 53 1024 Hprec Hmax mode_NE x y NZ) as C.
  destruct (Rlt_bool_spec (Rabs (round radix2 (SpecFloat.fexp 53 1024) (round_mode mode_NE) (B2R x / B2R y))) (bpow radix2 1024)).
  - destruct C as (_ & _ & C). now apply C.
  - apply B2SF_inf in C. rewrite C. reflexivity.
Qed.
Lemma pos_cases x : pos x \/ is_nan x = false.
Proof. destruct (is_nan x) eqn:E; [left; left; exact E|right; reflexivity]. Qed.
Lemma nan_mul (x y : F64) : is_nan (f_mul x y) = false -> is_nan x = false /\ is_nan y = false.
Proof. destruct x as [[]|[]| |s m e H], y as [[]|[]| |s' m' e' H']; cbn; auto; discriminate. Qed.
Lemma nan_div (x y : F64) : is_nan (f_div x y) = false -> is_nan x = false /\ is_nan y = false.
Proof. destruct x as [[]|[]| |s m e H], y as [[]|[]| |s' m' e' H']; cbn; auto; discriminate. Qed.
Lemma pos_mul x y : pos x -> pos y -> pos (f_mul x y).
Proof.
  intros X Y. destruct (is_nan (f_mul x y)) eqn:E; [left; exact E|right].
  destruct (nan_mul x y E) as (A & B). rewrite sign_mul by assumption. destruct X as [X|X], Y as [Y|Y]; try congruence. now rewrite X, Y.
Qed.
Lemma pos_sq x : pos (f_mul x x).
Proof. destruct (is_nan (f_mul x x)) eqn:E; [left; exact E|right]. rewrite sign_mul by assumption. apply xorb_nilpotent. Qed.
Lemma pos_div x y : pos x -> pos y -> pos (f_div x y).
Proof.
  intros X Y. destruct (is_nan (f_div x y)) eqn:E; [left; exact E|right].
  destruct (nan_div x y E) as (A & B). rewrite sign_div by assumption. destruct X as [X|X], Y as [Y|Y]; try congruence. now rewrite X, Y.
Qed.
Lemma pos_fin_key (z : F64) : is_finite z = true -> 0 < B2R z -> Bsign z = false.
Proof. intros F P. rewrite sign_neg by (auto; lra). apply Rlt_bool_false. lra. Qed.
Lemma pos_add x y : pos x -> pos y -> pos (f_add x y).
Proof.
  intros [X|X] [Y|Y].
  - destruct x; try discriminate. destruct y; try discriminate. left. reflexivity.
  - destruct x; try discriminate. left. destruct y; reflexivity.
  - destruct y; try discriminate. left. destruct x; reflexivity.
  - destruct (is_finite x) eqn:Fx; [destruct (is_finite y) eqn:Fy|].
    + pose proof (Bplus_correct 53 1024 Hprec Hmax mode_NE x y Fx Fy) as C.
      destruct (Rlt_bool_spec (Rabs (round radix2 (SpecFloat.fexp 53 1024) (round_mode mode_NE) (B2R x + B2R y))) (bpow radix2 1024)).
      * destruct C as (C1 & C2 & C3). right. unfold f_add. rewrite C3.
        assert (Kx : 0 <= B2R x) by (rewrite <- fkey_fin by assumption; apply pos_key; [right; assumption|destruct x; try discriminate; reflexivity]).
        assert (Ky : 0 <= B2R y) by (rewrite <- fkey_fin by assumption; apply pos_key; [right; assumption|destruct y; try discriminate; reflexivity]).
        destruct (Rcompare_spec (B2R x + B2R y) 0); [lra| |reflexivity]. rewrite X, Y. reflexivity.
      * destruct C as (C & _). right. unfold f_add. apply B2SF_inf in C. rewrite C. cbn. exact X.
    + destruct y as [s|s| |s m e H]; try discriminate; [|left; destruct x; reflexivity]. cbn in Y. subst s. right.
      destruct x as [s|s| |s m e H]; try discriminate; reflexivity.
    + destruct x as [s|s| |s m e H]; try discriminate; [|left; destruct y; reflexivity]. cbn in X. subst s. right.
      destruct y as [s|s| |s m e H]; cbn in Y; subst; try reflexivity.
Qed.
