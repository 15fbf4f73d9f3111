(** The arithmetic used by the numeric code.

    Every numeric C++ function is transcribed once, over an arbitrary [Num T],
    and read with [NumR] (real numbers, exact arithmetic) or [NumF] (IEEE-754
    binary64 with an arbitrary math library). *)

From Coq Require Import Reals ZArith Bool List Lia Lra.
From Flocq Require Import Core.Core IEEE754.BinarySingleNaN.

Record Num (T : Type) : Type := mkNum {
  nadd : T -> T -> T;
  nsub : T -> T -> T;
  nmul : T -> T -> T;
  ndiv : T -> T -> T;
  nneg : T -> T;
  nabs : T -> T;             (* fabs *)
  nsqrt : T -> T;
  nltb : T -> T -> bool;     (* C's  <  : false when an operand is NaN *)
  nleb : T -> T -> bool;     (* C's  <= *)
  neqb : T -> T -> bool;     (* C's  == *)
  nfin : T -> bool;          (* isfinite() *)
  nofZ : Z -> T;             (* conversion int -> double *)
  ndec : Z -> Z -> T;        (* the literal  m * 10^(-e) *)
  nexp : T -> T;
  nlog : T -> T;
  npow : T -> T -> T;
  ncos : T -> T;
  nsin : T -> T;
  ntrunc : T -> option Z;    (* conversion double -> integer, None when NaN or infinite *)
  nround : T -> option Z;    (* round(): nearest integer, halves away from zero *)
  natan2 : T -> T -> T;
  ncosh : T -> T;
  ntanh : T -> T
}.
Arguments nadd {T} _ _ _. Arguments nsub {T} _ _ _. Arguments nmul {T} _ _ _.
Arguments ndiv {T} _ _ _. Arguments nneg {T} _ _. Arguments nabs {T} _ _.
Arguments nsqrt {T} _ _. Arguments nltb {T} _ _ _. Arguments nleb {T} _ _ _.
Arguments neqb {T} _ _ _. Arguments nfin {T} _ _. Arguments nofZ {T} _ _.
Arguments ndec {T} _ _ _. Arguments nexp {T} _ _. Arguments nlog {T} _ _.
Arguments npow {T} _ _ _. Arguments ncos {T} _ _. Arguments nsin {T} _ _.
Arguments ntrunc {T} _ _. Arguments nround {T} _ _. Arguments natan2 {T} _ _ _.
Arguments ncosh {T} _ _. Arguments ntanh {T} _ _.

(** ---- exact arithmetic ---- *)

Definition Rltb (x y : R) : bool := if Rlt_dec x y then true else false.
Definition Rleb (x y : R) : bool := if Rle_dec x y then true else false.
Definition Reqb (x y : R) : bool := if Req_EM_T x y then true else false.

(** [pow] on non-negative arguments, the only ones the modelled code uses with
    a real exponent: 0^0 = 1 and 0^y = 0 otherwise. *)
Definition Rpow (x y : R) : R :=
  if Req_EM_T x 0 then (if Req_EM_T y 0 then 1 else 0)%R else Rpower x y.

(** atan2(y, x), in (-pi, pi] *)
Definition Ratan2 (y x : R) : R :=
  if Rlt_dec 0 x then atan (y / x)
  else if Rlt_dec x 0 then (if Rle_dec 0 y then atan (y / x) + PI else atan (y / x) - PI)
  else if Rlt_dec 0 y then PI / 2 else if Rlt_dec y 0 then - (PI / 2) else 0.

Definition NumR : Num R := {|
  nadd := Rplus; nsub := Rminus; nmul := Rmult; ndiv := Rdiv; nneg := Ropp;
  nabs := Rabs; nsqrt := sqrt;
  nltb := Rltb; nleb := Rleb; neqb := Reqb;
  nfin := fun _ => true;
  nofZ := IZR;
  ndec := fun m e => (IZR m / IZR (10 ^ e))%R;
  nexp := exp; nlog := ln; npow := Rpow; ncos := cos; nsin := sin;
  ntrunc := fun x => Some (Ztrunc x);
  nround := fun x => Some (ZnearestA x);
  natan2 := Ratan2; ncosh := cosh; ntanh := tanh
|}.

(** ---- IEEE-754 binary64 ---- *)

Definition F64 := binary_float 53 1024.
Lemma Hprec : Prec_gt_0 53. Proof. reflexivity. Qed.
Lemma Hmax : Prec_lt_emax 53 1024. Proof. reflexivity. Qed.
#[export] Existing Instance Hprec.
#[export] Existing Instance Hmax.

Definition f_add (x y : F64) : F64 := Bplus mode_NE x y.
Definition f_sub (x y : F64) : F64 := Bminus mode_NE x y.
Definition f_mul (x y : F64) : F64 := Bmult mode_NE x y.
Definition f_div (x y : F64) : F64 := Bdiv mode_NE x y.
Definition f_neg (x : F64) : F64 := Bopp x.
Definition f_abs (x : F64) : F64 := Babs x.
Definition f_sqrt (x : F64) : F64 := Bsqrt mode_NE x.
Definition f_ltb (x y : F64) : bool := Bltb x y.
Definition f_leb (x y : F64) : bool := Bleb x y.
Definition f_eqb (x y : F64) : bool := Beqb x y.
Definition f_ofZ (z : Z) : F64 := binary_normalize 53 1024 Hprec Hmax mode_NE z 0 false.

(** [m * 10^(-e)], correctly rounded: the quotient is taken with far more than
    53 significant bits and a sticky bit. *)
Definition f_dec (m e : Z) : F64 :=
  let s := (128 + 4 * e)%Z in
  let num := (m * 2 ^ s)%Z in
  let den := (10 ^ e)%Z in
  let q := (num / den)%Z in
  let sticky := if (num mod den =? 0)%Z then 0%Z else 1%Z in
  binary_normalize 53 1024 Hprec Hmax mode_NE (2 * q + sticky)%Z (- s - 1)%Z false.

Definition f_trunc (x : F64) : option Z := if is_finite x then Some (Btrunc x) else None.

Definition f_round (x : F64) : option Z := f_trunc (Bnearbyint mode_NA x).

(** the C math library, arbitrary *)
Record Libm := mkLibm {
  m_exp : F64 -> F64; m_log : F64 -> F64; m_pow : F64 -> F64 -> F64;
  m_cos : F64 -> F64; m_sin : F64 -> F64;
  m_atan2 : F64 -> F64 -> F64; m_cosh : F64 -> F64; m_tanh : F64 -> F64 }.

Definition NumF (m : Libm) : Num F64 := {|
  nadd := f_add; nsub := f_sub; nmul := f_mul; ndiv := f_div; nneg := f_neg;
  nabs := f_abs; nsqrt := f_sqrt;
  nltb := f_ltb; nleb := f_leb; neqb := f_eqb;
  nfin := is_finite;
  nofZ := f_ofZ;
  ndec := f_dec;
  nexp := m_exp m; nlog := m_log m; npow := m_pow m; ncos := m_cos m; nsin := m_sin m;
  ntrunc := f_trunc; nround := f_round;
  natan2 := m_atan2 m; ncosh := m_cosh m; ntanh := m_tanh m
|}.

Definition f_nan : F64 := B754_nan.
Definition f_inf : F64 := B754_infinity false.

(** ---- elementary facts about the comparisons ---- *)
Lemma Rltb_true x y : Rltb x y = true <-> (x < y)%R.
Proof. unfold Rltb. destruct (Rlt_dec x y); split; auto; congruence. Qed.
Lemma Rltb_false x y : Rltb x y = false <-> (y <= x)%R.
Proof. unfold Rltb. destruct (Rlt_dec x y); split; intros; auto; try congruence; lra. Qed.
Lemma Rleb_true x y : Rleb x y = true <-> (x <= y)%R.
Proof. unfold Rleb. destruct (Rle_dec x y); split; auto; congruence. Qed.
Lemma Rleb_false x y : Rleb x y = false <-> (y < x)%R.
Proof. unfold Rleb. destruct (Rle_dec x y); split; intros; auto; try congruence; lra. Qed.
Lemma Reqb_true x y : Reqb x y = true <-> x = y.
Proof. unfold Reqb. destruct (Req_EM_T x y); split; auto; congruence. Qed.
Lemma Reqb_false x y : Reqb x y = false <-> x <> y.
Proof. unfold Reqb. destruct (Req_EM_T x y); split; intros; auto; congruence. Qed.
