(** Model of core/mersenne_twister.cpp. Definitions only. [unsigned long] has
    [W] bits (32 or 64, depending on the platform); every arithmetic result is
    reduced modulo 2^W as unsigned C++ arithmetic prescribes. *)
From Coq Require Import ZArith List.
From Verif Require Export Base Num.
Local Open Scope Z_scope.

Definition mt_N : nat := 624.
Definition mt_M : nat := 397.
Definition MATRIX_A := 0x9908b0df.
Definition UPPER_MASK := 0x80000000.
Definition LOWER_MASK := 0x7fffffff.
Definition FULL := 0xffffffff.

(** the static variables mt[] and mti; initially mti = N+1 and mt[] is all zero *)
Record mtstate := mkMT { mt_v : list Z; mt_i : nat }.
Definition mt_start : mtstate := mkMT (repeat 0 mt_N) (mt_N + 1).

Section MT.
Variable W : Z.
Definition wrap (x : Z) : Z := x mod 2 ^ W.

(** core/mersenne_twister.cpp:58-72 *)
Definition init_genrand (s : Z) (st : mtstate) : res mtstate :=
  do v0 <- set (mt_v st) 0 (Z.land (wrap s) FULL);
  do v <- for_from 1 (mt_N - 1) (fun i v =>
    do p <- get v (i - 1);
    let x := wrap (wrap (1812433253 * (Z.lxor p (Z.shiftr p 30))) + Z.of_nat i) in
    set v i (Z.land x FULL)) v0;
  Ok (mkMT v mt_N).

(** core/mersenne_twister.cpp:79-108: one step of the two loops, and the wrap of i *)
Definition key_step (i : nat) (x : Z) (v : list Z) : res (nat * list Z) :=
  do v <- set v i (Z.land x FULL);
  if (mt_N <=? S i)%nat then
    do l <- get v (mt_N - 1);
    do v <- set v 0 l;
    Ok (1%nat, v)
  else Ok (S i, v).

(** [key_length <= 0] makes init_key[0] the first access *)
Definition init_by_array (init_key : list Z) (st : mtstate) : res mtstate :=
  do st <- init_genrand 19650218 st;
  let key_length := length init_key in
  do r <- for_ (Nat.max mt_N key_length) (fun _ '(i, j, v) =>
    do a <- get v i;
    do b <- get v (i - 1);
    do key <- get init_key j;
    let x := wrap (wrap (Z.lxor a (wrap (Z.lxor b (Z.shiftr b 30) * 1664525)) + key) + Z.of_nat j) in
    do iv <- key_step i x v;
    let '(i, v) := iv in
    Ok (i, (if (key_length <=? S j)%nat then 0%nat else S j), v)) (1%nat, 0%nat, mt_v st);
  let '(i, _, v) := r in
  do r <- for_ (mt_N - 1) (fun _ '(i, v) =>
    do a <- get v i;
    do b <- get v (i - 1);
    let x := wrap (Z.lxor a (wrap (Z.lxor b (Z.shiftr b 30) * 1566083941)) - Z.of_nat i) in
    key_step i x v) (i, v);
  let '(_, v) := r in
  do v <- set v 0 0x80000000;
  Ok (mkMT v (mt_i st)).

Definition mag01 : list Z := [0; MATRIX_A].

(** core/mersenne_twister.cpp:123-131: one new word, from words a = mt[kk],
    b = mt[kk+1], c = mt[kk+M] *)
Definition twist (a b c : Z) : res Z :=
  let y := Z.lor (Z.land a UPPER_MASK) (Z.land b LOWER_MASK) in
  do m <- get mag01 (Z.to_nat (Z.land y 1));
  Ok (Z.lxor (Z.lxor c (Z.shiftr y 1)) m).

(** core/mersenne_twister.cpp:118-137 *)
Definition regenerate (v : list Z) : res (list Z) :=
  do v <- for_ (mt_N - mt_M) (fun kk v =>
    do a <- get v kk; do b <- get v (kk + 1); do c <- get v (kk + mt_M);
    do x <- twist a b c; set v kk x) v;
  do v <- for_from (mt_N - mt_M) (mt_M - 1) (fun kk v =>
    do a <- get v kk; do b <- get v (kk + 1); do c <- get v (kk + mt_M - mt_N);
    do x <- twist a b c; set v kk x) v;
  do a <- get v (mt_N - 1); do b <- get v 0; do c <- get v (mt_M - 1);
  do x <- twist a b c; set v (mt_N - 1) x.

(** core/mersenne_twister.cpp:141-145 *)
Definition temper (y : Z) : Z :=
  let y := Z.lxor y (Z.shiftr y 11) in
  let y := Z.lxor y (Z.land (wrap (Z.shiftl y 7)) 0x9d2c5680) in
  let y := Z.lxor y (Z.land (wrap (Z.shiftl y 15)) 0xefc60000) in
  Z.lxor y (Z.shiftr y 18).

(** core/mersenne_twister.cpp:112-147 *)
Definition genrand_int32 (st : mtstate) : res (Z * mtstate) :=
  do st <- (if (mt_N <=? mt_i st)%nat then
      do st <- (if (mt_i st =? mt_N + 1)%nat then init_genrand 5489 st else Ok st);
      do v <- regenerate (mt_v st);
      Ok (mkMT v 0)
    else Ok st);
  do y <- get (mt_v st) (mt_i st);
  Ok (temper y, mkMT (mt_v st) (S (mt_i st))).

(** core/mersenne_twister.cpp:151-154 *)
Definition genrand_int31 (st : mtstate) : res (Z * mtstate) :=
  do r <- genrand_int32 st; let '(y, st) := r in Ok (Z.shiftr y 1, st).

(** core/mersenne_twister.cpp:158-188, from the integers drawn. The constants
    are the compile-time quotients 1.0/4294967295.0 etc. *)
Section Real.
Variable T : Type.
Variable N : Num T.
Definition real1 (y : Z) : T := nmul N (nofZ N y) (ndiv N (nofZ N 1) (nofZ N 4294967295)).
Definition real2 (y : Z) : T := nmul N (nofZ N y) (ndiv N (nofZ N 1) (nofZ N 4294967296)).
Definition real3 (y : Z) : T :=
  nmul N (nadd N (nofZ N y) (ndec N 5 1)) (ndiv N (nofZ N 1) (nofZ N 4294967296)).
Definition res53 (y1 y2 : Z) : T :=
  let a := Z.shiftr y1 5 in let b := Z.shiftr y2 6 in
  nmul N (nadd N (nmul N (nofZ N a) (nofZ N 67108864)) (nofZ N b)) (ndiv N (nofZ N 1) (nofZ N 9007199254740992)).

(** core/mersenne_twister.cpp:158-188 with the draws *)
Definition genrand_real1 (st : mtstate) : res (T * mtstate) :=
  do r <- genrand_int32 st; let '(y, st) := r in Ok (real1 y, st).
Definition genrand_real2 (st : mtstate) : res (T * mtstate) :=
  do r <- genrand_int32 st; let '(y, st) := r in Ok (real2 y, st).
Definition genrand_real3 (st : mtstate) : res (T * mtstate) :=
  do r <- genrand_int32 st; let '(y, st) := r in Ok (real3 y, st).
Definition genrand_res53 (st : mtstate) : res (T * mtstate) :=
  do r <- genrand_int32 st; let '(y1, st) := r in
  do r <- genrand_int32 st; let '(y2, st) := r in Ok (res53 y1 y2, st).
End Real.

(** n successive draws *)
Fixpoint draws (n : nat) (st : mtstate) : res (list Z * mtstate) :=
  match n with
  | O => Ok ([], st)
  | S m => do r <- genrand_int32 st; let '(y, st) := r in
           do rs <- draws m st; let '(ys, st) := rs in Ok (y :: ys, st)
  end.
End MT.
Arguments real1 {T} N. Arguments real2 {T} N. Arguments real3 {T} N. Arguments res53 {T} N.
Arguments genrand_real1 W {T} N. Arguments genrand_real2 W {T} N. Arguments genrand_real3 W {T} N. Arguments genrand_res53 W {T} N.
