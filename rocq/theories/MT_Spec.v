(** Specification of MT19937 (Matsumoto & Nishimura 1998, 2002 seeding),
    independent of the model: an infinite sequence of 32-bit words [X] that
    starts with the 624 seed words and obeys the twisted recurrence; the outputs
    are the tempered words X(624), X(625), ... *)
From Coq Require Import ZArith List Reals.
Local Open Scope Z_scope.

Definition word32 (x : Z) : Prop := 0 <= x < 2 ^ 32.

(** seeding by one number *)
Definition seed_words (s : Z) (X : nat -> Z) : Prop :=
  X 0%nat = s mod 2 ^ 32 /\
  forall i, (1 <= i < 624)%nat ->
    X i = (1812433253 * Z.lxor (X (i - 1)%nat) (X (i - 1)%nat / 2 ^ 30) + Z.of_nat i) mod 2 ^ 32.

(** upper bit of [a] followed by the lower 31 bits of [b] *)
Definition joined (a b : Z) : Z := 2 ^ 31 * (a / 2 ^ 31) + b mod 2 ^ 31.
(** multiplication by the companion matrix A *)
Definition times_A (y : Z) : Z := Z.lxor (y / 2) (if Z.odd y then 0x9908b0df else 0).

Definition recurrence (X : nat -> Z) : Prop :=
  forall k, X (k + 624)%nat = Z.lxor (X (k + 397)%nat) (times_A (joined (X k) (X (k + 1)%nat))).

Definition tempered (x : Z) : Z :=
  let a := Z.lxor x (x / 2 ^ 11) in
  let b := Z.lxor a (Z.land (a * 2 ^ 7) 0x9d2c5680) in
  let c := Z.lxor b (Z.land (b * 2 ^ 15) 0xefc60000) in
  Z.lxor c (c / 2 ^ 18).
From Verif Require Import Base Num MT_Model.

(** every state the generator can be in: program start, a call of one of the
    two seeding functions in any state, or a draw *)
Inductive reached (W : Z) : mtstate -> Prop :=
| reached_start : reached W mt_start
| reached_seed s st st' : reached W st -> init_genrand W s st = Ok st' -> reached W st'
| reached_key key st st' : reached W st -> key <> nil -> init_by_array W key st = Ok st' -> reached W st'
| reached_draw y st st' : reached W st -> genrand_int32 W st = Ok (y, st') -> reached W st'.

(** seed, then draw n numbers *)
Definition seeded_draws (W s : Z) (st : mtstate) (n : nat) : res (list Z * mtstate) :=
  do st1 <- init_genrand W s st; draws W n st1.
