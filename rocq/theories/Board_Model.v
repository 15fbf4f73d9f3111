(** Model of func_simple-checkerboard.cpp in function_objects/. Definitions only. int is
    unbounded; a number which is no int is [Undef]. *)
From Coq Require Import ZArith List.
From Verif Require Import Base Num.

Section Board.
Variable T : Type.
Variable N : Num T.

(** func_simple-checkerboard.cpp:45 *)
Definition SPACING : Z := 10.

(** (int)floor(t) *)
Definition int_floor (t : T) : res Z :=
  match ntrunc N t with
  | Some z => Ok (if nleb N (nofZ N z) t then z else z - 1)%Z
  | None => Undef
  end.

(** Setup and GetValue, func_simple-checkerboard.cpp:72-102; / and % of C are Z.quot and Z.rem *)
Definition SimpleCheckerboard_value (params : list T) (offsetIndex : nat) (xc yc x y : T) : res T :=
  do I_pos <- get params (0 + offsetIndex);
  do x_int <- int_floor (nadd N (nsub N x xc) (ndec N 5 1));
  do y_int <- int_floor (nadd N (nsub N y yc) (ndec N 5 1));
  let x_quotient := Z.quot x_int SPACING in
  let y_quotient := Z.quot y_int SPACING in
  Ok (if Z.eqb (Z.rem y_quotient 2) 0 then (if Z.eqb (Z.rem x_quotient 2) 0 then I_pos else nofZ N 0)
      else (if Z.eqb (Z.rem x_quotient 2) 1 then I_pos else nofZ N 0)).
End Board.
Arguments int_floor {T}. Arguments SimpleCheckerboard_value {T}.
