(** The columns of the bootstrap and Markov-chain output files; stated without reference
    to the code. *)
From Coq Require Import Ascii String List ZArith.
From Verif Require Import StrUtil_Spec Config_Spec Params_Spec Save_Spec.
From Verif Require Import Build_Model. (* only the table [classes] *)
Import ListNotations.
Local Open Scope list_scope.

(** "%d" on the values of an int *)
Definition DecOK (dec : nat -> text) : Prop :=
  forall n, (Z.of_nat n <= 2 ^ 31 - 1)%Z -> Digits (dec n) (Z.of_nat n) /\ length (dec n) <= 10.

(** what a number is shown as: one word *)
Definition ShowOK {T} (show : T -> text) : Prop :=
  forall v, show v <> [] /\ length (show v) <= 400 /\ Forall (fun c => ~ Blank c /\ c <> ch 0) (show v).

(** the separator of the columns *)
Definition SepOK (sep : text) : Prop :=
  sep <> [] /\ length sep <= 100 /\ Forall (fun c => Blank c) sep.

Section C.
  Variable T : Type.
  Variable dec : nat -> text.
  Definition tagged (name : text) (n : nat) : text := name ++ list_ascii_of_string "_" ++ dec n.
  Definition own_names (f : sfunc T) : list text :=
    flat_map (fun c => if list_eq_dec ascii_dec (s_name f) (c_name c) then c_params c else []) classes.
  (** columns of functions number n, n+1, ... *)
  Fixpoint func_cols (n : nat) (fs : list (sfunc T)) : list text :=
    match fs with
    | [] => []
    | f :: fs => map (fun p => tagged p n) (own_names f) ++ func_cols (S n) fs
    end.
  (** columns of blocks number k, k+1, ... *)
  Fixpoint block_cols (k n : nat) (bs : list (sblock T)) : list text :=
    match bs with
    | [] => []
    | b :: bs => tagged (list_ascii_of_string "X0") k :: tagged (list_ascii_of_string "Y0") k ::
                 func_cols n (s_funcs b) ++ block_cols (S k) (n + length (s_funcs b)) bs
    end.
  Definition columns (bs : list (sblock T)) : list text := block_cols 1 1 bs.
End C.
Arguments columns {T}.
Arguments own_names {T}. Arguments func_cols {T}. Arguments block_cols {T}.
