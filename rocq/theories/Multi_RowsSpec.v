(** The columns of the bootstrap output of a joint fit; stated without reference to the
    code. *)
From Coq Require Import Ascii String List ZArith.
From Verif Require Import StrUtil_Spec Config_Spec Params_Spec Save_Spec Table_Spec.
Import ListNotations.
Local Open Scope list_scope.
Local Open Scope string_scope.

(** columns for the description of image number [n], as users count images *)
Definition image_cols (dec : nat -> text) (n : nat) : list text :=
  map (fun p => (list_ascii_of_string p ++ list_ascii_of_string "_IM_" ++ dec n)%list)
    ["PIXEL_SCALE"; "IMAGE_PA"; "FLUX_SCALE"; "X0"; "Y0"].
