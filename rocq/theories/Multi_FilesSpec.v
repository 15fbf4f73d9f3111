(** What the configuration files saved for single images are about, stated without
    reference to the code that writes them. *)
From Coq Require Import List.
From Verif Require Import Save_Spec.
Import ListNotations.

Section S.
  Variable T : Type.
  (** the same functions with other centres and other parameter values *)
  Definition Refitted (bs bs' : list (sblock T)) : Prop :=
    Forall2 (fun b b' => Forall2 (fun f f' => s_name f = s_name f' /\ s_label f = s_label f' /\ s_opts f = s_opts f' /\
                                              length (s_vals f) = length (s_vals f')) (s_funcs b) (s_funcs b')) bs bs'.
End S.
Arguments Refitted {T}.
