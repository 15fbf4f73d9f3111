(** Bytes held by a list of buffers. *)
From Coq Require Import ZArith List.
From Verif Require Export Mem_Model.
Import ListNotations.
Open Scope Z_scope.

Fixpoint bytes (l : buffers) : Z :=
  match l with
  | [] => 0
  | (count, size) :: t => count * size + bytes t
  end.

(** Sizes that occur: at least one pixel, up to 2^24 in each direction *)
Definition size_ok (n : Z) : Prop := 1 <= n <= 2 ^ 24.

(** An oversampled region with positive sizes *)
Definition region_ok (r : Region) : Prop :=
  1 <= rg_scale r /\ 1 <= rg_cols r /\ 1 <= rg_rows r /\ rg_x1 r <= rg_x2 r /\ rg_y1 r <= rg_y2 r.
