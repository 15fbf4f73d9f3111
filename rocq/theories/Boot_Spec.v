(** Specification for C37, independent of the model. *)
From Coq Require Import List Arith ZArith Reals.
From Verif Require Import Num Params_Spec.
Import ListNotations.
Local Open Scope list_scope.

Section Spec.
Variables (T W : Type).
Variable N : Num T.

(** The outcomes of [n] rounds, each of which draws a new sample and then fits, always starting
    from the same vector. *)
Fixpoint rounds (sample : W -> W) (fit : list T -> W -> Z * list T * W) (best : list T) (n : nat) (w : W)
    : list (Z * list T) * W :=
  match n with
  | O => ([], w)
  | S k => let '(status, v, w') := fit best (sample w) in
           let '(rest, w'') := rounds sample fit best k w' in
           ((status, v) :: rest, w'')
  end.

(** the fitted vectors of the successful rounds (positive status), in order *)
Definition successes (l : list (Z * list T)) : list (list T) :=
  map snd (filter (fun o => (0 <? fst o)%Z) l).

(** A vector laid out as the model [bs] (centre, then the parameters of the block's functions,
    block after block), with [f] applied to the x and [g] to the y of every centre and [h] to
    every other entry. *)
Fixpoint on_centres (f g h : T -> T) (bs : list (blk T)) (v : list T) : list T :=
  match bs, v with
  | b :: t, x :: y :: r =>
    let n := List.length (concat (b_funcs b)) in
    f x :: g y :: map h (firstn n r) ++ on_centres f g h t (skipn n r)
  | _, _ => v
  end.

(** centres in the full image: the section's offset (ox, oy) is added; nothing else changes,
    except that the number 0 may be added to it *)
Definition in_full_image (ox oy : Z) : list (blk T) -> list T -> list T :=
  on_centres (fun x => nadd N x (nofZ N ox)) (fun y => nadd N y (nofZ N oy)) (fun p => nadd N p (nofZ N 0)).
Definition in_full_image_exactly (ox oy : Z) : list (blk T) -> list T -> list T :=
  on_centres (fun x => nadd N x (nofZ N ox)) (fun y => nadd N y (nofZ N oy)) (fun p => p).

(** value number i of every vector *)
Definition column (d : T) (i : nat) (l : list (list T)) : list T := map (fun v => nth i v d) l.

(** the minimisers return a vector as long as the one they were given *)
Definition keeps_length (fit : list T -> W -> Z * list T * W) : Prop :=
  forall p w, List.length (snd (fst (fit p w))) = List.length p.
End Spec.
Arguments rounds {T W}. Arguments successes {T}. Arguments on_centres {T}. Arguments in_full_image {T} N.
Arguments in_full_image_exactly {T} N. Arguments column {T}. Arguments keeps_length {T W}.
