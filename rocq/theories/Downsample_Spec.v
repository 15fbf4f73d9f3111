(** Block means, stated on images as functions of (column, row). *)
From Coq Require Import Reals List Arith.
From Verif Require Import Sums Downsample_Model.
Import ListNotations.
Local Open Scope R_scope.

(** pixel (column c, row r) of a row-major image with w columns *)
Definition pix (img : list R) (w : nat) (c r : nat) : R := nth (r * w + c) img 0.

(** mean over the s x s block whose lower-left pixel is (c0, r0) *)
Definition block_mean (img : list R) (w s c0 r0 : nat) : R :=
  rsum s (fun a => rsum s (fun b => pix img w (c0 + b) (r0 + a))) / (INR s * INR s).

(** [img'] is [img] except that the nc x nr pixels from (c0, r0) on are [val c r] *)
Definition replaced (img img' : list R) (w h c0 r0 nc nr : nat) (val : nat -> nat -> R) : Prop :=
  length img' = length img /\
  forall c r, (c < w)%nat -> (r < h)%nat ->
    pix img' w c r =
    if andb (andb (c0 <=? c) (c <? c0 + nc)) (andb (r0 <=? r) (r <? r0 + nr))
    then val (c - c0)%nat (r - r0)%nat else pix img w c r.

(** sum of all functions at (x, y): the extended ones of [fs], the point sources of [pts] *)
Definition total_at (fs pts : list (fobj R)) (x y : R) : R :=
  rsuml (map (fun f => fo_value f x y) (filter (fun f => negb (fo_point f)) fs)) +
  rsuml (map (fun f => fo_value f x y) (filter (fun f => fo_point f) pts)).
