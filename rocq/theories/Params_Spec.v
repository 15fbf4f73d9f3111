(** Block-structured models and their flat parameter vectors. *)
From Coq Require Import List Arith Reals.
Import ListNotations.
Local Open Scope list_scope.

(** a function block: a common centre and the parameters of its functions *)
Record blk (T : Type) := mkBlk { b_x : T; b_y : T; b_funcs : list (list T) }.
Arguments mkBlk {T}. Arguments b_x {T}. Arguments b_y {T}. Arguments b_funcs {T}.

Definition flat {T} (bs : list (blk T)) : list T :=
  flat_map (fun b => b_x b :: b_y b :: concat (b_funcs b)) bs.
Definition sizes {T} (bs : list (blk T)) : list nat :=
  flat_map (fun b => map (@length T) (b_funcs b)) bs.
Fixpoint starts {T} (k : nat) (bs : list (blk T)) : list nat :=
  match bs with [] => [] | b :: t => k :: starts (k + length (b_funcs b)) t end.
Definition blocks_ok {T} (bs : list (blk T)) : Prop :=
  bs <> [] /\ Forall (fun b => b_funcs b <> []) bs.

(** what each function should see: its block's centre and its own parameters *)
Definition seen {T} (bs : list (blk T)) : list (T * T * list T) :=
  flat_map (fun b => map (fun f => (b_x b, b_y b, f)) (b_funcs b)) bs.

(** the same model with other centres *)
Definition recentre {T} (c : blk T -> T * T) (bs : list (blk T)) : list (blk T) :=
  map (fun b => mkBlk (fst (c b)) (snd (c b)) (b_funcs b)) bs.

(** description of an image after the first *)
Record imgpar (T : Type) := mkImg { i_pix : T; i_rot : T; i_flux : T; i_x : T; i_y : T }.
Arguments mkImg {T}. Arguments i_pix {T}. Arguments i_rot {T}. Arguments i_flux {T}. Arguments i_x {T}. Arguments i_y {T}.
Definition img_flat {T} (l : list (imgpar T)) : list T :=
  flat_map (fun i => [i_pix i; i_rot i; i_flux i; i_x i; i_y i]) l.

Local Open Scope R_scope.
(** position, in an image with scale [s], rotation [theta] (radians) and first centre
    (X, Y), of the point (x, y) when the reference centre is (x0, y0) *)
Definition place (s theta X Y x0 y0 x y : R) : R * R :=
  (X + s * ((x - x0) * cos theta + (y - y0) * sin theta),
   Y + s * (- (x - x0) * sin theta + (y - y0) * cos theta)).
(** degrees to radians as the code does it: DEG2RAD = 0.017453292519943295 *)
Definition rad (deg : R) : R := IZR 17453292519943295 / IZR (10 ^ 18) * deg.
