(** What a model image should be, in exact arithmetic. *)
From Coq Require Import Reals List Arith ZArith Bool.
From Verif Require Import Sums Image_Model Conv_Spec.
Import ListNotations.
Local Open Scope R_scope.

(** value at (x, y) of a function with centre and parameters [e]; [interp] is the PSF,
    relative to its centre, used for point sources *)
Definition func_value (interp : R -> R -> R) (f : func R) (e : R * R * list R) (x y : R) : R :=
  let '(x0, y0, p) := e in
  match fn_kind f with
  | Plain g => g p x0 y0 x y
  | Point scale => nth 0 p 0 * scale * interp (x - x0) (y - y0)
  end.
(** the sum over the functions selected by [keep] *)
Definition sum_over (keep : func R -> bool) (interp : R -> R -> R) (fs : list (func R)) (es : list (R * R * list R)) (x y : R) : R :=
  rsuml (map (fun '(f, e) => if keep f then func_value interp f e x y else 0) (combine fs es)).
Definition extended (f : func R) : bool := negb (is_point f).

(** Pixel (c, r), counted from 0, has FITS coordinates (c+1, r+1). Without a PSF it is
    the sum of all functions there. With a PSF of pw x ph pixels it is the sum over
    the PSF pixels of PSF value times the sum of the extended functions at the
    displaced coordinates (also beyond the image), plus the point sources. *)
Definition image_pixel (psf : option (list R * nat * nat)) (interp : R -> R -> R)
    (fs : list (func R)) (es : list (R * R * list R)) (c r : nat) : R :=
  let x := INR c + 1 in let y := INR r + 1 in
  match psf with
  | None => sum_over (fun _ => true) interp fs es x y
  | Some (p, pw, ph) =>
    rsum ph (fun k => rsum pw (fun l => nth (k * pw + l) p 0 *
      sum_over extended interp fs es (x - (INR l - INR (pw / 2))) (y - (INR k - INR (ph / 2)))))
    + sum_over is_point interp fs es x y
  end.

(** a history of calls on a model object, and the image returned for parameters [p] *)
Section History.
  Variable T : Type.
  Variable N : Num T.
  Variable r2c : nat -> nat -> list T -> list (T * T).
  Variable c2r : nat -> nat -> list (T * T) -> list T.
  Inductive call := EvalImage (p : list T) | EvalSingle (p : list T) (idx : nat).
  Definition perform (m : model T) (st : state T) (c : call) : res (state T) :=
    match c with
    | EvalImage p => CreateModelImage N r2c c2r m st p
    | EvalSingle p idx => do r <- GetSingleFunctionImage N r2c c2r m st p idx; Ok (snd r)
    end.
  Fixpoint history (m : model T) (st : state T) (cs : list call) : res (state T) :=
    match cs with [] => Ok st | c :: cs => do st <- perform m st c; history m st cs end.
  Definition image_for (m : model T) (st : state T) (p : list T) : res (list T) :=
    do st <- CreateModelImage N r2c c2r m st p; GetModelImageVector m st.
  Definition single_for (m : model T) (st : state T) (p : list T) (idx : nat) : res (list T) :=
    do r <- GetSingleFunctionImage N r2c c2r m st p idx; Ok (fst r).
End History.
Arguments EvalImage {T}. Arguments EvalSingle {T}.
Arguments history {T} N. Arguments image_for {T} N. Arguments single_for {T} N. Arguments perform {T} N.

(** An oversampled region: its lower-left pixel (x1, y1) in FITS coordinates, the
    number of columns and rows it covers, its scale, PSF and the PSF's interpolator
    (in oversampled pixels) *)
Record rspec := mkRspec { rx1 : nat; ry1 : nat; rnc : nat; rnr : nat; rsc : nat;
  rpsf : list R; rpw : nat; rph : nat; rinterp : R -> R -> R }.
Definition covers (a : rspec) (c r : nat) : bool :=
  ((rx1 a <=? c + 1) && (c + 1 <? rx1 a + rnc a) && ((ry1 a <=? r + 1) && (r + 1 <? ry1 a + rnr a)))%nat.
(** sub-pixel (b, a) of pixel (c, r): the sum over the PSF pixels of PSF value times
    the extended functions, at displacements of 1/scale pixels, plus the point sources *)
Definition subpixel (a : rspec) (fs : list (func R)) (es : list (R * R * list R)) (x y : R) : R :=
  let s := INR (rsc a) in
  rsum (rph a) (fun k => rsum (rpw a) (fun l => nth (k * rpw a + l) (rpsf a) 0 *
      sum_over extended (rinterp a) fs es (x - (INR l - INR (rpw a / 2)) / s) (y - (INR k - INR (rph a / 2)) / s)))
  + sum_over is_point (fun u v => rinterp a (s * u) (s * v)) fs es x y.
Definition region_pixel (a : rspec) (fs : list (func R)) (es : list (R * R * list R)) (c r : nat) : R :=
  let s := rsc a in
  rsum s (fun i => rsum s (fun j =>
    subpixel a fs es (INR c + 1 - 1 / 2 + (INR j + 1 / 2) / INR s) (INR r + 1 - 1 / 2 + (INR i + 1 / 2) / INR s)))
  / (INR s * INR s).
(** the last region that covers a pixel decides, otherwise [base] *)
Definition with_regions (regs : list rspec) (base : R) (fs : list (func R)) (es : list (R * R * list R)) (c r : nat) : R :=
  fold_left (fun v a => if covers a c r then region_pixel a fs es c r else v) regs base.

(** What the user asks for: a PSF and the region x1:x2, y1:y2 with its scale. The part
    inside a w x h image is used. *)
Record request := mkRequest { q_psf : psf_info R; q_x1 : Z; q_x2 : Z; q_y1 : Z; q_y2 : Z; q_scale : nat }.
Definition clipped (lo hi size : Z) : nat * nat :=
  let lo := Z.max lo 1 in let hi := Z.min hi size in (Z.to_nat lo, Z.to_nat (hi - lo + 1)).
Definition requested (bicubic : list R -> nat -> nat -> R -> R -> R) (w h : nat) (q : request) : rspec :=
  let '(x, nc) := clipped (q_x1 q) (q_x2 q) (Z.of_nat w) in let '(y, nr) := clipped (q_y1 q) (q_y2 q) (Z.of_nat h) in
  let p := q_psf q in
  mkRspec x y nc nr (q_scale q) (used_psf (ps_pixels p) (ps_normalize p)) (ps_cols p) (ps_rows p)
    (bicubic (ps_pixels p) (ps_cols p) (ps_rows p)).
(** the region meets the image, and its oversampled image is square *)
Definition valid_request (w h : nat) (q : request) : Prop :=
  let p := q_psf q in
  (1 <= ps_cols p)%nat /\ (1 <= ps_rows p)%nat /\ length (ps_pixels p) = (ps_cols p * ps_rows p)%nat /\
  (q_x1 q < q_x2 q)%Z /\ (q_y1 q < q_y2 q)%Z /\ (1 <= q_scale q)%nat /\
  (1 <= q_x2 q)%Z /\ (q_x1 q <= Z.of_nat w)%Z /\ (1 <= q_y2 q)%Z /\ (q_y1 q <= Z.of_nat h)%Z /\
  (2 * ps_cols p + q_scale q * snd (clipped (q_x1 q) (q_x2 q) (Z.of_nat w)) =
   2 * ps_rows p + q_scale q * snd (clipped (q_y1 q) (q_y2 q) (Z.of_nat h)))%nat.
Fixpoint add_regions (r2c : nat -> nat -> list R -> list (R * R)) (c2r : nat -> nat -> list (R * R) -> list R)
    (bicubic : list R -> nat -> nat -> R -> R -> R) (m : model R) (qs : list request) : res (model R) :=
  match qs with
  | [] => Ok m
  | q :: qs => do r <- AddOversampledPsfInfo NumR r2c c2r m (q_psf q) bicubic (q_x1 q) (q_x2 q) (q_y1 q) (q_y2 q) (Z.of_nat (q_scale q));
      add_regions r2c c2r bicubic (snd r) qs
  end.

(** the PSF in use, and a PSF image as it must be supplied *)
Definition psf_spec (p : option (psf_info R)) : option (list R * nat * nat) :=
  option_map (fun p => (used_psf (ps_pixels p) (ps_normalize p), ps_cols p, ps_rows p)) p.
Definition valid_psf (p : option (psf_info R)) : Prop :=
  match p with
  | None => True
  | Some p => (1 <= ps_cols p)%nat /\ (1 <= ps_rows p)%nat /\ length (ps_pixels p) = (ps_cols p * ps_rows p)%nat /\
      (ps_normalize p = true -> total (ps_pixels p) <> 0)
  end.
