(** Data races and complete runs, independent of what the threads compute. *)
From Coq Require Import ZArith List Bool.
From Verif Require Import Base Num Par_Model.
Import ListNotations.

Inductive kind := Reading | Writing | Updating.
(** the next access of a thread *)
Definition next_access {T} (p : prog T) : option (loc * kind) :=
  match p with Read l _ => Some (l, Reading) | Write l _ _ => Some (l, Writing) | Atomic l _ _ => Some (l, Updating) | _ => None end.
(** two accesses of one location that may not happen at the same time: not two reads, not
    two indivisible updates *)
Definition conflicting (a b : kind) : Prop := match a, b with Reading, Reading => False | Updating, Updating => False | _, _ => True end.
Definition race {T} (c : config T) : Prop :=
  exists t u p q l a b, t <> u /\ nth_error (snd c) t = Some p /\ nth_error (snd c) u = Some q /\
    next_access p = Some (l, a) /\ next_access q = Some (l, b) /\ conflicting a b.
Definition undefined {T} (c : config T) : Prop := In Bad (snd c).
Definition finished {T} (c : config T) : Prop := forall p, In p (snd c) -> p = Stop.
(** Whatever the order of the accesses, there is no data race and no undefined behaviour,
    all threads are done after a bounded number of accesses, and then [P] holds. *)
Definition always_ends {T} (c0 : config T) (P : mem T -> Prop) : Prop :=
  exists bound, forall sched c, exec sched c0 = Some c ->
    ~ race c /\ ~ undefined c /\ length sched <= bound /\ (finished c -> P (fst c)) /\ (~ finished c -> exists t, step c t <> None).

(** ---- model objects and calls ---- *)
From Coq Require Import Reals Permutation.
From Verif Require Import Sums Image_Model Image_Spec.
(** a model object made by SetupModelImage() and any number of oversampled regions *)
Inductive built {T} (N : Num T) r2c c2r : model T -> Prop :=
| Built_setup funcs flags psf interp w h code m : SetupModelImage N r2c funcs flags psf interp w h = Ok (code, Some m) -> built N r2c c2r m
| Built_region m psf bicubic x1 x2 y1 y2 scale code m' : built N r2c c2r m ->
    AddOversampledPsfInfo N r2c c2r m psf bicubic x1 x2 y1 y2 scale = Ok (code, m') -> built N r2c c2r m'.
(** a call with the orders of the threads' accesses in its loops *)
Inductive par_call T :=
| ParImage (p : list T) (s1 s2 : list nat) (scheds : list (list nat * list nat))
| ParSingle (p : list T) (idx : nat) (s1 : list nat) (scheds : list (list nat * list nat)).
Arguments ParImage {T}. Arguments ParSingle {T}.
(** the call it is *)
Definition the_call {T} (c : par_call T) : call T := match c with ParImage p _ _ _ => EvalImage p | ParSingle p idx _ _ => EvalSingle p idx end.
Fixpoint par_history {T} (N : Num T) nThreads chunk r2c c2r (m : model T) (st : state T) (cs : list (par_call T)) : res (state T) :=
  match cs with
  | [] => Ok st
  | c :: cs =>
    do st <- (match c with
      | ParImage p s1 s2 scheds => par_CreateModelImage N nThreads chunk r2c c2r m st p s1 s2 scheds
      | ParSingle p idx s1 scheds => do r <- par_GetSingleFunctionImage N nThreads chunk r2c c2r m st p idx s1 scheds; Ok (snd r)
      end);
    par_history N nThreads chunk r2c c2r m st cs
  end.

(** ---- total fluxes ---- *)
(** the pixels of an image of w x h pixels in rows of the list *)
Definition rows_pixels (w : nat) (rows : list nat) : list (nat * nat) := flat_map (fun r => map (fun c => (c, r)) (seq 0 w)) rows.
(** rows dealt out in chunks to the threads in turn: those of thread t *)
Definition rows_of (nThreads chunk h t : nat) : list nat := filter (fun r => Nat.eqb (Nat.modulo (Nat.div r chunk) nThreads) t) (seq 0 h).
(** the sum from left to right *)
Definition sum_left {T} (N : Num T) (l : list T) : T := fold_left (nadd N) l (nofZ N 0).
(** the flux of one component, with parameters [p], in the middle of an image of w x h
    pixels: what the function calculates itself, or the sum of its values at the pixels *)
Definition component_flux (c : component R) (p : list R) (w h : nat) : R :=
  let x0 := (INR w / 2)%R in let y0 := (INR h / 2)%R in
  match co_total c p x0 y0 with
  | Some f => f
  | None =>
    match fn_kind (co_func c) with
    | Plain g => rsum h (fun r => rsum w (fun k => g p x0 y0 (INR k + 1)%R (INR r + 1)%R))
    | Point _ => 0%R
    end
  end.
