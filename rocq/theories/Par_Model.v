(** Model of the OpenMP loops of core/model_object.cpp and core/oversampled_region.cpp:
    threads that share one memory, one access at a time, in any order. Definitions only. *)
From Coq Require Import ZArith List Bool.
From Verif Require Export Base Num Params_Model Conv_Model Downsample_Model Image_Model.
Import ListNotations.

Section Par.
Variable T : Type.
Variable N : Num T.

(** ---- memory ---- *)
(** the local variables of the functions that contain the loops
    (core/model_object.cpp:1105-1107, 1142, 1243-1246, 2418-2420; core/oversampled_region.cpp:287-288) *)
Inductive var := Vi | Vj | Vn | Vx | Vy | VnewValSum | VtempSum | VadjVal | VstoredError | VnewVal | VtotalComponentFlux.
(** [Shared v]: the variable of the enclosing function; [Private t v]: the copy of thread
    [t]; [Pixel k]: modelVector[k]; [Fparams n]: the member F.params of function object [n];
    [Frame t n]: the array xyParameters of GetValue() of function [n], on the stack of
    thread [t]; [Accel n]: the accelerators of the interpolator of function [n] *)
Inductive loc := Shared (v : var) | Private (t : nat) (v : var) | Pixel (k : Z) | Fparams (n : nat) | Frame (t n : nat) | Accel (n : nat).
Inductive value := Garbage | Real (r : T) | Int (z : Z) | Pointer (t n : nat) | Array (l : list T).
Definition var_eq_dec (v w : var) : {v = w} + {v <> w}. Proof. decide equality. Defined.
Definition loc_eq_dec (l l' : loc) : {l = l'} + {l <> l'}.
Proof. decide equality; try apply var_eq_dec; try apply Z.eq_dec; apply PeanoNat.Nat.eq_dec. Defined.
Definition mem := loc -> value.
Definition put (m : mem) (l : loc) (v : value) : mem := fun l' => if loc_eq_dec l l' then v else m l'.

(** ---- threads ---- *)
(** What a thread still has to do. [Atomic l f]: the indivisible update at the end of a
    reduction. [Bad]: undefined behaviour. *)
Inductive prog :=
| Stop | Bad
| Read (l : loc) (k : value -> prog)
| Write (l : loc) (v : value) (p : prog)
| Atomic (l : loc) (f : value -> value) (p : prog).
Definition config := (mem * list prog)%type.
Definition is_garbage (v : value) : bool := match v with Garbage => true | _ => false end.
(** one access by thread [t]; reading what was never written is undefined *)
Definition step (c : config) (t : nat) : option config :=
  match nth_error (snd c) t with
  | Some (Read l k) => Some (fst c, upd (snd c) t (if is_garbage (fst c l) then Bad else k (fst c l)))
  | Some (Write l v p) => Some (put (fst c) l v, upd (snd c) t p)
  | Some (Atomic l f p) => Some (put (fst c) l (f (fst c l)), upd (snd c) t p)
  | _ => None
  end.
(** the threads take turns as [sched] says *)
Fixpoint exec (sched : list nat) (c : config) : option config :=
  match sched with
  | [] => Some c
  | t :: sched => match step c t with Some c' => exec sched c' | None => None end
  end.

(** ---- a loop under "#pragma omp for schedule (static, chunk)" ---- *)
(** chunks of [chunk] iterations are dealt out to the [nThreads] threads in turn *)
Definition owner (nThreads chunk k : nat) : nat := Nat.modulo (Nat.div k chunk) nThreads.
Definition iterations (nThreads chunk n t : nat) : list nat := filter (fun k => Nat.eqb (owner nThreads chunk k) t) (seq 0 n).
(** [body t k rest]: iteration [k] by thread [t], then [rest] *)
Definition thread_prog (nThreads chunk n : nat) (body : nat -> nat -> prog -> prog) (last : prog) (t : nat) : prog :=
  fold_right (body t) last (iterations nThreads chunk n t).
(** at the beginning only the image has values *)
Definition image_mem (v : list T) : mem := fun l =>
  match l with Pixel k => if (0 <=? k)%Z then match nth_error v (Z.to_nat k) with Some r => Real r | None => Garbage end else Garbage | _ => Garbage end.
Definition image_of (m : mem) (n : nat) : res (list T) :=
  for_ n (fun k acc => match m (Pixel (Z.of_nat k)) with Real r => Ok (acc ++ [r]) | _ => Undef end) [].
Definition is_stop (p : prog) : bool := match p with Stop => true | _ => false end.
Definition is_bad (p : prog) : bool := match p with Bad => true | _ => false end.
(** the image after all threads are done; [Fuel] when [sched] is not a complete run *)
Definition outcome {A} (sched : list nat) (c : config) (get : mem -> res A) : res A :=
  match exec sched c with
  | None => Fuel
  | Some (m, ps) => if existsb is_bad ps then Undef else if forallb is_stop ps then get m else Fuel
  end.
Definition start (nThreads chunk n : nat) (body : nat -> nat -> prog -> prog) (v : list T) : config :=
  (image_mem v, map (thread_prog nThreads chunk n body Stop) (seq 0 nThreads)).

(** ---- the loop bodies ---- *)
Definition read_real (l : loc) (k : T -> prog) : prog := Read l (fun v => match v with Real r => k r | _ => Bad end).
Definition read_int (l : loc) (k : Z -> prog) : prog := Read l (fun v => match v with Int z => k z | _ => Bad end).
(** A function object as seen by a thread: GetValue(x, y) and then the rest. *)
Record pfunc := mkPfunc { pf_point : bool; pf_get : nat -> T -> T -> (T -> prog) -> prog }.
(** GetValue() that only reads members written by Setup() before the loop *)
Definition pure (f : fobj T) : pfunc := mkPfunc (fo_point f) (fun _ x y k => k (fo_value f x y)).
(** GetValue() of the functions that integrate along the line of sight, here the [n]-th:
    the array xyParameters is filled, its address stored in the member F.params, F is
    passed by value to Integrate(), which uses the array F.params points to; then the
    frame is gone. function_objects/func_expdisk3d.cpp:176-220, integrator.cpp:42-56;
    [frame x y] are the values of xyParameters, [integrate] what GSL returns for them.
    func_bpbar3d.cpp, func_brokenexpdisk3d.cpp, func_ferrersbar3d.cpp,
    func_gaussianring3d.cpp, func_peanut_dattathri.cpp, func_triaxbar3d.cpp do the same.
    Simplified: Integrate() reads the array once. *)
Definition integrated (n : nat) (frame : T -> T -> list T) (integrate : list T -> T) : pfunc :=
  mkPfunc false (fun t x y k =>
    Write (Frame t n) (Array (frame x y))
    (Write (Fparams n) (Pointer t n)
    (Read (Fparams n) (fun p => match p with
      | Pointer t' n' => Read (Frame t' n') (fun a => match a with
        | Array l => Write (Frame t n) Garbage (k (integrate l))
        | _ => Bad end)
      | _ => Bad end)))).
(** GetValue() of a PointSource with a bicubic interpolator: GSL searches from the interval
    in the accelerators and stores the one it finds there (function_objects/psf_interpolators.cpp:94-104);
    [found] stands for what it stores *)
Definition accelerated (n : nat) (f : T -> T -> T) (found : T -> T -> Z) : pfunc :=
  mkPfunc true (fun t x y k => Write (Accel n) (Int (found x y)) (k (f x y))).

Section Bodies.
Variable privates : list var.  (* the list of the clause private(...) *)
Variable t : nat.
Definition addr (v : var) : loc := if in_dec var_eq_dec v privates then Private t v else Shared v.
Notation "v :=: e ;; p" := (Write (addr v) e p) (at level 60, right associativity).

(** the Kahan summation, core/model_object.cpp:1168-1176 and 1206-1214,
    core/oversampled_region.cpp:319-327 and 393-409; [sel]: point sources or the others.
    A loop that goes on after [fuel] rounds, which needs another thread to change [n], is
    undefined. *)
Fixpoint kahan_loop (fs : list pfunc) (sel : bool) (fuel : nat) (after : prog) : prog :=
  match fuel with
  | O => Bad
  | S fuel =>
    let next := read_int (addr Vn) (fun n => Vn :=: Int (n + 1) ;; kahan_loop fs sel fuel after) in
    read_int (addr Vn) (fun n =>
      if (n <? Z.of_nat (length fs))%Z then
        match nth_error fs (Z.to_nat n) with
        | None => Bad
        | Some f =>
          if Bool.eqb (pf_point f) sel then
            read_real (addr Vx) (fun x => read_real (addr Vy) (fun y =>
            pf_get f t x y (fun val =>
            read_real (addr VstoredError) (fun e => VadjVal :=: Real (nsub N val e) ;;
            read_real (addr VnewValSum) (fun s => read_real (addr VadjVal) (fun a => VtempSum :=: Real (nadd N s a) ;;
            read_real (addr VtempSum) (fun u => read_real (addr VnewValSum) (fun s => read_real (addr VadjVal) (fun a =>
            VstoredError :=: Real (nsub N (nsub N u s) a) ;;
            read_real (addr VtempSum) (fun u => VnewValSum :=: Real u ;; next))))))))))
          else next
        end
      else after)
  end.
(** one iteration of the loops of CreateModelImage() (core/model_object.cpp:1157-1178,
    1197-1217) and ComputeRegionAndDownsample() (core/oversampled_region.cpp:306-330,
    384-411); [add]: the value is added to the pixel *)
Definition pixel_body (fs : list pfunc) (sel add : bool) (nCols nVals : Z) (coord_x coord_y : Z -> T) (k : nat) (rest : prog) : prog :=
  Vj :=: Int (Z.rem (Z.of_nat k) nCols) ;;
  Vi :=: Int (Z.quot (Z.of_nat k) nCols) ;;
  read_int (addr Vi) (fun i => Vy :=: Real (coord_y i) ;;
  read_int (addr Vj) (fun j => Vx :=: Real (coord_x j) ;;
  VnewValSum :=: Real (nofZ N 0) ;;
  VstoredError :=: Real (nofZ N 0) ;;
  Vn :=: Int 0 ;;
  kahan_loop fs sel (S (length fs)) (
  read_int (addr Vi) (fun i => read_int (addr Vj) (fun j => read_real (addr VnewValSum) (fun s =>
  let idx := (i * nCols + j)%Z in
  if ((0 <=? idx)%Z && (idx <? nVals)%Z)%bool then
    if add then read_real (Pixel idx) (fun old => Write (Pixel idx) (Real (nadd N old s)) rest)
    else Write (Pixel idx) (Real s) rest
  else Bad)))))).

(** the inner loop over columns, core/model_object.cpp:1292-1297 *)
Fixpoint column_loop (f : pfunc) (nCols nVals : Z) (coord_x : Z -> T) (fuel : nat) (after : prog) : prog :=
  match fuel with
  | O => Bad
  | S fuel =>
    read_int (addr Vj) (fun j =>
      if (j <? nCols)%Z then
        Vx :=: Real (coord_x j) ;;
        read_real (addr Vx) (fun x => read_real (addr Vy) (fun y =>
        pf_get f t x y (fun val => VnewVal :=: Real val ;;
        read_int (addr Vi) (fun i => read_int (addr Vj) (fun j => read_real (addr VnewVal) (fun s =>
        let idx := (i * nCols + j)%Z in
        if ((0 <=? idx)%Z && (idx <? nVals)%Z)%bool then
          Write (Pixel idx) (Real s)
          (read_int (addr Vj) (fun j => Vj :=: Int (j + 1) ;; column_loop f nCols nVals coord_x fuel after))
        else Bad))))))
      else after)
  end.
(** one row of GetSingleFunctionImage(), core/model_object.cpp:1290-1298 *)
Definition row_body (f : pfunc) (nCols nVals : Z) (coord_x coord_y : Z -> T) (i : nat) (rest : prog) : prog :=
  Vi :=: Int (Z.of_nat i) ;;
  read_int (addr Vi) (fun i => Vy :=: Real (coord_y i) ;;
  Vj :=: Int 0 ;;
  column_loop f nCols nVals coord_x (S (Z.to_nat nCols)) rest).

(** the inner loop of FindTotalFluxes(), core/model_object.cpp:2463-2466 *)
Fixpoint flux_loop (f : pfunc) (xSize : Z) (fuel : nat) (after : prog) : prog :=
  match fuel with
  | O => Bad
  | S fuel =>
    read_int (addr Vj) (fun j =>
      if (j <? xSize)%Z then
        Vx :=: Real (nofZ N (j + 1)) ;;
        read_real (addr Vx) (fun x => read_real (addr Vy) (fun y =>
        pf_get f t x y (fun val =>
        read_real (addr VtotalComponentFlux) (fun s => VtotalComponentFlux :=: Real (nadd N s val) ;;
        read_int (addr Vj) (fun j => Vj :=: Int (j + 1) ;; flux_loop f xSize fuel after)))))
      else after)
  end.
(** core/model_object.cpp:2461-2467 *)
Definition flux_body (f : pfunc) (xSize : Z) (i : nat) (rest : prog) : prog :=
  Vi :=: Int (Z.of_nat i) ;;
  read_int (addr Vi) (fun i => Vy :=: Real (nofZ N (i + 1)) ;;
  Vj :=: Int 0 ;;
  flux_loop f xSize (S (Z.to_nat xSize)) rest).
(** reduction(+:totalComponentFlux): each thread starts its copy with 0 and adds it to the
    original at the end *)
Definition flux_first (rest : prog) : prog := VtotalComponentFlux :=: Real (nofZ N 0) ;; rest.
Definition flux_last : prog :=
  read_real (addr VtotalComponentFlux) (fun s =>
    Atomic (Shared VtotalComponentFlux) (fun v => match v with Real a => Real (nadd N a s) | _ => Garbage end) Stop).
End Bodies.

(** core/model_object.cpp:1144, 1194; core/oversampled_region.cpp:301, 381 *)
Definition private_pixels : list var := [Vi; Vj; Vn; Vx; Vy; VnewValSum; VtempSum; VadjVal; VstoredError].
(** core/model_object.cpp:1288 *)
Definition private_rows : list var := [Vi; Vj; Vx; Vy; VnewVal].
(** core/model_object.cpp:2458: the private ones and the one of the reduction *)
Definition private_flux : list var := [Vi; Vj; Vx; Vy; VtotalComponentFlux].

(** ---- the functions with their loops run by threads ---- *)
Section Threads.
Variable nThreads chunk : nat.
(** the parallel pixel loop on the image [v] *)
Definition pixel_config (fs : list pfunc) (sel add : bool) (nCols : Z) (coord_x coord_y : Z -> T) (v : list T) : config :=
  start nThreads chunk (length v) (fun t => pixel_body private_pixels t fs sel add nCols (Z.of_nat (length v)) coord_x coord_y) v.
Definition pixel_loop fs sel add nCols coord_x coord_y (v : list T) (sched : list nat) : res (list T) :=
  outcome sched (pixel_config fs sel add nCols coord_x coord_y v) (fun m => image_of m (length v)).
Definition row_config (f : pfunc) (nRows : nat) (nCols : Z) (coord_x coord_y : Z -> T) (v : list T) : config :=
  start nThreads chunk nRows (fun t => row_body private_rows t f nCols (Z.of_nat (length v)) coord_x coord_y) v.
Definition row_loop f nRows nCols coord_x coord_y (v : list T) (sched : list nat) : res (list T) :=
  outcome sched (row_config f nRows nCols coord_x coord_y v) (fun m => image_of m (length v)).

(** core/oversampled_region.cpp:284-430; [s1], [s2]: the order in the two loops *)
Definition par_region (r : region T) (convolve : list T -> list T) (fs pts : list (fobj T)) (mainImage : list T) (s1 s2 : list nat) : res (list T) :=
  let n := Z.to_nat (rg_modelCols r * rg_modelRows r) in
  do img0 <- pixel_loop (map pure fs) false false (rg_modelCols r) (reg_x N r) (reg_y N r) (repeat (nofZ N 0) n) s1;
  let img1 := if rg_doConv r then convolve img0 else img0 in
  do img2 <- pixel_loop (map pure pts) true true (rg_modelCols r) (reg_x N r) (reg_y N r) img1 s2;
  DownsampleAndReplace N img2 (rg_modelCols r) (rg_modelRows r) (rg_nPSFCols r) (rg_nPSFRows r)
    mainImage (rg_mainCols r) (rg_mainRows r) (rg_mainPSFCols r) (rg_mainPSFRows r)
    (rg_x1 r) (rg_y1 r) (rg_scale r).
Definition par_regions (m : model T) (su : list (T * T * list T)) (scheds : list (list nat * list nat)) (st : state T) : res (state T) :=
  for_ (length (mo_regions m)) (fun n st =>
    do ri <- get (mo_regions m) n;
    let '(s1, s2) := nth n scheds ([], []) in
    let st' := mkState (st_vec st) (point_state m (ri_interp ri) (st_interp st))
                       (point_state m (rg_scale (ri_region ri)) (st_scale st)) in
    do v <- par_region (ri_region ri) (ri_convolve ri) (fobjs N m su st) (fobjs N m su st') (st_vec st) s1 s2;
    Ok (mkState v (st_interp st') (st_scale st'))) st.
(** coordinates, core/model_object.cpp:1161-1164 *)
Definition coord_x (m : model T) (j : Z) : T := nofZ N (j - Z.of_nat (psfCols m) + 1).
Definition coord_y (m : model T) (i : Z) : T := nofZ N (i - Z.of_nat (psfRows m) + 1).

Variable r2c : nat -> nat -> list T -> list (T * T).
Variable c2r : nat -> nat -> list (T * T) -> list T.
(** core/model_object.cpp:1103-1229, as Image_Model.CreateModelImage with threads *)
Definition par_CreateModelImage (m : model T) (st : state T) (params : list T) (s1 s2 : list nat) (scheds : list (list nat * list nat)) : res (state T) :=
  do su <- Setup m params;
  let nc := Z.of_nat (nModelColumns m) in
  do v1 <- pixel_loop (map pure (fobjs N m su st)) false false nc (coord_x m) (coord_y m) (st_vec st) s1;
  do v2 <- (match mo_psf m with Some (_, _, pl) => ConvolveImage N r2c c2r pl v1 | None => Ok v1 end);
  do st <- (if existsb is_point (mo_funcs m) then
      let st1 := mkState v2 (point_state m (mo_interp m) (st_interp st)) (st_scale st) in
      do v3 <- pixel_loop (map pure (fobjs N m su st1)) true true nc (coord_x m) (coord_y m) v2 s2;
      Ok (mkState v3 (st_interp st1) (st_scale st1))
    else Ok (mkState v2 (st_interp st) (st_scale st)));
  par_regions m su scheds st.

(** the region calls of core/model_object.cpp:1304-1310, as Image_Model.regions_step1 with threads *)
Definition par_regions1 (m : model T) (idx : nat) (su : list (T * T * list T)) (scheds : list (list nat * list nat)) (st : state T) : res (state T) :=
  do f <- get (mo_funcs m) idx;
  for_ (length (mo_regions m)) (fun n st =>
    do ri <- get (mo_regions m) n;
    do i0 <- get (st_interp st) idx;
    do z0 <- get (st_scale st) idx;
    let '(s1, s2) := nth n scheds ([], []) in
    let st' := if is_point f then
        mkState (st_vec st) (upd (st_interp st) idx (ri_interp ri)) (upd (st_scale st) idx (rg_scale (ri_region ri)))
      else st in
    do fo <- get (fobjs N m su st) idx;
    do fo' <- get (fobjs N m su st') idx;
    do v <- par_region (ri_region ri) (ri_convolve ri) [fo] [fo'] (st_vec st) s1 s2;
    Ok (mkState v (st_interp st') (st_scale st'))) st.
(** core/model_object.cpp:1241-1336, as Image_Model.GetSingleFunctionImage with threads *)
Definition par_GetSingleFunctionImage (m : model T) (st : state T) (params : list T) (idx : nat) (s1 : list nat) (scheds : list (list nat * list nat)) : res (list T * state T) :=
  if forallb (nfin N) params then
    do su <- Setup m params;
    do f <- get (mo_funcs m) idx;
    let st1 := if is_point f then mkState (st_vec st) (upd (st_interp st) idx (mo_interp m)) (st_scale st) else st in
    do fo <- get (fobjs N m su st1) idx;
    do v1 <- row_loop (pure fo) (nModelRows m) (Z.of_nat (nModelColumns m)) (coord_x m) (coord_y m) (st_vec st1) s1;
    do v2 <- (match mo_psf m with
      | Some (_, _, pl) => if is_point f then Ok v1 else ConvolveImage N r2c c2r pl v1
      | None => Ok v1 end);
    do st2 <- par_regions1 m idx su scheds (mkState v2 (st_interp st1) (st_scale st1));
    do out <- GetModelImageVector m st2;
    Ok (out, st2)
  else Abort.

(** one component of FindTotalFluxes(), core/model_object.cpp:2457-2469 *)
Definition flux_config (f : pfunc) (xSize ySize : nat) : config :=
  (put (fun _ => Garbage) (Shared VtotalComponentFlux) (Real (nofZ N 0)),
   map (fun t => flux_first private_flux t (thread_prog nThreads chunk ySize (fun t => flux_body private_flux t f (Z.of_nat xSize)) (flux_last private_flux t) t)) (seq 0 nThreads)).
Definition flux_sum (f : pfunc) (xSize ySize : nat) (sched : list nat) : res T :=
  outcome sched (flux_config f xSize ySize) (fun m => match m (Shared VtotalComponentFlux) with Real r => Ok r | _ => Undef end).
(** A component for FindTotalFluxes(): IsBackground(), the result of TotalFlux() after
    Setup() when CanCalculateTotalFlux(), GetValue() after Setup(). *)
Record component := mkComponent { co_background : bool; co_total : list T -> T -> T -> option T; co_func : func T }.
(** the argument offset of each function's Setup(), core/model_object.cpp:2431-2438 *)
Definition flux_offsets (paramSizes : list nat) (fsetStartFlags : list bool) : res (list nat) :=
  do out <- for_ (length paramSizes) (fun n '(offset, offsets) =>
      do flag <- get fsetStartFlags n;
      do sz <- get paramSizes n;
      let offset := if (flag : bool) then (offset + 2)%nat else offset in
      Ok ((offset + sz)%nat, offsets ++ [offset])) (O, []);
  Ok (snd out).
(** core/model_object.cpp:2415-2476. [sched n]: the order in the loop for component [n];
    [fluxes]: the array individualFluxes of the caller. The interpolators of PointSource
    components do not matter, as these calculate their flux. *)
Definition FindTotalFluxes (cs : list component) (flags : list bool) (params : list T) (xSize ySize : nat) (fluxes : list T) (sched : nat -> list nat) : res (T * list T) :=
  if (Nat.leb 1 xSize && Nat.leb 1 ySize)%bool then
    let x0_all := nmul N (ndec N 5 1) (nofZ N (Z.of_nat xSize)) in
    let y0_all := nmul N (ndec N 5 1) (nofZ N (Z.of_nat ySize)) in
    do offsets <- flux_offsets (map (fun c => fn_nParams (co_func c)) cs) flags;
    for_ (length cs) (fun n s =>
      let '(totalModelFlux, fluxes) := s in
      do c <- get cs n;
      do offset <- get offsets n;
      do p <- own params offset (fn_nParams (co_func c));
      if co_background c then Ok s
      else
        do totalComponentFlux <- (match co_total c p x0_all y0_all with
          | Some r => Ok r
          | None => flux_sum (pure (fobj_of N (co_func c) (x0_all, y0_all, p) (fun _ _ => nofZ N 0) 1)) xSize ySize (sched n)
          end);
        do fluxes <- set fluxes n totalComponentFlux;
        Ok (nadd N totalModelFlux totalComponentFlux, fluxes)) (nofZ N 0, fluxes)
  else Abort.
End Threads.
End Par.
Arguments put {T}. Arguments step {T}. Arguments exec {T}. Arguments image_mem {T}. Arguments image_of {T}. Arguments outcome {T} {A}.
Arguments start {T}. Arguments Stop {T}. Arguments Bad {T}. Arguments Read {T}. Arguments Write {T}. Arguments Atomic {T}.
Arguments Garbage {T}. Arguments Real {T}. Arguments Int {T}. Arguments Pointer {T}. Arguments Array {T}.
Arguments is_garbage {T}. Arguments is_stop {T}. Arguments is_bad {T}. Arguments thread_prog {T}.
Arguments mkPfunc {T}. Arguments pf_point {T}. Arguments pf_get {T}. Arguments pure {T}. Arguments integrated {T}. Arguments accelerated {T}.
Arguments read_real {T}. Arguments read_int {T}. Arguments kahan_loop {T}. Arguments pixel_body {T}. Arguments column_loop {T}. Arguments row_body {T}.
Arguments flux_loop {T}. Arguments flux_body {T}. Arguments flux_first {T}. Arguments flux_last {T}.
Arguments pixel_config {T}. Arguments pixel_loop {T}. Arguments row_config {T}. Arguments row_loop {T}.
Arguments par_region {T}. Arguments par_regions {T}. Arguments coord_x {T}. Arguments coord_y {T}. Arguments par_CreateModelImage {T}. Arguments par_regions1 {T}. Arguments par_GetSingleFunctionImage {T}.
Arguments flux_config {T}. Arguments flux_sum {T}. Arguments mkComponent {T}. Arguments co_background {T}. Arguments co_total {T}. Arguments co_func {T}.
Arguments FindTotalFluxes {T}.
