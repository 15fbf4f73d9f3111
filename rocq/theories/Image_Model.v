(** Model of the image part of core/model_object.cpp: SetupModelImage,
    CreateModelImage, GetSingleFunctionImage and GetModelImageVector.
    Definitions only. OpenMP loops are run sequentially; allocation succeeds. *)
From Coq Require Import ZArith List Bool.
From Verif Require Export Base Num Params_Model Conv_Model Downsample_Model.

Section Image.
Variable T : Type.
Variable N : Num T.
Variable r2c : nat -> nat -> list T -> list (T * T).
Variable c2r : nat -> nat -> list (T * T) -> list T.

(** A FunctionObject. [Plain f]: after Setup with own parameters p and centre
    (x0, y0), GetValue(x, y) is [f p x0 y0 x y]. [Point s]: a PointSource with
    intensity scale [s] (function_objects/func_pointsource.cpp). *)
Inductive fkind := Plain (f : list T -> T -> T -> T -> T -> T) | Point (intensityScale : T).
Record func := mkFunc { fn_nParams : nat; fn_kind : fkind }.
Definition is_point (f : func) : bool := match fn_kind f with Plain _ => false | Point _ => true end.

(** an OversampledRegion: its geometry, its convolver and its PSF interpolator *)
Record regionInfo := mkRegionInfo {
  ri_region : region T; ri_convolve : list T -> list T; ri_interp : T -> T -> T }.

(** A ModelObject after SetupModelImage. [mo_psf] is the size of the PSF and the
    convolver's plan when a PSF was added; [mo_interp] is psfInterpolator. *)
Record model := mkModel {
  mo_funcs : list func; mo_flags : list bool; mo_dataCols : nat; mo_dataRows : nat;
  mo_psf : option (nat * nat * plan T); mo_interp : T -> T -> T; mo_regions : list regionInfo }.

(** core/model_object.cpp:488-527 (with nPSFColumns, nPSFRows of 0 without a PSF) *)
Definition psfCols (m : model) : nat := match mo_psf m with Some (c, _, _) => c | None => O end.
Definition psfRows (m : model) : nat := match mo_psf m with Some (_, r, _) => r | None => O end.
Definition nModelColumns (m : model) : nat := (mo_dataCols m + 2 * psfCols m)%nat.
Definition nModelRows (m : model) : nat := (mo_dataRows m + 2 * psfRows m)%nat.
Definition nModelVals (m : model) : nat := (nModelColumns m * nModelRows m)%nat.

(** core/model_object.cpp:488-517: a negative result of the convolver's set-up is passed on *)
Definition SetupModelImage (funcs : list func) (flags : list bool) (psf : option (psf_info T))
    (interp : T -> T -> T) (nImageColumns nImageRows : nat) : res (Z * option model) :=
  if (Nat.leb 1 nImageColumns && Nat.leb 1 nImageRows)%bool then
    match psf with
    | None => Ok (0%Z, Some (mkModel funcs flags nImageColumns nImageRows None interp []))
    | Some p =>
      do r <- DoFullSetup N r2c psf (Some (nImageColumns + 2 * ps_cols p, nImageRows + 2 * ps_rows p))%nat;
      let '(result, _, pl) := r in
      match pl with
      | Some pl => Ok (result, Some (mkModel funcs flags nImageColumns nImageRows
                         (Some (ps_cols p, ps_rows p, pl)) interp []))
      | None => Ok (result, None)
      end
    end
  else Abort.

(** Adding an oversampled region: core/model_object.cpp:881-952 with
    core/oversampled_region.cpp:163-199 and 207-273. (x1, x2, y1, y2) are the
    corrected region coordinates. [bicubic] is the interpolator of the PSF pixels as
    given: it is built before the convolver normalises them
    (core/oversampled_region.cpp:186-187). A region's convolution cannot fail here. *)
Definition convolve_total (pl : plan T) (v : list T) : list T :=
  match ConvolveImage N r2c c2r pl v with Ok v' => v' | _ => v end.
Definition AddOversampledPsfInfo (m : model) (psf : psf_info T) (bicubic : list T -> nat -> nat -> T -> T -> T)
    (x1 x2 y1 y2 oversampleScale : Z) : res (Z * model) :=
  if (Nat.leb 1 (ps_cols psf) && Nat.leb 1 (ps_rows psf) && (x1 <? x2)%Z && (y1 <? y2)%Z && (1 <=? oversampleScale)%Z
      && Nat.leb 1 (nModelColumns m) && Nat.leb 1 (nModelRows m))%bool then
    if forallb (nfin N) (ps_pixels psf) then
      let x1 := Z.max x1 1 in let y1 := Z.max y1 1 in
      let x2 := Z.min x2 (Z.of_nat (mo_dataCols m)) in let y2 := Z.min y2 (Z.of_nat (mo_dataRows m)) in
      let deltaX := (x2 - x1 + 1)%Z in let deltaY := (y2 - y1 + 1)%Z in
      if ((0 <? deltaX) && (0 <? deltaY))%Z then
        do reg <- Downsample_Model.SetupModelImage N (Some (Z.of_nat (ps_cols psf), Z.of_nat (ps_rows psf))) x1 y1 deltaX deltaY
          (Z.of_nat (nModelColumns m)) (Z.of_nat (nModelRows m)) (Z.of_nat (psfCols m)) (Z.of_nat (psfRows m)) oversampleScale;
        do r <- DoFullSetup N r2c (Some psf) (Some (Z.to_nat (rg_modelCols reg), Z.to_nat (rg_modelRows reg)));
        let '(result, _, pl) := r in
        match pl with
        | Some pl =>
          Ok (0%Z, mkModel (mo_funcs m) (mo_flags m) (mo_dataCols m) (mo_dataRows m) (mo_psf m) (mo_interp m)
                (mo_regions m ++ [mkRegionInfo reg (convolve_total pl) (bicubic (ps_pixels psf) (ps_cols psf) (ps_rows psf))]))
        | None => Ok (result, m)
        end
      else Abort
    else Ok ((-1)%Z, m)
  else Abort.

(** What evaluations can change: modelVector and, for each function, the interpolator
    pointer and the oversampling scale of the PointSource objects. Both are
    meaningless for other functions. *)
Record state := mkState { st_vec : list T; st_interp : list (T -> T -> T); st_scale : list Z }.
(** after SetupModelImage: calloc'd vector, scale 1
    (function_objects/func_pointsource.cpp:82); the interpolator pointers are
    uninitialised, here arbitrary *)
Definition initial (m : model) (garbage : list (T -> T -> T)) : state :=
  mkState (repeat (nofZ N 0) (nModelVals m)) garbage (repeat 1%Z (length (mo_funcs m))).

(** what Setup stores in each function: its parameters and centre;
    core/model_object.cpp:1128-1138 and 1263-1275 *)
Definition Setup (m : model) (params : list T) : res (list (T * T * list T)) :=
  do calls <- setup_calls params (map fn_nParams (mo_funcs m)) (mo_flags m);
  for_ (length (mo_funcs m)) (fun n acc =>
    do c <- get calls n; do f <- get (mo_funcs m) n;
    let '(offset, x0, y0) := c in
    do p <- own params offset (fn_nParams f);
    Ok (acc ++ [(x0, y0, p)])) [].

(** GetValue of function [f] once set up; function_objects/func_pointsource.cpp:220-229 *)
Definition fobj_of (f : func) (s : T * T * list T) (interp : T -> T -> T) (scale : Z) : fobj T :=
  let '(x0, y0, p) := s in
  match fn_kind f with
  | Plain g => mkFobj (fun x y => g p x0 y0 x y) false
  | Point isc =>
    let I_tot := nmul N (nth 0 p (nofZ N 0)) isc in
    mkFobj (fun x y => nmul N I_tot (interp (nmul N (nofZ N scale) (nsub N x x0)) (nmul N (nofZ N scale) (nsub N y y0)))) true
  end.
Definition fobjs (m : model) (su : list (T * T * list T)) (st : state) : list (fobj T) :=
  map (fun '(f, s, (i, z)) => fobj_of f s i z)
    (combine (combine (mo_funcs m) su) (combine (st_interp st) (st_scale st))).

(** coordinates of model pixel (row i, column j), core/model_object.cpp:1161-1164 *)
Definition pix_x (m : model) (j : nat) : T := nofZ N (Z.of_nat j - Z.of_nat (psfCols m) + 1).
Definition pix_y (m : model) (i : nat) : T := nofZ N (Z.of_nat i - Z.of_nat (psfRows m) + 1).

(** setting interpolator (and scale) of the PointSource objects,
    core/model_object.cpp:1194-1196, core/oversampled_region.cpp:374-379 *)
Definition point_state {A} (m : model) (v : A) (old : list A) : list A :=
  map (fun '(f, o) => if is_point f then v else o) (combine (mo_funcs m) old).

(** core/model_object.cpp:1224-1226 with core/oversampled_region.cpp:284-430 *)
Definition regions_step (m : model) (su : list (T * T * list T)) (st : state) : res state :=
  for_ (length (mo_regions m)) (fun n st =>
    do ri <- get (mo_regions m) n;
    let st' := mkState (st_vec st) (point_state m (ri_interp ri) (st_interp st))
                       (point_state m (rg_scale (ri_region ri)) (st_scale st)) in
    do v <- ComputeRegionAndDownsample N (ri_region ri) (ri_convolve ri) (fobjs m su st) (fobjs m su st') (st_vec st);
    Ok (mkState v (st_interp st') (st_scale st'))) st.

(** core/model_object.cpp:1103-1229. Parameters that are not finite are reported but used. *)
Definition CreateModelImage (m : model) (st : state) (params : list T) : res state :=
  do su <- Setup m params;
  let nc := nModelColumns m in
  do v1 <- for_ (nModelVals m) (fun k v =>
    let j := Nat.modulo k nc in let i := Nat.div k nc in
    set v (i * nc + j) (kahan_sum N (fobjs m su st) false (pix_x m j) (pix_y m i))) (st_vec st);
  do v2 <- (match mo_psf m with Some (_, _, pl) => ConvolveImage N r2c c2r pl v1 | None => Ok v1 end);
  do st <- (if existsb is_point (mo_funcs m) then
      let st1 := mkState v2 (point_state m (mo_interp m) (st_interp st)) (st_scale st) in
      do v3 <- for_ (nModelVals m) (fun k v =>
        let j := Nat.modulo k nc in let i := Nat.div k nc in
        do old <- get v (i * nc + j);
        set v (i * nc + j) (nadd N old (kahan_sum N (fobjs m su st1) true (pix_x m j) (pix_y m i)))) v2;
      Ok (mkState v3 (st_interp st1) (st_scale st1))
    else Ok (mkState v2 (st_interp st) (st_scale st)));
  regions_step m su st.

(** core/model_object.cpp:2257-2289 and 1313-1335: the part without padding *)
Definition GetModelImageVector (m : model) (st : state) : res (list T) :=
  match mo_psf m with
  | Some _ =>
    for_ (mo_dataCols m * mo_dataRows m) (fun z out =>
      let iDataRow := Nat.div z (mo_dataCols m) in
      let iDataCol := (z - iDataRow * mo_dataCols m)%nat in
      let zModel := (nModelColumns m * (psfRows m + iDataRow) + psfCols m + iDataCol)%nat in
      do v <- get (st_vec st) zModel;
      Ok (out ++ [v])) []
  | None => Ok (st_vec st)
  end.

(** the function at [idx] as the only one, for the region calls of
    core/model_object.cpp:1304-1310 *)
Definition regions_step1 (m : model) (idx : nat) (su : list (T * T * list T)) (st : state) : res state :=
  do f <- get (mo_funcs m) idx;
  for_ (length (mo_regions m)) (fun n st =>
    do ri <- get (mo_regions m) n;
    do i0 <- get (st_interp st) idx;
    do z0 <- get (st_scale st) idx;
    let st' := if is_point f then
        mkState (st_vec st) (upd (st_interp st) idx (ri_interp ri)) (upd (st_scale st) idx (rg_scale (ri_region ri)))
      else st in
    do fo <- get (fobjs m su st) idx;
    do fo' <- get (fobjs m su st') idx;
    do v <- ComputeRegionAndDownsample N (ri_region ri) (ri_convolve ri) [fo] [fo'] (st_vec st);
    Ok (mkState v (st_interp st') (st_scale st'))) st.

(** core/model_object.cpp:1241-1336: the returned image and the state after it; a
    parameter that is not finite ends the program *)
Definition GetSingleFunctionImage (m : model) (st : state) (params : list T) (idx : nat) : res (list T * state) :=
  if forallb (nfin N) params then
    do su <- Setup m params;
    do f <- get (mo_funcs m) idx;
    let st1 := if is_point f then mkState (st_vec st) (upd (st_interp st) idx (mo_interp m)) (st_scale st) else st in
    do fo <- get (fobjs m su st1) idx;
    do v1 <- for2 (nModelRows m) (nModelColumns m) (fun i j v =>
      set v (i * nModelColumns m + j)%nat (fo_value fo (pix_x m j) (pix_y m i))) (st_vec st1);
    do v2 <- (match mo_psf m with
      | Some (_, _, pl) => if is_point f then Ok v1 else ConvolveImage N r2c c2r pl v1
      | None => Ok v1 end);
    do st2 <- regions_step1 m idx su (mkState v2 (st_interp st1) (st_scale st1));
    do out <- GetModelImageVector m st2;
    Ok (out, st2)
  else Abort.
End Image.
Arguments Plain {T}. Arguments Point {T}. Arguments mkFunc {T}. Arguments fn_nParams {T}. Arguments fn_kind {T}.
Arguments is_point {T}. Arguments mkRegionInfo {T}. Arguments ri_region {T}. Arguments ri_convolve {T}. Arguments ri_interp {T}.
Arguments mkModel {T}. Arguments mo_funcs {T}. Arguments mo_flags {T}. Arguments mo_dataCols {T}. Arguments mo_dataRows {T}.
Arguments mo_psf {T}. Arguments mo_interp {T}. Arguments mo_regions {T}. Arguments psfCols {T}. Arguments psfRows {T}.
Arguments nModelColumns {T}. Arguments nModelRows {T}. Arguments nModelVals {T}. Arguments SetupModelImage {T} N.
Arguments convolve_total {T} N. Arguments AddOversampledPsfInfo {T} N.
Arguments mkState {T}. Arguments st_vec {T}. Arguments st_interp {T}. Arguments st_scale {T}. Arguments initial {T} N.
Arguments Setup {T}. Arguments fobj_of {T} N. Arguments fobjs {T} N. Arguments pix_x {T} N. Arguments pix_y {T} N.
Arguments point_state {T} {A}. Arguments regions_step {T} N. Arguments CreateModelImage {T} N.
Arguments GetModelImageVector {T}. Arguments regions_step1 {T} N. Arguments GetSingleFunctionImage {T} N.
