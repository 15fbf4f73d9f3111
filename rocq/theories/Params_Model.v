(** Model of the parameter-vector handling: core/paramvector_processing.cpp,
    core/param_holder.cpp and the matching loops of core/model_object.cpp.
    Definitions only. Counts and offsets are natural numbers. *)
From Coq Require Import List String.
From Verif Require Export Base Num.
Local Open Scope list_scope.

(** core/definitions_multimage.h:19 *)
Definition N_IMAGE_PARAMS := 5.

(** core/model_object.cpp:387-415: the flag array; [fsetStartFlags[0] = true] on an
    empty allocation is out of range *)
Definition DefineFunctionSets (nFunctions : nat) (functionStartIndices : list nat) : res (list bool) :=
  do f0 <- set (repeat false nFunctions) 0 true;
  for_ (List.length functionStartIndices) (fun i f =>
    do nn <- get functionStartIndices i;
    set f nn true) f0.
(** core/model_object.cpp:279-289, 414: number of parameters *)
Definition nParamsTot (paramSizes : list nat) (functionStartIndices : list nat) : nat :=
  fold_left Nat.add paramSizes 0 + 2 * List.length functionStartIndices.

Section P.
Variable T : Type.
Variable N : Num T.

(** core/model_object.cpp:1128-1138 (same loop at 1263-1275 and 2431-2443): the
    arguments (offset, x0, y0) of each function's Setup(); x0, y0 are uninitialised
    until the first block start *)
Definition setup_calls (params : list T) (paramSizes : list nat) (fsetStartFlags : list bool)
    : res (list (nat * T * T)) :=
  do out <- for_ (List.length paramSizes) (fun n '(offset, xy, calls) =>
      do flag <- get fsetStartFlags n;
      do sz <- get paramSizes n;
      do st <- (if (flag : bool) then
                  do x0 <- get params offset;
                  do y0 <- get params (offset + 1);
                  Ok (offset + 2, Some (x0, y0))
                else Ok (offset, xy));
      let '(offset, xy) := st in
      match xy with
      | Some (x0, y0) => Ok (offset + sz, xy, calls ++ [(offset, x0, y0)])
      | None => Undef
      end) (0, None, []);
  Ok (snd out).

(** what a function's Setup(params, offset, x0, y0) can read: its own parameters *)
Definition own (params : list T) (offset sz : nat) : res (list T) :=
  if offset + sz <=? List.length params then Ok (firstn sz (skipn offset params)) else Undef.

(** core/model_object.cpp:1982-2000 *)
Definition GetImageOffsets (paramSizes : list nat) (fsetStartFlags : list bool) (offX offY : T)
    (nonzero : bool) (params : list T) : res (list T) :=
  if nonzero then
    do out <- for_ (List.length paramSizes) (fun n '(indexOffset, ps) =>
      do flag <- get fsetStartFlags n;
      do sz <- get paramSizes n;
      if (flag : bool) then
        do p1 <- set ps indexOffset offX;
        do p2 <- set p1 (indexOffset + 1) offY;
        Ok (indexOffset + 2 + sz, p2)
      else Ok (indexOffset + sz, ps)) (0, params);
    Ok (snd out)
  else Ok params.

(** core/paramvector_processing.cpp:42-62; imageNumber >= 1 *)
Definition ExtractImageParams (params : list T) (imageNumber : nat) : res (T * T * T * T * T) :=
  let b := N_IMAGE_PARAMS * (imageNumber - 1) in
  do pixScale <- get params b;
  do rotation <- get params (b + 1);
  do intensityScale <- get params (b + 2);
  do X0 <- get params (b + 3);
  do Y0 <- get params (b + 4);
  Ok (pixScale, rotation, intensityScale, X0, Y0).

(** core/paramvector_processing.cpp:31 *)
Definition DEG2RAD : T := ndec N 17453292519943295 18.

(** core/paramvector_processing.cpp:80-104 *)
Definition CalculateOffset_X0Y0 (X0_0_ref Y0_0_ref X0_n_ref Y0_n_ref X0_0_im Y0_0_im pixScale_im rotation_im : T)
    : T * T * Z :=
  if nleb N pixScale_im (nofZ N 0) then (nofZ N 0, nofZ N 0, (-1)%Z)
  else
    let rotation_rad := nmul N DEG2RAD rotation_im in
    let cosTheta := ncos N rotation_rad in
    let sinTheta := nsin N rotation_rad in
    let deltaX_n_ref := nsub N X0_n_ref X0_0_ref in
    let deltaY_n_ref := nsub N Y0_n_ref Y0_0_ref in
    let deltaX_n_im := nadd N (nmul N deltaX_n_ref cosTheta) (nmul N deltaY_n_ref sinTheta) in
    let deltaY_n_im := nadd N (nmul N (nneg N deltaX_n_ref) sinTheta) (nmul N deltaY_n_ref cosTheta) in
    (nadd N X0_0_im (nmul N pixScale_im deltaX_n_im), nadd N Y0_0_im (nmul N pixScale_im deltaY_n_im), 0%Z).

(** the block-centre part shared by core/paramvector_processing.cpp:127-156 and
    core/param_holder.cpp:229-258; [base] is the index of the first model parameter *)
Definition assemble_centres (ext : list T) (base imageNumber : nat) (paramSizes : list nat)
    (fsetStartFlags : list bool) (nFunctionSets : nat) (out : list T) : res (list T) :=
  do ip <- ExtractImageParams ext imageNumber;
  let '(pixScale_im, rot_im, _, X0_0_im, Y0_0_im) := ip in
  do out <- set out 0 X0_0_im;
  do out <- set out 1 Y0_0_im;
  if 1 <? nFunctionSets then
    do X0_0_ref <- get ext base;
    do Y0_0_ref <- get ext (base + 1);
    do sz0 <- get paramSizes 0;
    do r <- for_from 1 (List.length paramSizes - 1) (fun n '(offset, out) =>
      do flag <- get fsetStartFlags n;
      do sz <- get paramSizes n;
      if (flag : bool) then
        do X0_n_ref <- get ext (base + offset);
        do Y0_n_ref <- get ext (base + offset + 1);
        let '(X, Y, _) := CalculateOffset_X0Y0 X0_0_ref Y0_0_ref X0_n_ref Y0_n_ref X0_0_im Y0_0_im pixScale_im rot_im in
        do out <- set out offset X;
        do out <- set out (offset + 1) Y;
        Ok (offset + 2 + sz, out)
      else Ok (offset + sz, out)) (sz0 + 2, out);
    Ok (snd r)
  else Ok out.

(** for (i < n) out[o + i] = ext[b + i] *)
Definition copy_params (ext : list T) (b o n : nat) (out : list T) : res (list T) :=
  for_ n (fun i out => do v <- get ext (b + i); set out (o + i) v) out.

(** core/paramvector_processing.cpp:109-159 *)
Definition AssembleParamsForImage (ext : list T) (nInputParamsTot nImagesTot imageNumber : nat)
    (paramSizes : list nat) (fblockStartFlags : list bool) (nFuncBlocks : nat) (out : list T) : res (list T) :=
  let nImageParams := N_IMAGE_PARAMS * (nImagesTot - 1) in
  let nModelParams := nInputParamsTot - nImageParams in
  do out <- copy_params ext nImageParams 0 nModelParams out;
  if 0 <? imageNumber then
    assemble_centres ext nImageParams imageNumber paramSizes fblockStartFlags nFuncBlocks out
  else Ok out.

(** ParamHolder::AssembleParametersForImage, core/param_holder.cpp:215-272;
    [localCounts] are the numbers of per-image-function parameters (non-negative) *)
Definition AssembleParametersForImage (ext : list T) (nParamsTot nImages imageNumber : nat)
    (paramSizes : list nat) (fsetStartFlags : list bool) (nFunctionSets : nat)
    (localCounts : list nat) (out : list T) : res (list T) :=
  let nImageParameters := N_IMAGE_PARAMS * (nImages - 1) in
  let nLocalParams := fold_left Nat.add localCounts 0 in
  let nModelParameters := nParamsTot - nImageParameters - nLocalParams in
  do out <- copy_params ext nImageParameters 0 nModelParameters out;
  do out <- (if 0 <? imageNumber then
      assemble_centres ext nImageParameters imageNumber paramSizes fsetStartFlags nFunctionSets out
    else Ok out);
  do nLocal <- get localCounts imageNumber;
  let start := nImageParameters + nModelParameters + fold_left Nat.add (firstn imageNumber localCounts) 0 in
  copy_params ext start nModelParameters nLocal out.

(** ParamHolder::AddNewParameterVector and GetParamsForModelObject
    (core/param_holder.cpp:148-200, buffers of 134-141): the vector image [k] receives,
    from the buffer left by the previous call *)
Definition ParamsForImage (ext : list T) (nParamsTot nImages k : nat) (paramSizes : list nat)
    (fsetStartFlags : list bool) (nFunctionSets : nat) (localCounts : list nat) (prev : list T) : res (list T) :=
  AssembleParametersForImage ext nParamsTot nImages k paramSizes fsetStartFlags nFunctionSets localCounts prev.
(** the (pixel scale, rotation, intensity scale) given to image [k], core/param_holder.cpp:155-172, 183-188 *)
Definition DescrForImage (ext : list T) (k : nat) : res (T * T * T) :=
  match k with
  | O => Ok (nofZ N 1, nofZ N 0, nofZ N 1)
  | S _ => do ip <- ExtractImageParams ext k; let '(p, r, i, _, _) := ip in Ok (p, r, i)
  end.
End P.
Arguments setup_calls {T}. Arguments own {T}. Arguments GetImageOffsets {T}.
Arguments ExtractImageParams {T}. Arguments CalculateOffset_X0Y0 {T} N.
Arguments assemble_centres {T} N. Arguments copy_params {T}.
Arguments AssembleParamsForImage {T} N. Arguments AssembleParametersForImage {T} N.
Arguments ParamsForImage {T} N. Arguments DescrForImage {T} N. Arguments DEG2RAD {T} N.

(** core/model_object.cpp:2169-2181: the parameter labels; [names] are the labels each
    function reports *)
Definition PopulateParameterNames (names : list (list string)) (fsetStartFlags : list bool) : res (list string) :=
  do r <- for_ (List.length names) (fun n labels =>
    do flag <- get fsetStartFlags n;
    do nm <- get names n;
    Ok ((if (flag : bool) then labels ++ ["X0"; "Y0"]%string else labels) ++ nm)) [];
  Ok r.
