(** Model of core/add_functions.cpp (building a model from the names, labels and
    optional parameters found in a configuration file) and of the parts of
    core/model_object.cpp and function_objects/ it calls. Definitions only.

    The classes are those of the default build: USE_EXTRA_FUNCS and USE_TEST_FUNCS
    are not defined. What a function computes is not part of this model. *)
From Coq Require Import ZArith List Bool.
From Verif Require Export Base StrUtil_Model Config_Model Params_Model.
Local Open Scope string_scope.
Local Open Scope list_scope.

Inductive ckind := KPlain | KPoint | KPointRot.
(** An image-function class: its name, parameter names and units
    (PARAM_LABELS, PARAM_UNITS and className of each func_*.cpp). All classes of
    the default build have units. *)
Record class := mkClass { c_name : str; c_kind : ckind; c_params : list str; c_units : list str }.

(** PopulateFactoryMap, core/add_functions.cpp:163-255, with the constants of each
    class's source file *)
Definition classes : list class :=
  [
   (* func_exp.cpp:57-64 *)
   mkClass (lit "Exponential") KPlain
     (map lit ["PA"; "ell"; "I_0"; "h"])
     (map lit ["deg (CCW from +y axis)"; ""; "counts/pixel"; "pixels"]);
   (* func_sersic.cpp:61-68 *)
   mkClass (lit "Sersic") KPlain
     (map lit ["PA"; "ell"; "n"; "I_e"; "r_e"])
     (map lit ["deg (CCW from +y axis)"; ""; ""; "counts/pixel"; "pixels"]);
   (* func_gen-sersic.cpp:59-66 *)
   mkClass (lit "Sersic_GenEllipse") KPlain
     (map lit ["PA"; "ell"; "c0"; "n"; "I_e"; "r_e"])
     (map lit ["deg (CCW from +y axis)"; ""; ""; ""; "counts/pixel"; "pixels"]);
   (* func_core-sersic.cpp:58-65 *)
   mkClass (lit "Core-Sersic") KPlain
     (map lit ["PA"; "ell"; "n"; "I_b"; "r_e"; "r_b"; "alpha"; "gamma"])
     (map lit ["deg (CCW from +y axis)"; ""; ""; "counts/pixel"; "pixels"; "pixels"; ""; ""]);
   (* func_gen-exp.cpp:57-63 *)
   mkClass (lit "Exponential_GenEllipse") KPlain
     (map lit ["PA"; "ell"; "c0"; "I_0"; "h"])
     (map lit ["deg (CCW from +y axis)"; ""; ""; "counts/pixel"; "pixels"]);
   (* func_broken-exp.cpp:54-61 *)
   mkClass (lit "BrokenExponential") KPlain
     (map lit ["PA"; "ell"; "I_0"; "h1"; "h2"; "r_break"; "alpha"])
     (map lit ["deg (CCW from +y axis)"; ""; "counts/pixel"; "pixels"; "pixels"; "pixels"; "1/pixels"]);
   (* func_broken-exp2d.cpp:59-66 *)
   mkClass (lit "BrokenExponential2D") KPlain
     (map lit ["PA"; "I_0"; "h1"; "h2"; "r_break"; "alpha"; "h_z"])
     (map lit ["deg (CCW from +y axis)"; "counts/pixel"; "pixels"; "pixels"; "pixels"; "1/pixels"; "pixels"]);
   (* func_edge-on-ring.cpp:58-65 *)
   mkClass (lit "EdgeOnRing") KPlain
     (map lit ["PA"; "I_0"; "r"; "sigma_r"; "sigma_z"])
     (map lit ["deg (CCW from +y axis)"; "counts/pixel"; "pixels"; "pixels"; "pixels"]);
   (* func_edge-on-ring2side.cpp:56-63 *)
   mkClass (lit "EdgeOnRing2Side") KPlain
     (map lit ["PA"; "I_0"; "r"; "sigma_r_in"; "sigma_r_out"; "sigma_z"])
     (map lit ["deg (CCW from +y axis)"; "counts/pixel"; "pixels"; "pixels"; "pixels"; "pixels"]);
   (* func_flatbar.cpp:56-64 *)
   mkClass (lit "FlatBar") KPlain
     (map lit ["PA"; "ell"; "deltaPA_max"; "I_0"; "h1"; "h2"; "r_break"; "alpha"])
     (map lit ["deg (CCW from +y axis)"; ""; "deg"; "counts/pixel"; "pixels"; "pixels"; "pixels"; "1/pixels"]);
   (* func_gaussian-ring.cpp:55-62 *)
   mkClass (lit "GaussianRing") KPlain
     (map lit ["PA"; "ell"; "A"; "R_ring"; "sigma_r"])
     (map lit ["deg (CCW from +y axis)"; ""; "counts/pixel"; "pixels"; "pixels"]);
   (* func_gaussian-ring2side.cpp:56-63 *)
   mkClass (lit "GaussianRing2Side") KPlain
     (map lit ["PA"; "ell"; "A"; "R_ring"; "sigma_r_in"; "sigma_r_out"])
     (map lit ["deg (CCW from +y axis)"; ""; "counts/pixel"; "pixels"; "pixels"; "pixels"]);
   (* func_gaussian-ring-az.cpp:55-62 *)
   mkClass (lit "GaussianRingAz") KPlain
     (map lit ["PA"; "ell"; "A_maj"; "A_min_rel"; "R_ring"; "sigma_r"])
     (map lit ["deg (CCW from +y axis)"; ""; "counts/pixel"; ""; "pixels"; "pixels"]);
   (* func_gaussian.cpp:57-64 *)
   mkClass (lit "Gaussian") KPlain
     (map lit ["PA"; "ell"; "I_0"; "sigma"])
     (map lit ["deg (CCW from +y axis)"; ""; "counts/pixel"; "pixels"]);
   (* func_moffat.cpp:64-71 *)
   mkClass (lit "Moffat") KPlain
     (map lit ["PA"; "ell"; "I_0"; "fwhm"; "beta"])
     (map lit ["deg (CCW from +y axis)"; ""; "counts/pixel"; "pixels"; ""]);
   (* func_king.cpp:54-62 *)
   mkClass (lit "ModifiedKing") KPlain
     (map lit ["PA"; "ell"; "I_0"; "r_c"; "r_t"; "alpha"])
     (map lit ["deg (CCW from +y axis)"; ""; "counts/pixel"; "pixels"; "pixels"; ""]);
   (* func_king2.cpp:58-66 *)
   mkClass (lit "ModifiedKing2") KPlain
     (map lit ["PA"; "ell"; "I_0"; "r_c"; "c"; "alpha"])
     (map lit ["deg (CCW from +y axis)"; ""; "counts/pixel"; "pixels"; ""; ""]);
   (* func_ferrersbar2d.cpp:60-67 *)
   mkClass (lit "FerrersBar2D") KPlain
     (map lit ["PA"; "ell"; "c0"; "n"; "I_0"; "a_bar"])
     (map lit ["deg (CCW from +y axis)"; ""; ""; ""; "counts/pixel"; "pixels"]);
   (* func_flatsky.cpp:42-46 *)
   mkClass (lit "FlatSky") KPlain
     (map lit ["I_sky"])
     (map lit ["counts/pixel"]);
   (* func_tilted-sky-plane.cpp:41-45 *)
   mkClass (lit "TiltedSkyPlane") KPlain
     (map lit ["I_0"; "m_x"; "m_y"])
     (map lit ["counts/pixel"; ""; ""]);
   (* func_peanut_dattathri.cpp:56-65 *)
   mkClass (lit "DattathriPeanut3D") KPlain
     (map lit ["PA_lon"; "inc"; "barPA"; "J0_bar"; "R_bar_x"; "q"; "q_z"; "R_peanut"; "A_peanut"; "sigma_peanut"; "c_bar_par"; "c_bar_perp"])
     (map lit ["deg (CCW from +y axis)"; "deg"; "deg"; "counts/voxel"; "pixels"; ""; ""; "pixels"; "pixels"; "pixels"; ""; ""]);
   (* func_edge-on-disk.cpp:87-96 *)
   mkClass (lit "EdgeOnDisk") KPlain
     (map lit ["PA"; "L_0"; "h"; "n"; "z_0"])
     (map lit ["deg (CCW from +y axis)"; "counts/voxel"; "pixels"; ""; "pixels"]);
   (* func_expdisk3d.cpp:86-97 *)
   mkClass (lit "ExponentialDisk3D") KPlain
     (map lit ["PA"; "inc"; "J_0"; "h"; "n"; "z_0"])
     (map lit ["deg (CCW from +y axis)"; "deg"; "counts/voxel"; "pixels"; ""; "pixels"]);
   (* func_brokenexpdisk3d.cpp:62-74 *)
   mkClass (lit "BrokenExponentialDisk3D") KPlain
     (map lit ["PA"; "inc"; "J_0"; "h1"; "h2"; "r_break"; "alpha"; "n"; "z_0"])
     (map lit ["deg (CCW from +y axis)"; "deg"; "counts/voxel"; "pixels"; "pixels"; "pixels"; "1/pixels"; ""; "pixels"]);
   (* func_gaussianring3d.cpp:65-74 *)
   mkClass (lit "GaussianRing3D") KPlain
     (map lit ["PA"; "inc"; "PA_ring"; "ell"; "J_0"; "a_ring"; "sigma"; "h_z"])
     (map lit ["deg (CCW from +y axis)"; "deg"; "deg"; ""; "counts/voxel"; "pixels"; "pixels"; "pixels"]);
   (* func_ferrersbar3d.cpp:61-71 *)
   mkClass (lit "FerrersBar3D") KPlain
     (map lit ["PA"; "inc"; "barPA"; "J_0"; "R_bar"; "q"; "q_z"; "n"])
     (map lit ["deg (CCW from +y axis)"; "deg"; "deg"; "counts/voxel"; "pixels"; ""; ""; ""]);
   (* func_pointsource.cpp:57-62 *)
   mkClass (lit "PointSource") KPoint
     (map lit ["I_tot"])
     (map lit ["counts"]);
   (* func_pointsource-rot.cpp:57-63 *)
   mkClass (lit "PointSourceRot") KPointRot
     (map lit ["PA"; "I_tot"])
     (map lit ["deg (CCW from +y axis)"; "counts"])
  ].

(** A FunctionObject, with the fields that building and printing use:
    [fo_extra] is [None] while extraParamsSet is false, otherwise
    inputExtraParams; [fo_method] is interpolationType; [fo_interp] is the type of
    the PSF interpolator it has been handed ([None]: a null pointer). *)
Record fobj := mkFobj {
  fo_class : class; fo_label : str; fo_extra : option smap; fo_method : str; fo_interp : option Z }.

(** the constructor, e.g. func_pointsource.cpp:67-84, func_pointsource.h:53, and
    function_object.cpp:61-72; then SetLabel *)
Definition new_object (c : class) (label : str) : fobj := mkFobj c label None (lit "bicubic") None.

(** the order of the keys of a std::map<string,string>: lexicographic on unsigned
    characters *)
Fixpoint str_ltb (a b : str) : bool :=
  match a, b with
  | _, [] => false
  | [], _ :: _ => true
  | x :: a', y :: b' =>
      if (nat_of_ascii x <? nat_of_ascii y)%nat then true
      else if (nat_of_ascii y <? nat_of_ascii x)%nat then false else str_ltb a' b'
  end.
Fixpoint insert_kv (kv : str * str) (m : smap) : smap :=
  match m with
  | [] => [kv]
  | kv' :: t => if str_ltb (fst kv) (fst kv') then kv :: m else kv' :: insert_kv kv t
  end.
(** the entries of a map in the order of iteration *)
Definition in_order (m : smap) : smap := fold_right insert_kv [] m.

(** SetExtraParams: function_object.h:37 (other classes), func_pointsource.cpp:150-190,
    func_pointsource-rot.cpp:151-187. Every branch of the loop leaves it at the
    first entry. Only PointSource keeps the map. *)
Definition SetExtraParams (f : fobj) (inputMap : smap) : Z * fobj :=
  match c_kind (fo_class f) with
  | KPlain => ((-1)%Z, f)
  | KPoint =>
      match in_order inputMap with
      | [] => ((-1)%Z, f)
      | (key, v) :: _ =>
          if str_eqb key (lit "method") then
            let set_method m := (1%Z, mkFobj (fo_class f) (fo_label f) (Some inputMap) (lit m) (fo_interp f)) in
            if str_eqb v (lit "bicubic") || str_eqb v (lit "Bicubic") then set_method "bicubic"
            else if str_eqb v (lit "lanczos2") || str_eqb v (lit "Lanczos2") then set_method "lanczos2"
            else if str_eqb v (lit "lanczos3") || str_eqb v (lit "Lanczos3") then set_method "lanczos3"
            else ((-3)%Z, f)
          else (0%Z, f)
      end
  | KPointRot =>
      match in_order inputMap with
      | [] => ((-1)%Z, f)
      | (key, v) :: _ =>
          if str_eqb key (lit "method") then
            if str_eqb v (lit "bicubic") || str_eqb v (lit "Bicubic") ||
               str_eqb v (lit "lanczos2") || str_eqb v (lit "Lanczos2")
            then (1%Z, mkFobj (fo_class f) (fo_label f) (Some []) v (fo_interp f))
            else ((-3)%Z, f)
          else (0%Z, f)
      end
  end.

(** interpolationMap, core/model_object.cpp:94-96, and psf_interpolators.h:7-10;
    operator[] of a missing key gives 0 *)
Definition interpolationMap (m : str) : Z :=
  if str_eqb m (lit "bicubic") then 1%Z
  else if str_eqb m (lit "lanczos2") then 2%Z
  else if str_eqb m (lit "lanczos3") then 3%Z else 0%Z.

(** SetupPsfInterpolation, core/model_object.cpp:346-381: status and the interpolator
    allocated, if any. [psf]: size of the PSF image supplied before, if any. *)
Definition SetupPsfInterpolation (psf : option (Z * Z)) (interpolationType : Z) : Z * option Z :=
  match psf with
  | None => ((-1)%Z, None)
  | Some (nPSFColumns, nPSFRows) =>
      if (nPSFColumns <? 4)%Z || (nPSFRows <? 4)%Z then ((-2)%Z, None)
      else if (interpolationType =? 1)%Z || (interpolationType =? 2)%Z || (interpolationType =? 3)%Z
      then (0%Z, Some interpolationType)
      else (0%Z, None)
  end.

(** The function list of a ModelObject and its psfInterpolator ([None]: not allocated). *)
Record fmodel := mkFmodel { fm_funcs : list fobj; fm_interp : option Z }.

Definition is_point (f : fobj) : bool := match c_kind (fo_class f) with KPlain => false | _ => true end.
Definition hand (f : fobj) (i : option Z) : fobj :=
  mkFobj (fo_class f) (fo_label f) (fo_extra f) (fo_method f) i.

(** ModelObject::AddFunction, core/model_object.cpp:279-308 *)
Definition AddFunction (psf : option (Z * Z)) (m : fmodel) (f : fobj) : Z * fmodel :=
  if is_point f then
    match fm_interp m with
    | Some i => (0%Z, mkFmodel (fm_funcs m ++ [hand f (Some i)]) (Some i))
    | None =>
        let (result, i) := SetupPsfInterpolation psf (interpolationMap (fo_method f)) in
        if (result <? 0)%Z then ((-1)%Z, mkFmodel (fm_funcs m ++ [f]) None)
        else (0%Z, mkFmodel (fm_funcs m ++ [hand f i]) i)
    end
  else (0%Z, mkFmodel (fm_funcs m ++ [f]) (fm_interp m)).

(** factory_map.count and factory_map[] *)
Fixpoint find_class (l : list class) (name : str) : option class :=
  match l with
  | [] => None
  | c :: t => if str_eqb name (c_name c) then Some c else find_class t name
  end.

(** GetParameterNames, function_object.cpp:196-200 *)
Definition GetParameterNames (f : fobj) : list str := c_params (fo_class f).

(** PopulateParameterNames, core/model_object.cpp:2169-2181 *)
Definition PopulateParameterNames (funcs : list fobj) (fsetStartFlags : list bool) : res (list str) :=
  for_ (List.length funcs) (fun n labels =>
    do f <- get funcs n;
    do flag <- get fsetStartFlags n;
    let labels := if (flag : bool) then labels ++ [lit "X0"; lit "Y0"] else labels in
    Ok (labels ++ GetParameterNames f)) [].

(** a model after AddFunctions *)
Record built := mkBuilt {
  b_funcs : list fobj; b_flags : list bool; b_labels : list str; b_nParamsTot : nat }.

(** the loop of AddFunctions, core/add_functions.cpp:409-452: [inl s] = left with status [s] *)
Definition add_one (psf : option (Z * Z)) (names labels : list str) (extraParams : list smap)
    (i : nat) (m : fmodel) : res (Z + fmodel) :=
  do currentName <- get names i;
  match find_class classes currentName with
  | None => Ok (inl (-1)%Z)
  | Some c =>
      do lab <- get labels i;
      let f := new_object c lab in
      do r <- (match extraParams with
               | [] => Ok (0%Z, f)
               | _ :: _ =>
                   do mp <- get extraParams i;
                   match mp with
                   | [] => Ok (0%Z, f)
                   | _ :: _ => Ok (SetExtraParams f mp)
                   end
               end);
      let (status, f) := r : Z * fobj in
      if (status <? 0)%Z then Ok (inl status)
      else
        let (status2, m') := AddFunction psf m f in
        if (status2 <? 0)%Z then Ok (inl status2) else Ok (inr m')
  end.

(** AddFunctions, core/add_functions.cpp:389-465. The subsampling flag, the global-
    function flags and the text printed are left out. *)
Definition AddFunctions (psf : option (Z * Z)) (names labels : list str) (functionSetIndices : list nat)
    (extraParams : list smap) : res (Z * option built) :=
  do r <- for_ (List.length names) (fun i st =>
            match st with
            | inl s => Ok (inl s)
            | inr m => add_one psf names labels extraParams i m
            end) (inr (mkFmodel [] None));
  match r with
  | inl s => Ok (s, None)
  | inr m =>
      do flags <- DefineFunctionSets (List.length (fm_funcs m)) functionSetIndices;
      do pl <- PopulateParameterNames (fm_funcs m) flags;
      Ok (0%Z, Some (mkBuilt (fm_funcs m) flags pl
            (nParamsTot (map (fun f => List.length (GetParameterNames f)) (fm_funcs m)) functionSetIndices)))
  end.

(** GetParameterName, core/model_object.cpp:2186-2193; UNDEFINED is "<undefined>"
    (core/model_object.cpp:75) *)
Definition GetParameterName (b : built) (i : nat) : res str :=
  if (i <? b_nParamsTot b)%nat then get (b_labels b) i else Ok (lit "<undefined>").

(** GetFunctionParameterNames, core/add_functions.cpp:533-553 *)
Definition GetFunctionParameterNames (functionName : str) (parameterNameList : list str) : Z * list str :=
  match find_class classes functionName with
  | None => ((-1)%Z, parameterNameList)
  | Some c => (0%Z, parameterNameList ++ c_params c)
  end.
