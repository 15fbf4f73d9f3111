(** Property C66: building a model from the functions of a configuration file. *)
From Coq Require Import Ascii String List ZArith.
From Verif Require Import Base Config_Spec Config_Model StrUtil_Model Params_Spec Build_Model Save_Spec Build_Spec Build_Proof.
Import ListNotations.
Local Open Scope list_scope.

(** C66: AddFunctions accepts a list of functions exactly when all are known, their
    optional parameters are acceptable and point sources have a PSF of at least 4x4;
    otherwise its status is negative and there is no model. An accepted model has one
    object per function, in order, of the named class and with the given label; its
    parameters are named X0, Y0 for each block followed by the names of the functions'
    parameters; and the block starts are where they were asked for. *)
Theorem C66_build :
  forall (T : Type) (psf : option (Z * Z)) (bs : list (sblock T)),
  bs <> [] -> Forall (fun b => s_funcs b <> []) bs ->
  let run := AddFunctions psf (map s_name (sall bs)) (map s_label (sall bs)) (sstarts bs) (map s_opts (sall bs)) in
  (Buildable psf (sall bs) <-> exists m, run = Ok (0%Z, Some m)) /\
  (~ Buildable psf (sall bs) <-> exists s, (s < 0)%Z /\ run = Ok (s, None)) /\
  (forall m, run = Ok (0%Z, Some m) ->
     Forall2 MadeFrom (Build_Model.b_funcs m) (sall bs) /\
     b_nParamsTot m = List.length (param_names bs) /\
     (forall i, i < List.length (param_names bs) -> exists s, nth_error (param_names bs) i = Some s /\ GetParameterName m i = Ok s) /\
     (forall n, nth_error (b_flags m) n = Some true <-> In n (sstarts bs))).
Proof. exact build_ok. Qed.
Print Assumptions C66_build.

(** C66: all point sources of a model use one interpolator, that of the method the
    first of them asks for (provided PointSourceRot spells its method in lower case). *)
Theorem C66_interpolator :
  forall (T : Type) (psf : option (Z * Z)) (bs : list (sblock T)) m f t,
  bs <> [] -> Forall (fun b => s_funcs b <> []) bs ->
  AddFunctions psf (map s_name (sall bs)) (map s_label (sall bs)) (sstarts bs) (map s_opts (sall bs)) = Ok (0%Z, Some m) ->
  Forall (fun f => s_name f = PSR -> LowerCase f) (sall bs) -> FirstPoint (sall bs) f ->
  (exists a, Asked f a /\ MethodCode a t) ->
  Forall2 (fun o f => IsPoint (s_name f) -> fo_interp o = Some t) (Build_Model.b_funcs m) (sall bs).
Proof. exact interpolator_ok. Qed.
Print Assumptions C66_interpolator.

(** a model with two point sources that ask for different methods *)
Definition exB : list (sblock unit) :=
  [mkSblock tt tt [mkSfunc (lit "PointSource") (lit "star 1") [(lit "method", lit "Lanczos2")] [tt];
                   mkSfunc (lit "FlatSky") [] [] [tt]];
   mkSblock tt tt [mkSfunc (lit "PointSource") (lit "star 2") [(lit "method", lit "lanczos3")] [tt]]].

(** Refuted: that each point source uses the method it asks for. The second one asks
    for lanczos3 and is given the first one's lanczos2 interpolator. *)
Theorem C66_own_method_refuted : exists (bs : list (sblock unit)) m o f,
  AddFunctions (Some (15, 15)%Z) (map s_name (sall bs)) (map s_label (sall bs)) (sstarts bs) (map s_opts (sall bs)) = Ok (0%Z, Some m) /\
  nth_error (Build_Model.b_funcs m) 2 = Some o /\ nth_error (sall bs) 2 = Some f /\
  Asked f (lit "lanczos3") /\ fo_interp o = Some 2%Z.
Proof.
  exists exB.
  let r := eval vm_compute in (AddFunctions (Some (15, 15)%Z) (map s_name (sall exB)) (map s_label (sall exB)) (sstarts exB) (map s_opts (sall exB))) in
  match r with Ok (_, Some ?m) => exists m end.
  eexists. eexists. split; [vm_compute; reflexivity|]. split; [reflexivity|]. split; [reflexivity|]. split; [|reflexivity].
  left. exists (lit "lanczos3"), []. split; [reflexivity|constructor].
Qed.
Print Assumptions C66_own_method_refuted.

(** Refuted: that every point source of an accepted model has an interpolator.
    PointSourceRot accepts the spelling "Bicubic", for which none is created; its
    GetValue then uses a null pointer (func_pointsource-rot.cpp:234). *)
Theorem C66_null_interpolator_refuted : exists (bs : list (sblock unit)) m o,
  AddFunctions (Some (15, 15)%Z) (map s_name (sall bs)) (map s_label (sall bs)) (sstarts bs) (map s_opts (sall bs)) = Ok (0%Z, Some m) /\
  Build_Model.b_funcs m = [o] /\ c_name (fo_class o) = PSR /\ fo_interp o = None.
Proof.
  pose (bs := [mkSblock tt tt [mkSfunc (lit "PointSourceRot") [] [(lit "method", lit "Bicubic")] [tt; tt]]]).
  exists bs.
  let r := eval vm_compute in (AddFunctions (Some (15, 15)%Z) (map s_name (sall bs)) (map s_label (sall bs)) (sstarts bs) (map s_opts (sall bs))) in
  match r with Ok (_, Some ?m) => exists m end.
  eexists. split; [vm_compute; reflexivity|]. split; [reflexivity|]. split; reflexivity.
Qed.
Print Assumptions C66_null_interpolator_refuted.

(** the hypotheses of the theorems are met by [exB] *)
Example C66_hyp_example : exB <> [] /\ Forall (fun b => s_funcs b <> []) exB /\ Buildable (Some (15, 15)%Z) (sall exB) /\
  ~ Buildable (Some (15, 3)%Z) (sall exB) /\
  Forall (fun f => s_name f = PSR -> LowerCase f) (sall exB) /\
  (exists f, FirstPoint (sall exB) f /\ exists a, Asked f a /\ MethodCode a 2) /\
  param_names exB = map lit ["X0"; "Y0"; "I_tot"; "I_sky"; "X0"; "Y0"; "I_tot"]%string /\ sstarts exB = [0; 2].
Proof.
  assert (K : forall n, match find_class classes n with Some _ => true | None => false end = true -> Known n).
  { intros n H. destruct (find_class classes n) as [c|] eqn:E; [|discriminate]. exists c. apply find_class_sound in E. exact E. }
  split; [discriminate|]. split; [repeat constructor; discriminate|]. split; [split|split; [|split; [|split; [|split]]]].
  - cbn [sall exB flat_map s_funcs app]. apply Forall_cons; [|apply Forall_cons; [|apply Forall_cons; [|constructor]]]; (split; [apply K; vm_compute; reflexivity|]).
    + right. exists (lit "method"), (lit "Lanczos2"), []. split; [reflexivity|]. left. split; [reflexivity|]. intros _. eexists. constructor.
    + left. reflexivity.
    + right. exists (lit "method"), (lit "lanczos3"), []. split; [reflexivity|]. left. split; [reflexivity|]. intros _. eexists. constructor.
  - intros _. exists 15%Z, 15%Z. repeat split; discriminate.
  - intros [_ H]. destruct H as (c & r & E & H1 & H2).
    + apply Exists_cons_hd. left. reflexivity.
    + inversion E; subst. apply H2. reflexivity.
  - cbn [sall exB flat_map s_funcs app]. repeat (apply Forall_cons; [discriminate|]). constructor.
  - eexists. split.
    + exists []. eexists. split; [reflexivity|]. split; [left; reflexivity|constructor].
    + exists (lit "lanczos2"). split; [|constructor]. left. exists (lit "Lanczos2"), []. split; [reflexivity|constructor].
  - vm_compute. reflexivity.
  - reflexivity.
Qed.
