(** Properties C66 and C67, continued: the documented functions and parameters, and
    the description of the model at the head of a Markov-chain file. *)
From Coq Require Import Ascii String List ZArith Reals Lra Lia.
From Verif Require Import Base Num StrUtil_Model StrUtil_Spec Config_Spec Config_Model Config_Proof Params_Spec Build_Model Save_Model.
From Verif Require Import Save_Spec Build_Spec Build_Proof Save_Proof Save_Final Save_Printf Props_Save Head_Spec Head_Proof.
Import ListNotations.
Local Open Scope list_scope.

(** C66: the functions a configuration file can name are exactly the documented ones. *)
Theorem C66_known : forall n, Known n <-> exists d, In d documented /\ n = list_ascii_of_string (fst d).
Proof. exact known_documented. Qed.
Print Assumptions C66_known.

(** C66: the parameters of a model are, block after block, X0, Y0 and the documented
    parameters of its functions, in the documented order. *)
Theorem C66_documented :
  forall (T : Type) psf (bs : list (sblock T)) m,
  bs <> [] -> Forall (fun b => s_funcs b <> []) bs ->
  AddFunctions psf (map s_name (sall bs)) (map s_label (sall bs)) (sstarts bs) (map s_opts (sall bs)) = Ok (0%Z, Some m) ->
  b_nParamsTot m = List.length (doc_param_names bs) /\
  forall i n, nth_error (doc_param_names bs) i = Some n -> GetParameterName m i = Ok n.
Proof. exact documented_ok. Qed.
Print Assumptions C66_documented.

(** C67: the description of a model with limits, as written at the head of a
    Markov-chain file: per block a blank line and the centre, per function its name,
    label and optional parameters, and its parameters with units; every parameter with
    its value and with its own limits or the word "fixed". *)
Theorem C67_limits :
  forall (T : Type) (N : Num T) (f4 g g5 : T -> str) psf (bs : list (sblock T)) m offX offY pre info before,
  (forall v, List.length (f4 v) <= 300 /\ List.length (g v) <= 300) -> OneLine pre -> List.length pre <= 50 ->
  AddFunctions psf (map s_name (sall bs)) (map s_label (sall bs)) (sstarts bs) (map s_opts (sall bs)) = Ok (0%Z, Some m) ->
  GoodModel bs -> Forall (fun f => s_name f = PSR -> s_opts f = []) (sall bs) ->
  List.length info = List.length (sflat bs) ->
  PrintModelParamsToStrings N f4 g g5 m offX offY (sflat bs) None pre true info before =
    Ok (0%Z, before ++ header_rows (nadd N) f4 g offX offY pre bs info).
Proof. exact header_ok. Qed.
Print Assumptions C67_limits.

(** ---- a case that meets the hypotheses, and its lines ---- *)
Definition show4 (_ : R) : str := lit "1.0000".
Definition showg (_ : R) : str := lit "2.5".
Definition exInfo : list (mp_par R) :=
  [mkPar true false false 0%R 0%R] ++ repeat (mkPar false true true 1%R 2%R) 8 ++ [mkPar true false false 0%R 0%R].
Example C67_limits_example :
  (forall v, List.length (show4 v) <= 300 /\ List.length (showg v) <= 300) /\ OneLine (lit "#") /\ List.length (lit "#") <= 50 /\
  GoodModel exS /\ Forall (fun f => s_name f = PSR -> s_opts f = []) (sall exS) /\ List.length exInfo = List.length (sflat exS) /\
  (exists m, AddFunctions (Some (15, 15)%Z) (map s_name (sall exS)) (map s_label (sall exS)) (sstarts exS) (map s_opts (sall exS)) = Ok (0%Z, Some m)) /\
  header_rows Rplus show4 showg 0%R 0%R (lit "#") exS exInfo =
    map (fun s => lit s ++ [ch 10])
     ["#";
      "#X0		1.0000		fixed";
      "#Y0		1.0000		2.5,2.5";
      "#FUNCTION PointSource   # LABEL the nucleus";
      "#OPTIONAL_PARAMS_START";
      "#method   Lanczos3";
      "#OPTIONAL_PARAMS_END";
      "#I_tot		    2.5		2.5,2.5		# counts";
      "#FUNCTION Exponential";
      "#PA		    2.5		2.5,2.5		# deg (CCW from +y axis)";
      "#ell		    2.5		2.5,2.5";
      "#I_0		    2.5		2.5,2.5		# counts/pixel";
      "#h		    2.5		2.5,2.5		# pixels";
      "#";
      "#X0		1.0000		2.5,2.5";
      "#Y0		1.0000		2.5,2.5";
      "#FUNCTION FlatSky   # LABEL sky";
      "#I_sky		    2.5		fixed		# counts/pixel"]%string.
Proof.
  destruct C67_hyp_example as (_ & _ & E & G & _ & _ & _ & _ & H).
  split; [intros v; cbn; lia|]. split; [apply oneline_true; reflexivity|]. split; [cbn; lia|].
  split; [exact G|]. split; [exact H|]. split; [reflexivity|]. split; [exact E|]. vm_compute. reflexivity.
Qed.
