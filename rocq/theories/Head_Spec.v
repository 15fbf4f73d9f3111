(** The parameters and units of the image functions, as documented, and the lines
    that describe a model together with the limits of its parameters; both stated
    without reference to the code. *)
From Coq Require Import Ascii String List ZArith.
From Verif Require Import StrUtil_Spec Num Config_Spec Params_Spec Config_Model Save_Spec.
From Verif Require Import Build_Model. (* only [in_order], by which std::map is traversed *)
  (* of Config_Model only the record of limits *)
Import ListNotations.
Local Open Scope list_scope.

(** ---- the functions of the documentation: name, parameters, units ---- *)
Local Open Scope string_scope.
Definition documented : list (string * list (string * string)) :=
[ ("BrokenExponential", [("PA", "deg (CCW from +y axis)"); ("ell", ""); ("I_0", "counts/pixel"); ("h1", "pixels"); ("h2", "pixels"); ("r_break", "pixels"); ("alpha", "1/pixels")]);
  ("BrokenExponential2D", [("PA", "deg (CCW from +y axis)"); ("I_0", "counts/pixel"); ("h1", "pixels"); ("h2", "pixels"); ("r_break", "pixels"); ("alpha", "1/pixels"); ("h_z", "pixels")]);
  ("BrokenExponentialDisk3D", [("PA", "deg (CCW from +y axis)"); ("inc", "deg"); ("J_0", "counts/voxel"); ("h1", "pixels"); ("h2", "pixels"); ("r_break", "pixels"); ("alpha", "1/pixels"); ("n", ""); ("z_0", "pixels")]);
  ("Core-Sersic", [("PA", "deg (CCW from +y axis)"); ("ell", ""); ("n", ""); ("I_b", "counts/pixel"); ("r_e", "pixels"); ("r_b", "pixels"); ("alpha", ""); ("gamma", "")]);
  ("DattathriPeanut3D", [("PA_lon", "deg (CCW from +y axis)"); ("inc", "deg"); ("barPA", "deg"); ("J0_bar", "counts/voxel"); ("R_bar_x", "pixels"); ("q", ""); ("q_z", ""); ("R_peanut", "pixels"); ("A_peanut", "pixels"); ("sigma_peanut", "pixels"); ("c_bar_par", ""); ("c_bar_perp", "")]);
  ("EdgeOnDisk", [("PA", "deg (CCW from +y axis)"); ("L_0", "counts/voxel"); ("h", "pixels"); ("n", ""); ("z_0", "pixels")]);
  ("EdgeOnRing", [("PA", "deg (CCW from +y axis)"); ("I_0", "counts/pixel"); ("r", "pixels"); ("sigma_r", "pixels"); ("sigma_z", "pixels")]);
  ("EdgeOnRing2Side", [("PA", "deg (CCW from +y axis)"); ("I_0", "counts/pixel"); ("r", "pixels"); ("sigma_r_in", "pixels"); ("sigma_r_out", "pixels"); ("sigma_z", "pixels")]);
  ("Exponential", [("PA", "deg (CCW from +y axis)"); ("ell", ""); ("I_0", "counts/pixel"); ("h", "pixels")]);
  ("Exponential_GenEllipse", [("PA", "deg (CCW from +y axis)"); ("ell", ""); ("c0", ""); ("I_0", "counts/pixel"); ("h", "pixels")]);
  ("ExponentialDisk3D", [("PA", "deg (CCW from +y axis)"); ("inc", "deg"); ("J_0", "counts/voxel"); ("h", "pixels"); ("n", ""); ("z_0", "pixels")]);
  ("FerrersBar2D", [("PA", "deg (CCW from +y axis)"); ("ell", ""); ("c0", ""); ("n", ""); ("I_0", "counts/pixel"); ("a_bar", "pixels")]);
  ("FerrersBar3D", [("PA", "deg (CCW from +y axis)"); ("inc", "deg"); ("barPA", "deg"); ("J_0", "counts/voxel"); ("R_bar", "pixels"); ("q", ""); ("q_z", ""); ("n", "")]);
  ("FlatBar", [("PA", "deg (CCW from +y axis)"); ("ell", ""); ("deltaPA_max", "deg"); ("I_0", "counts/pixel"); ("h1", "pixels"); ("h2", "pixels"); ("r_break", "pixels"); ("alpha", "1/pixels")]);
  ("FlatSky", [("I_sky", "counts/pixel")]);
  ("Gaussian", [("PA", "deg (CCW from +y axis)"); ("ell", ""); ("I_0", "counts/pixel"); ("sigma", "pixels")]);
  ("GaussianRing", [("PA", "deg (CCW from +y axis)"); ("ell", ""); ("A", "counts/pixel"); ("R_ring", "pixels"); ("sigma_r", "pixels")]);
  ("GaussianRing2Side", [("PA", "deg (CCW from +y axis)"); ("ell", ""); ("A", "counts/pixel"); ("R_ring", "pixels"); ("sigma_r_in", "pixels"); ("sigma_r_out", "pixels")]);
  ("GaussianRing3D", [("PA", "deg (CCW from +y axis)"); ("inc", "deg"); ("PA_ring", "deg"); ("ell", ""); ("J_0", "counts/voxel"); ("a_ring", "pixels"); ("sigma", "pixels"); ("h_z", "pixels")]);
  ("GaussianRingAz", [("PA", "deg (CCW from +y axis)"); ("ell", ""); ("A_maj", "counts/pixel"); ("A_min_rel", ""); ("R_ring", "pixels"); ("sigma_r", "pixels")]);
  ("ModifiedKing", [("PA", "deg (CCW from +y axis)"); ("ell", ""); ("I_0", "counts/pixel"); ("r_c", "pixels"); ("r_t", "pixels"); ("alpha", "")]);
  ("ModifiedKing2", [("PA", "deg (CCW from +y axis)"); ("ell", ""); ("I_0", "counts/pixel"); ("r_c", "pixels"); ("c", ""); ("alpha", "")]);
  ("Moffat", [("PA", "deg (CCW from +y axis)"); ("ell", ""); ("I_0", "counts/pixel"); ("fwhm", "pixels"); ("beta", "")]);
  ("PointSource", [("I_tot", "counts")]);
  ("PointSourceRot", [("PA", "deg (CCW from +y axis)"); ("I_tot", "counts")]);
  ("Sersic", [("PA", "deg (CCW from +y axis)"); ("ell", ""); ("n", ""); ("I_e", "counts/pixel"); ("r_e", "pixels")]);
  ("Sersic_GenEllipse", [("PA", "deg (CCW from +y axis)"); ("ell", ""); ("c0", ""); ("n", ""); ("I_e", "counts/pixel"); ("r_e", "pixels")]);
  ("TiltedSkyPlane", [("I_0", "counts/pixel"); ("m_x", ""); ("m_y", "")]) ].
Local Open Scope list_scope.

(** ---- the parameters of a model ---- *)
Definition txt (s : string) : text := list_ascii_of_string s.
(** parameters and units of a function *)
Definition doc_of {T} (f : sfunc T) : list (string * string) :=
  flat_map (fun d => if list_eq_dec ascii_dec (s_name f) (txt (fst d)) then snd d else []) documented.
(** the names of the parameters of a model *)
Definition doc_param_names {T} (bs : list (sblock T)) : list text :=
  flat_map (fun b => txt "X0" :: txt "Y0" ::
     flat_map (fun f => map (fun x => txt (fst x)) (doc_of f)) (s_funcs b)) bs.

(** ---- the header of a Markov-chain output file ---- *)
Section Header.
  Variable T : Type.
  Variable add : T -> T -> T.
  Variable f4 g : T -> text.                 (* "%.4f", "%g" *)
  Variable offX offY : T.
  Variable pre : text.                       (* what every line begins with *)

  Definition tabs : text := [ch 9; ch 9].
  (** a text, right-justified in seven columns *)
  Definition in7 (s : text) : text := repeat (ch 32) (7 - length s) ++ s.
  (** the limits of a parameter *)
  Definition limits_text (p : mp_par T) : text :=
    if p_fixed p then txt "fixed" else g (p_lo p) ++ txt "," ++ g (p_hi p).
  Definition line (s : text) : text := pre ++ s ++ [ch 10].

  Definition centre_row (name : string) (v : T) (p : mp_par T) : text :=
    line (txt name ++ tabs ++ f4 v ++ tabs ++ limits_text p).
  Definition unit_text (u : string) : text := match u with EmptyString => [] | _ => tabs ++ txt "# " ++ txt u end.
  Definition param_row (d : (string * string) * (T * mp_par T)) : text :=
    let '((name, u), (v, p)) := d in
    line (txt name ++ tabs ++ in7 (g v) ++ tabs ++ limits_text p ++ unit_text u).

  Definition label_text (l : text) : text := match l with [] => [] | _ => txt "   # LABEL " ++ l end.
  Definition option_rows (f : sfunc T) : list text :=
    match kept f with
    | [] => []
    | m => [line (txt "OPTIONAL_PARAMS_START")] ++
           map (fun kv => line (fst kv ++ txt "   " ++ snd kv)) (in_order m) ++
           [line (txt "OPTIONAL_PARAMS_END")]
    end.
  (** the lines of a function whose parameters have the limits at the front of [ps] *)
  Definition function_rows (f : sfunc T) (ps : list (mp_par T)) : list text :=
    line (txt "FUNCTION " ++ s_name f ++ label_text (s_label f)) :: option_rows f ++
    map param_row (combine (doc_of f) (combine (s_vals f) ps)).
  Fixpoint functions_rows (fs : list (sfunc T)) (ps : list (mp_par T)) : list text :=
    match fs with
    | [] => []
    | f :: t => function_rows f ps ++ functions_rows t (skipn (length (s_vals f)) ps)
    end.
  (** the lines of a model whose parameters have the limits [ps] *)
  Fixpoint header_rows (bs : list (sblock T)) (ps : list (mp_par T)) : list text :=
    match bs, ps with
    | b :: t, px :: py :: ps =>
        [line []; centre_row "X0" (add (s_x b) offX) px; centre_row "Y0" (add (s_y b) offY) py] ++
        functions_rows (s_funcs b) ps ++
        header_rows t (skipn (length (flat_map s_vals (s_funcs b))) ps)
    | _, _ => []
    end.
End Header.
Arguments header_rows {T}. Arguments limits_text {T}. Arguments centre_row {T}. Arguments param_row {T}.
Arguments option_rows {T}. Arguments function_rows {T}. Arguments functions_rows {T}.
