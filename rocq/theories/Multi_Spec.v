(** What multimfit and makemultimages have to do, stated without reference to the program
    text. Of the models only records are used. *)
From Coq Require Import ZArith List Bool Ascii String Reals.
From Verif Require Import Base Num Fit_Model Config_Model Build_Model Params_Spec Save_Spec Build_Spec ImgPar_Model Finish_Model Finish_Spec Multi_Model.
Import ListNotations.
Local Open Scope string_scope.
Local Open Scope list_scope.

(** ---- the joint model ---- *)
Section Input.
  Variable T : Type.

  (** [bs]: the model of the configuration file. [locs]: for every image, the blocks of
      functions that belong to it alone; [imgs]: the descriptions of the images after the
      first, [infos]: everything known about the images. Functions have no optional
      parameters, and the number of parameters that belongs to them. *)
  Definition Plain (b : sblock T) : Prop := s_funcs b <> [] /\ Forall (fun f => s_opts f = [] /\ Sized f) (s_funcs b).
  (** a local block has a single function *)
  Definition Single (b : sblock T) : Prop := exists f, s_funcs b = [f].

  (** the image's own functions are [loc] *)
  Definition HasLocal (loc : list (sblock T)) (info : ImageInfo T) : Prop :=
    match i_perImage info with
    | None => loc = []
    | Some p =>
        pi_names p = map s_name (sall loc) /\ pi_labels p = map s_label (sall loc) /\ pi_starts p = sstarts loc /\
        pi_params p = sflat loc /\ List.length (pi_limits p) = List.length (pi_params p)
    end.
  Definition HasDescription (im : imgpar T) (info : ImageInfo T) : Prop :=
    i_pixelScale info = i_pix im /\ i_rotation info = i_rot im /\ i_intensityScale info = i_flux im /\
    i_x0 info = i_x im /\ i_y0 info = i_y im.

  Record Images (bs : list (sblock T)) (imgs : list (imgpar T)) (locs : list (list (sblock T))) (infos : list (ImageInfo T)) : Prop := mkImages {
    im_model : bs <> [] /\ Forall Plain bs;
    im_locals : Forall2 HasLocal locs infos;
    im_plain : Forall (Forall Plain) locs;
    im_single : Forall (Forall Single) locs;
    im_count : List.length infos = S (List.length imgs);
    im_descr : Forall2 HasDescription imgs (tl infos) }.

  (** the parameters, in the order in which the solver sees them: descriptions of the
      images after the first, the model, the local blocks of the images *)
  Definition joint_vector (imgs : list (imgpar T)) (bs : list (sblock T)) (locs : list (list (sblock T))) : list T :=
    img_flat imgs ++ sflat bs ++ flat_map sflat locs.

  (** the functions of the configuration file *)
  Definition shared_of (bs : list (sblock T)) : shared :=
    mkShared (map s_name (sall bs)) (map s_label (sall bs)) (sstarts bs).
  (** every image can be drawn: its functions, shared and its own, are known, and it has a
      PSF if there is a point source among them *)
  Definition Drawable (bs : list (sblock T)) (pl : option (Z * Z) * list (sblock T)) : Prop := Buildable (fst pl) (sall (bs ++ snd pl)).

  (** the same model with other centres and other parameter values *)
  Definition same_func (f f' : sfunc T) : Prop := s_name f = s_name f' /\ s_opts f = s_opts f' /\ List.length (s_vals f) = List.length (s_vals f').
  Definition same_shape (bs bs' : list (sblock T)) : Prop := Forall2 (fun b b' => Forall2 same_func (s_funcs b) (s_funcs b')) bs bs'.
End Input.
Arguments same_func {T}. Arguments same_shape {T}.
Arguments shared_of {T}. Arguments Drawable {T}.
Arguments Plain {T}. Arguments Single {T}. Arguments HasLocal {T}. Arguments HasDescription {T}. Arguments Images {T}.
Arguments joint_vector {T}. Arguments im_model {T} {bs imgs locs infos}. Arguments im_locals {T} {bs imgs locs infos}.
Arguments im_plain {T} {bs imgs locs infos}. Arguments im_single {T} {bs imgs locs infos}. Arguments im_count {T} {bs imgs locs infos}.
Arguments im_descr {T} {bs imgs locs infos}.

(** ---- what an image shows ---- *)
Local Open Scope R_scope.
(** the model as seen in the image described by [im]: centres are moved, rotated and scaled *)
Definition seen_in (im : imgpar R) (bs : list (sblock R)) : list (sblock R) :=
  match bs with
  | [] => []
  | b0 :: _ => map (fun b => let p := place (i_pix im) (rad (i_rot im)) (i_x im) (i_y im) (s_x b0) (s_y b0) (s_x b) (s_y b) in
                             mkSblock (fst p) (snd p) (s_funcs b)) bs
  end.
(** description and model of image [k]; the first image is the reference *)
Definition view (imgs : list (imgpar R)) (bs : list (sblock R)) (locs : list (list (sblock R))) (k : nat) : (R * R * R) * list (sblock R) :=
  match k with
  | O => ((1, 0, 1), bs ++ nth O locs [])
  | S k' => match nth_error imgs k' with
            | Some im => ((i_pix im, i_rot im, i_flux im), seen_in im bs ++ nth k locs [])
            | None => ((1, 0, 1), [])
            end
  end.
Local Close Scope R_scope.

(** ---- what the solver gets ---- *)
Section Shift.
  Variable T : Type.
  Variable N : Num T.

  (** by how much the origin of the fitted sections moves each parameter: the centre of an
      image after the first by that image's section, the centres of the model by the
      section of the first image. [offs]: one pair for every image. *)
  Definition shifts (bs : list (sblock T)) (offs : list (Z * Z)) : list (option Z) :=
    flat_map (fun o => [None; None; None; Some (fst o); Some (snd o)]) (tl offs) ++
    map (fun r => match r with
                  | CentreX => Some (fst (hd (0, 0)%Z offs))
                  | CentreY => Some (snd (hd (0, 0)%Z offs))
                  | Other => None
                  end) (roles bs).
  Definition less (d : option Z) (v : T) : T := match d with None => v | Some z => nsub N v (nofZ N z) end.
  (** limits that are set move along *)
  Definition less_limits (d : option Z) (p : mp_par T) : mp_par T :=
    mkPar (p_fixed p) (p_lim0 p) (p_lim1 p)
      (if p_lim0 p then less d (p_lo p) else p_lo p) (if p_lim1 p then less d (p_hi p) else p_hi p).

  (** values and limits as read from the two files *)
  Definition given_values (infos : list (ImageInfo T)) (po : pout T) : list T :=
    flat_map (fun i => [i_pixelScale i; i_rotation i; i_intensityScale i; i_x0 i; i_y0 i]) (tl infos) ++ o_params po.
  Definition given_limits (infos : list (ImageInfo T)) (po : pout T) : list (mp_par T) :=
    flat_map (fun i => [i_pixelScaleLim i; i_rotationLim i; i_intensityScaleLim i; i_x0Lim i; i_y0Lim i]) (tl infos) ++ o_limits po.

  Record JointHanded (bs : list (sblock T)) (infos : list (ImageInfo T)) (po : pout T) (offs : list (Z * Z)) (h : handover T) : Prop := mkJointHanded {
    jh_start : h_start h = map (fun dv => less (fst dv) (snd dv)) (combine (shifts bs offs) (given_values infos po));
    jh_info : h_info h = map (fun dp => less_limits (fst dp) (snd dp)) (combine (shifts bs offs) (given_limits infos po));
    jh_free : h_free h = Z.of_nat (List.length (filter (fun p => negb (p_fixed p)) (given_limits infos po))) }.
End Shift.
Arguments shifts {T}. Arguments less {T}. Arguments less_limits {T}. Arguments given_values {T}. Arguments given_limits {T}.
Arguments JointHanded {T}.

(** a model with every centre moved *)
Definition moved_by (dx dy : R) (bs : list (sblock R)) : list (sblock R) :=
  map (fun b => mkSblock (s_x b - dx)%R (s_y b - dy)%R (s_funcs b)) bs.
(** the same, read off the joint parameters: descriptions and model in coordinates of the
    fitted sections *)
Definition in_sections (offs : list (Z * Z)) (imgs : list (imgpar R)) : list (imgpar R) :=
  map (fun oi => Params_Spec.mkImg (i_pix (snd oi)) (i_rot (snd oi)) (i_flux (snd oi))
                   (i_x (snd oi) - IZR (fst (fst oi)))%R (i_y (snd oi) - IZR (snd (fst oi)))%R) (combine (tl offs) imgs).
