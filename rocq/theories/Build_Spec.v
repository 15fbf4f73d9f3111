(** When a model can be built from the functions named in a configuration file, and
    what it then consists of; stated without reference to the code. *)
From Coq Require Import Ascii String List ZArith.
From Verif Require Import Config_Spec Config_Model Build_Model Save_Spec.
(* of the models only [smap], the table [classes], [in_order] and the record [fobj] are used *)
Import ListNotations.
Local Open Scope list_scope.

Definition PS : text := list_ascii_of_string "PointSource".
Definition PSR : text := list_ascii_of_string "PointSourceRot".
Definition Known (name : text) : Prop := exists c, In c classes /\ c_name c = name.
Definition IsPoint (name : text) : Prop := name = PS \/ name = PSR.

(** The interpolation methods that can be asked for, with their accepted spellings. *)
Inductive PSMethod : text -> text -> Prop :=
| PM_b : PSMethod (list_ascii_of_string "bicubic") (list_ascii_of_string "bicubic")
| PM_B : PSMethod (list_ascii_of_string "Bicubic") (list_ascii_of_string "bicubic")
| PM_2 : PSMethod (list_ascii_of_string "lanczos2") (list_ascii_of_string "lanczos2")
| PM_L2 : PSMethod (list_ascii_of_string "Lanczos2") (list_ascii_of_string "lanczos2")
| PM_3 : PSMethod (list_ascii_of_string "lanczos3") (list_ascii_of_string "lanczos3")
| PM_L3 : PSMethod (list_ascii_of_string "Lanczos3") (list_ascii_of_string "lanczos3").
Definition PSRSpelling (v : text) : Prop :=
  In v (map list_ascii_of_string ["bicubic"; "Bicubic"; "lanczos2"; "Lanczos2"]%string).

(** The optional parameters are accepted: none at all, or the function is a point
    source and the first of them in alphabetical order is not "method", or names a
    known method. *)
Definition Accepts (name : text) (opts : smap) : Prop :=
  opts = [] \/
  exists k v t, in_order opts = (k, v) :: t /\
    ((name = PS /\ (k = list_ascii_of_string "method" -> exists m, PSMethod v m)) \/
     (name = PSR /\ (k = list_ascii_of_string "method" -> PSRSpelling v))).

(** A PSF image of at least 4x4 pixels has been supplied. *)
Definition PsfOk (psf : option (Z * Z)) : Prop :=
  exists c r, psf = Some (c, r) /\ (4 <= c)%Z /\ (4 <= r)%Z.

Definition Buildable {T} (psf : option (Z * Z)) (fs : list (sfunc T)) : Prop :=
  Forall (fun f => Known (s_name f) /\ Accepts (s_name f) (s_opts f)) fs /\
  (Exists (fun f => IsPoint (s_name f)) fs -> PsfOk psf).

(** the method a PointSource is asked to use *)
Definition Asked {T} (f : sfunc T) (m : text) : Prop :=
  (exists v t, in_order (s_opts f) = (list_ascii_of_string "method", v) :: t /\ PSMethod v m) \/
  (~ (exists v t, in_order (s_opts f) = (list_ascii_of_string "method", v) :: t) /\ m = list_ascii_of_string "bicubic").

(** the method, if one is given, is spelled in lower case *)
Definition LowerCase {T} (f : sfunc T) : Prop :=
  forall v t, in_order (s_opts f) = (list_ascii_of_string "method", v) :: t -> PSMethod v v.

(** the object made for a function *)
Record MadeFrom {T} (o : fobj) (f : sfunc T) : Prop := mkMade {
  mf_class : In (fo_class o) classes /\ c_name (fo_class o) = s_name f;
  mf_label : fo_label o = s_label f;
  mf_method : s_name f = PS \/ (s_name f = PSR /\ LowerCase f) -> Asked f (fo_method o) }.

(** numbers of the interpolators *)
Inductive MethodCode : text -> Z -> Prop :=
| MC1 : MethodCode (list_ascii_of_string "bicubic") 1
| MC2 : MethodCode (list_ascii_of_string "lanczos2") 2
| MC3 : MethodCode (list_ascii_of_string "lanczos3") 3.

(** [first_point fs f]: [f] is the first point source of the list *)
Definition FirstPoint {T} (fs : list (sfunc T)) (f : sfunc T) : Prop :=
  exists a b, fs = a ++ f :: b /\ IsPoint (s_name f) /\ Forall (fun g => ~ IsPoint (s_name g)) a.
