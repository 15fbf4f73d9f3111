(** What a configuration file with function labels and optional parameters says,
    stated without reference to the parser. Extends [Config_Spec]. *)
From Coq Require Import Ascii String List.
From Verif Require Import StrUtil_Spec Config_Spec.
Import ListNotations.
Local Open Scope list_scope.

(** A function: its name, its label (empty: none), its optional parameters
    ([None]: no such section) and its parameters. *)
Record funcL := mkFuncL {
  fl_name : text; fl_label : text; fl_opts : option (list (text * text)); fl_params : list param_ }.
Record blockL := mkBlockL { bk_x : text * limits_; bk_y : text * limits_; bk_funcs : list funcL }.

Inductive lineL :=
| LPlain (d : line_)              (* keyword, X0, Y0 and parameter lines *)
| LFun (name label : text)        (* FUNCTION name   # LABEL label *)
| LStart | LOpt (k v : text) | LEnd.

Definition label_kw : text := list_ascii_of_string "LABEL".

(** The label of a function line: the text after the first "LABEL", without the
    blanks around it. A label of a single character is not covered: the parser
    drops it (see C06_label_refuted). *)
Definition LabelOf (l lab : text) : Prop :=
  (lab = [] /\ ~ Kw "LABEL" l) \/
  (exists a b, l = a ++ label_kw ++ b /\
     (forall a' b', l = a' ++ label_kw ++ b' -> length a <= length a') /\
     Trimmed Blank b lab /\ length lab <> 1).

Definition SaysL (d : lineL) (l : text) : Prop :=
  match d with
  | LPlain d => Says d l
  | LFun name lab => Words l [list_ascii_of_string "FUNCTION"; name] /\ ~ Kw "X0" l /\ LabelOf l lab
  | LStart => Words l [list_ascii_of_string "OPTIONAL_PARAMS_START"] /\ ~ Kw "X0" l /\ ~ Kw "FUNCTION" l
  | LOpt k v => Words l [k; v] /\ PosLine l /\ ~ Kw "X0" l
  | LEnd => Words l [list_ascii_of_string "OPTIONAL_PARAMS_END"] /\ ~ Kw "X0" l /\ ~ Kw "FUNCTION" l /\
            ~ Kw "OPTIONAL_PARAMS_START" l
  end.

Inductive FileSaysL : list lineL -> list text -> Prop :=
| FL_nil : FileSaysL [] []
| FL_skip l ds ls : Ignorable l -> FileSaysL ds ls -> FileSaysL ds (l :: ls)
| FL_line d l ds ls : SaysL d l -> FileSaysL ds ls -> FileSaysL (d :: ds) (l :: ls).

Definition opts_lines (o : option (list (text * text))) : list lineL :=
  match o with
  | None => []
  | Some kvs => LStart :: map (fun kv => LOpt (fst kv) (snd kv)) kvs ++ [LEnd]
  end.
Definition func_linesL (f : funcL) : list lineL :=
  LFun (fl_name f) (fl_label f) :: opts_lines (fl_opts f) ++ map (fun p => LPlain (DPar p)) (fl_params f).
Definition block_linesL (b : blockL) : list lineL :=
  LPlain (DX0 (fst (bk_x b)) (snd (bk_x b))) :: LPlain (DY0 (fst (bk_y b)) (snd (bk_y b))) ::
  flat_map func_linesL (bk_funcs b).
Definition config_linesL (opts : list (text * text)) (bs : list blockL) : list lineL :=
  map (fun kv => LPlain (DOpt (fst kv) (snd kv))) opts ++ flat_map block_linesL bs.

Definition all_funcsL (bs : list blockL) : list funcL := flat_map bk_funcs bs.
Definition block_paramsL (b : blockL) : list (text * limits_) :=
  bk_x b :: bk_y b ::
  flat_map (fun f => map (fun p => (pa_val p, pa_lim p)) (fl_params f)) (bk_funcs b).
Definition all_paramsL (bs : list blockL) := flat_map block_paramsL bs.
Fixpoint starts_fromL (n : nat) (bs : list blockL) : list nat :=
  match bs with [] => [] | b :: t => n :: starts_fromL (n + length (bk_funcs b)) t end.

(** the value a list of optional parameters gives to a key: the last one wins *)
Fixpoint last_value (kvs : list (text * text)) (k : text) (v : text) : Prop :=
  match kvs with
  | [] => False
  | (k', v') :: t => last_value t k v \/ (k' = k /\ v' = v /\ forall w, ~ last_value t k w)
  end.
Definition opts_of (f : funcL) : list (text * text) :=
  match fl_opts f with None => [] | Some kvs => kvs end.
