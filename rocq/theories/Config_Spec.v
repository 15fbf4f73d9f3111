(** What a configuration file says, stated without reference to the parser. *)
From Coq Require Import Ascii String List ZArith.
From Verif Require Import StrUtil_Spec Num Config_Model.
(* of the model only the records of limits [mp_par] and outputs [pout] are used here *)
Import ListNotations.
Local Open Scope list_scope.

Notation text := (list ascii).
Definition Contains (p s : text) : Prop := exists a b, s = a ++ p ++ b.
Definition Kw (k : string) (l : text) : Prop := Contains (list_ascii_of_string k) l.

(** blank, tab or newline *)
Definition Blank (c : ascii) : Prop := In c [ascii_of_nat 10; ascii_of_nat 9; ascii_of_nat 32].

(** [Body l b]: [b] is the line [l] up to its first '#' *)
Definition Body (l b : text) : Prop :=
  exists rest, l = b ++ rest /\ Forall (fun c => c <> ascii_of_nat 35) b /\
               (rest = [] \/ exists r, rest = ascii_of_nat 35 :: r).

(** a line of two or more words *)
Definition Words (l : text) (ws : list text) : Prop :=
  exists b, Body l b /\ Tokens Blank b ws.

(** ---- C05: the shape of a function section ---- *)
Section Shape.
  Variable mode2D : bool.

  Definition PosLine (l : text) : Prop :=
    ~ Kw "FUNCTION" l /\ ~ Kw "OPTIONAL_PARAMS_START" l /\ ~ Kw "OPTIONAL_PARAMS_END" l.
  Definition X0Line (l : text) : Prop := Kw "X0" l /\ PosLine l.
  Definition Y0Line (l : text) : Prop := Kw "Y0" l /\ PosLine l /\ ~ Kw "X0" l.
  Definition FuncLine (l : text) : Prop :=
    Kw "FUNCTION" l /\ ~ Kw "X0" l /\ exists ws, Words l ws /\ 2 <= length ws.
  Definition StartLine (l : text) : Prop :=
    Kw "OPTIONAL_PARAMS_START" l /\ ~ Kw "X0" l /\ ~ Kw "FUNCTION" l.
  Definition EndLine (l : text) : Prop :=
    Kw "OPTIONAL_PARAMS_END" l /\ ~ Kw "X0" l /\ ~ Kw "FUNCTION" l /\ ~ Kw "OPTIONAL_PARAMS_START" l.
  Definition PlainLine (l : text) : Prop := PosLine l /\ ~ Kw "X0" l.

  (** [Shape f o ls]: the lines follow the documented layout; [f]: a FUNCTION line
      has been seen, [o]: inside an optional-parameter section. Position lines
      stand outside optional sections, function lines carry a name, optional
      sections come after a FUNCTION line, and (2D) an X0 line is not the last. *)
  Inductive Shape : bool -> bool -> list text -> Prop :=
  | Sh_nil f o : Shape f o []
  | Sh_x0_1d f x t : mode2D = false -> X0Line x -> Shape f false t -> Shape f false (x :: t)
  | Sh_x0_2d f x y t : mode2D = true -> X0Line x -> Y0Line y -> Shape f false t -> Shape f false (x :: y :: t)
  | Sh_x0_noY f x y t : mode2D = true -> X0Line x -> ~ Kw "Y0" y -> Shape f false (x :: y :: t)
  | Sh_func f o l t : FuncLine l -> Shape true o t -> Shape f o (l :: t)
  | Sh_start o l t : StartLine l -> Shape true true t -> Shape true o (l :: t)
  | Sh_end f o l t : EndLine l -> Shape f false t -> Shape f o (l :: t)
  | Sh_plain f o l t : PlainLine l -> Shape f o t -> Shape f o (l :: t).
End Shape.

(** [StartsOf n ls s m]: with [n] FUNCTION lines before [ls], [s] lists for each
    X0 line of [ls] the number of FUNCTION lines before it, and [m] is the number
    of FUNCTION lines in the end. *)
Inductive StartsOf : nat -> list text -> list nat -> nat -> Prop :=
| SO_nil n : StartsOf n [] [] n
| SO_x0 n l t s m : Kw "X0" l -> StartsOf n t s m -> StartsOf n (l :: t) (n :: s) m
| SO_fun n l t s m : ~ Kw "X0" l -> Kw "FUNCTION" l -> StartsOf (S n) t s m -> StartsOf n (l :: t) s m
| SO_oth n l t s m : ~ Kw "X0" l -> ~ Kw "FUNCTION" l -> StartsOf n t s m -> StartsOf n (l :: t) s m.

(** every X0 line is followed by a FUNCTION line before the next X0 line *)
Definition EveryBlockHasFunction (ls : list text) : Prop :=
  forall a x b, ls = a ++ x :: b -> Kw "X0" x ->
  exists c f d, b = c ++ f :: d /\ Kw "FUNCTION" f /\ ~ Kw "X0" f /\ Forall (fun l => ~ Kw "X0" l) c.

(** ---- C06: model descriptions and the files that express them ---- *)
Inductive limits_ :=
| LNone | LFixed | LRange (lo hi : text).
Record param_ := mkParam { pa_name : text; pa_val : text; pa_lim : limits_ }.
Record func_ := mkFunc { fu_name : text; fu_params : list param_ }.
Record block_ := mkBlock { bl_x : text * limits_; bl_y : text * limits_; bl_funcs : list func_ }.

Definition limit_words (l : limits_) : list text :=
  match l with
  | LNone => []
  | LFixed => [list_ascii_of_string "fixed"]
  | LRange lo hi => [lo ++ ascii_of_nat 44 :: hi]
  end.

Inductive line_ :=
| DOpt (k v : text)
| DX0 (v : text) (l : limits_)
| DY0 (v : text) (l : limits_)
| DFun (name : text)
| DPar (p : param_).

Definition words_of (d : line_) : list text :=
  match d with
  | DOpt k v => [k; v]
  | DX0 v l => list_ascii_of_string "X0" :: v :: limit_words l
  | DY0 v l => list_ascii_of_string "Y0" :: v :: limit_words l
  | DFun n => [list_ascii_of_string "FUNCTION"; n]
  | DPar p => pa_name p :: pa_val p :: limit_words (pa_lim p)
  end.

(** The line [l] says [d]: up to an optional comment its words are those of [d],
    with any spacing; keywords that would give the line another meaning do not
    occur in it. *)
Definition Says (d : line_) (l : text) : Prop :=
  Words l (words_of d) /\
  match d with
  | DOpt _ _ => ~ Kw "X0" l
  | DX0 _ _ => PosLine l
  | DY0 _ _ => PosLine l /\ ~ Kw "X0" l
  | DFun _ => ~ Kw "X0" l
  | DPar _ => PosLine l /\ ~ Kw "X0" l
  end.

(** blank lines and comment lines *)
Definition Ignorable (l : text) : Prop :=
  exists g r, l = g ++ r /\ Forall Blank g /\ (r = [] \/ exists r', r = ascii_of_nat 35 :: r').

Inductive FileSays : list line_ -> list text -> Prop :=
| FS_nil : FileSays [] []
| FS_skip l ds ls : Ignorable l -> FileSays ds ls -> FileSays ds (l :: ls)
| FS_line d l ds ls : Says d l -> FileSays ds ls -> FileSays (d :: ds) (l :: ls).

Definition func_lines (f : func_) : list line_ := DFun (fu_name f) :: map DPar (fu_params f).
Definition block_lines (b : block_) : list line_ :=
  DX0 (fst (bl_x b)) (snd (bl_x b)) :: DY0 (fst (bl_y b)) (snd (bl_y b)) ::
  flat_map func_lines (bl_funcs b).
Definition config_lines (opts : list (text * text)) (bs : list block_) : list line_ :=
  map (fun kv => DOpt (fst kv) (snd kv)) opts ++ flat_map block_lines bs.

(** parameters of the description in reading order: X0, Y0, then each function's *)
Definition block_params (b : block_) : list (text * limits_) :=
  bl_x b :: bl_y b ::
  flat_map (fun f => map (fun p => (pa_val p, pa_lim p)) (fu_params f)) (bl_funcs b).
Definition all_params (bs : list block_) := flat_map block_params bs.
Definition all_names (bs : list block_) := flat_map (fun b => map fu_name (bl_funcs b)) bs.
Fixpoint starts_from (n : nat) (bs : list block_) : list nat :=
  match bs with [] => [] | b :: t => n :: starts_from (n + length (bl_funcs b)) t end.

(** ---- which values and limits are well formed, and the entry they describe ---- *)
Section Values.
  Variable T : Type.
  Variable N : Num T.
  Variable strtod : text -> T.            (* value of a numeral *)
  Variable IsNumeric : text -> bool.      (* is the text a numeral *)

  (** a value with limits that the documentation allows *)
  Definition GoodPar (v : text) (l : limits_) : Prop :=
    IsNumeric v = true /\
    match l with
    | LRange lo hi =>
        lo <> [] /\ hi <> [] /\ IsNumeric lo = true /\ IsNumeric hi = true /\
        Forall (fun c => c <> ascii_of_nat 44) lo /\ Forall (fun c => c <> ascii_of_nat 44) hi /\
        nleb N (strtod hi) (strtod lo) = false /\
        nltb N (strtod v) (strtod lo) = false /\ nltb N (strtod hi) (strtod v) = false
    | _ => True
    end.

  Definition entry (l : limits_) : mp_par T :=
    match l with
    | LNone => mkPar false false false (nofZ N 0) (nofZ N 0)
    | LFixed => mkPar true false false (nofZ N 0) (nofZ N 0)
    | LRange lo hi => mkPar false true true (strtod lo) (strtod hi)
    end.
  Definition found (l : limits_) : bool := match l with LNone => false | _ => true end.

  (** what a description line must satisfy *)
  Definition GoodLine (d : line_) : Prop :=
    match d with
    | DOpt _ _ => False
    | DX0 v l | DY0 v l => GoodPar v l
    | DFun _ => True
    | DPar p => GoodPar (pa_val p) (pa_lim p)
    end.
End Values.
Arguments GoodPar {T}. Arguments GoodLine {T}. Arguments entry {T}.

(** ---- C07: two readings agree, except for the optional parameters ---- *)
Section Agree.
  Variable T : Type.
  Definition same_but_opt (a b : pout T) : Prop :=
    o_names a = o_names b /\ o_labels a = o_labels b /\ o_params a = o_params b /\
    o_limits a = o_limits b /\ o_starts a = o_starts b /\ o_limFound a = o_limFound b.

  Definition same_read (x y : res (Z * option (pout T * list (text * text)))) : Prop :=
    match x, y with
    | Ok (c, None), Ok (d, None) => c = d
    | Ok (c, Some (a, o1)), Ok (d, Some (b, o2)) => c = d /\ same_but_opt a b /\ o1 = o2
    | Undef, Undef => True | Abort, Abort => True | Fuel, Fuel => True
    | _, _ => False
    end.
End Agree.
Arguments same_but_opt {T}. Arguments same_read {T}.
