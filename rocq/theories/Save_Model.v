(** Model of the code that writes fitted parameters as text:
    ModelObject::PrintModelParamsToStrings (core/model_object.cpp:1823-1933),
    GetParamHeader (core/model_object.cpp:2006-2036),
    core/print_results.cpp:51-62 and 221-303, PrintToString and MakeOutputHeader
    (core/utilities.cpp:45-117) and GetExtraParamsDescription
    (function_objects/function_object.cpp:217-232). Definitions only.

    How printf renders a number is an argument: [f4] is "%.4f", [g] is "%g", [g5]
    is "%.5g". A text file is a list of characters. Opening the file succeeds. *)
From Coq Require Import ZArith List Bool.
From Verif Require Export Base Num StrUtil_Model Config_Model Build_Model.
Local Open Scope string_scope.
Local Open Scope list_scope.

Definition NUL : ascii := ascii_of_nat 0.
Definition NL : str := [ascii_of_nat 10].
Definition TAB : str := [ascii_of_nat 9].

(** s.c_str() passed to a %s conversion: the text up to the first NUL *)
Fixpoint c_str (s : str) : str :=
  match s with
  | [] => []
  | c :: t => if ch_eqb c NUL then [] else c :: c_str t
  end.

(** PrintToString, core/utilities.cpp:45-93; [s] is the text the format produces.
    1024 characters are accepted although the buffer then ends in a NUL; for longer
    texts the consumed va_list is used again, which is undefined. *)
Definition PrintToString (s : str) : res str :=
  if (List.length s <? 1024)%nat then Ok s
  else if (List.length s =? 1024)%nat then Ok (firstn 1023 s ++ [NUL])
  else Undef.

(** %7g: padded with blanks on the left *)
Definition pad7 (s : str) : str := repeat (ascii_of_nat 32) (7 - List.length s) ++ s.

(** GetExtraParamsDescription, function_object.cpp:217-232 *)
Fixpoint extra_lines (m : smap) : res (list str) :=
  match m with
  | [] => Ok []
  | (key, v) :: t =>
      do newLine <- PrintToString (c_str key ++ lit "   " ++ c_str v);
      do r <- extra_lines t;
      Ok (newLine :: r)
  end.
Definition GetExtraParamsDescription (f : fobj) : res (list str) :=
  match fo_extra f with
  | None => Ok []
  | Some m =>
      do ls <- extra_lines (in_order m);
      Ok (lit "OPTIONAL_PARAMS_START" :: ls ++ [lit "OPTIONAL_PARAMS_END"])
  end.

Section Print.
Variable T : Type.
Variable N : Num T.
Variable f4 g g5 : T -> str.

(** XY_FORMAT and XY_FORMAT_WITH_... , core/definitions.h:90-93 *)
Definition xy_line (prefix name : str) (v : T) : str :=
  prefix ++ name ++ TAB ++ TAB ++ f4 v ++ NL.
Definition xy_line_err (prefix name : str) (v e : T) : str :=
  prefix ++ name ++ TAB ++ TAB ++ f4 v ++ lit " # +/- " ++ f4 e ++ NL.
Definition xy_line_limits (prefix name : str) (v lo hi : T) : str :=
  prefix ++ name ++ TAB ++ TAB ++ f4 v ++ TAB ++ TAB ++ g lo ++ lit "," ++ g hi ++ NL.
Definition xy_line_fixed (prefix name : str) (v : T) : str :=
  prefix ++ name ++ TAB ++ TAB ++ f4 v ++ TAB ++ TAB ++ lit "fixed" ++ NL.

(** PARAM_FORMAT and PARAM_FORMAT_WITH_... , core/definitions.h:95-98 *)
Definition par_text (prefix name : str) (v : T) : str :=
  prefix ++ name ++ TAB ++ TAB ++ pad7 (g v).
Definition par_text_err (prefix name : str) (v e : T) : str :=
  prefix ++ name ++ TAB ++ TAB ++ pad7 (g v) ++ lit " # +/- " ++ g5 e.
Definition par_text_limits (prefix name : str) (v lo hi : T) : str :=
  prefix ++ name ++ TAB ++ TAB ++ pad7 (g v) ++ TAB ++ TAB ++ g lo ++ lit "," ++ g hi.
Definition par_text_fixed (prefix name : str) (v : T) : str :=
  prefix ++ name ++ TAB ++ TAB ++ pad7 (g v) ++ TAB ++ TAB ++ lit "fixed".

(** one X0 or Y0 line, core/model_object.cpp:1855-1876 *)
Definition centre_line (prefix name : str) (v : T) (k : nat) (errs : option (list T))
    (printLimits : bool) (info : list (mp_par T)) : res str :=
  if printLimits then
    do p <- get info k;
    if p_fixed p then PrintToString (xy_line_fixed prefix name v)
    else PrintToString (xy_line_limits prefix name v (p_lo p) (p_hi p))
  else
    match errs with
    | Some es => do e <- get es k; PrintToString (xy_line_err prefix name v e)
    | None => PrintToString (xy_line prefix name v)
    end.

(** one parameter line, core/model_object.cpp:1902-1930 *)
Definition param_line (b : built) (f : fobj) (prefix : str) (i k : nat) (v : T) (errs : option (list T))
    (printLimits : bool) (info : list (mp_par T)) : res str :=
  do paramName <- GetParameterName b k;
  do r <- (if printLimits then
             do p <- get info k;
             if p_fixed p then
               do s <- PrintToString (par_text_fixed prefix (c_str paramName) v);
               Ok (s, TAB ++ lit "# ")
             else
               do s <- PrintToString (par_text_limits prefix (c_str paramName) v (p_lo p) (p_hi p));
               Ok (s, TAB ++ lit "# ")
           else
             match errs with
             | Some es =>
                 do e <- get es k;
                 do s <- PrintToString (par_text_err prefix (c_str paramName) v e);
                 Ok (s, [])
             | None =>
                 do s <- PrintToString (par_text prefix (c_str paramName) v);
                 Ok (s, TAB ++ lit "# ")
             end);
  let '(newLine, unitsPrefix) := r in
  do unitsString <- get (c_units (fo_class f)) i;
  match unitsString with
  | [] => Ok (newLine ++ NL)
  | _ :: _ =>
      do extraString <- PrintToString (TAB ++ c_str unitsPrefix ++ c_str unitsString);
      Ok ((newLine ++ extraString) ++ NL)
  end.

(** the X0 and Y0 lines, core/model_object.cpp:1848-1880; the index after them *)
Definition print_centre (m : built) (offX offY : T) (params : list T) (errs : option (list T))
    (prefix : str) (printLimits : bool) (info : list (mp_par T)) (n k : nat) (out : list str)
    : res (nat * list str) :=
  do flag <- get (b_flags m) n;
  if (flag : bool) then
    do px <- get params k;
    do py <- get params (k + 1);
    do blank <- PrintToString (prefix ++ NL);
    do lx <- centre_line prefix (lit "X0") (nadd N px offX) k errs printLimits info;
    do ly <- centre_line prefix (lit "Y0") (nadd N py offY) (k + 1) errs printLimits info;
    Ok (k + 2, out ++ [blank; lx; ly])
  else Ok (k, out).

(** the FUNCTION line and the optional parameters, core/model_object.cpp:1883-1900 *)
Definition print_function (f : fobj) (prefix : str) (out : list str) : res (list str) :=
  do funcLabel <- (match fo_label f with
                   | [] => Ok []
                   | _ :: _ => PrintToString (lit "   # LABEL " ++ c_str (fo_label f))
                   end);
  do fline <- PrintToString (prefix ++ lit "FUNCTION " ++ c_str (c_name (fo_class f)) ++ c_str funcLabel ++ NL);
  do extraParamLines <- GetExtraParamsDescription f;
  for_ (List.length extraParamLines) (fun p out =>
     do l <- get extraParamLines p;
     do s <- PrintToString (prefix ++ c_str l ++ NL);
     Ok (out ++ [s])) (out ++ [fline]).

(** the parameters of one function, core/model_object.cpp:1902-1930 *)
Definition print_params (m : built) (f : fobj) (prefix : str) (params : list T) (errs : option (list T))
    (printLimits : bool) (info : list (mp_par T)) (k : nat) (out : list str) : res (list str) :=
  for_ (List.length (GetParameterNames f)) (fun i out =>
     do paramVal <- get params (k + i);
     do l <- param_line m f prefix i (k + i) paramVal errs printLimits info;
     Ok (out ++ [l])) out.

(** PrintModelParamsToStrings, core/model_object.cpp:1823-1933. [offX], [offY]:
    imageOffset_X0, imageOffset_Y0. [info]: parameterInfoVect. *)
Definition PrintModelParamsToStrings (m : built) (offX offY : T) (params : list T)
    (errs : option (list T)) (prefix : str) (printLimits : bool) (info : list (mp_par T))
    (stringVector : list str) : res (Z * list str) :=
  if printLimits && (match info with [] => true | _ => false end) then Ok ((-1)%Z, stringVector)
  else
    do r <- for_ (List.length (b_funcs m)) (fun n '(indexOffset, out) =>
        do c <- print_centre m offX offY params errs prefix printLimits info n indexOffset out;
        let '(indexOffset, out) := c in
        do f <- get (b_funcs m) n;
        do out <- print_function f prefix out;
        do out <- print_params m f prefix params errs printLimits info indexOffset out;
        Ok (indexOffset + List.length (GetParameterNames f), out)) (0, stringVector);
    Ok (0%Z, snd r).

(** PrintParameters, core/print_results.cpp:51-60: what is written to the file *)
Definition PrintParameters (m : built) (offX offY : T) (params : list T) (errs : option (list T))
    (prefix : str) : res str :=
  do r <- PrintModelParamsToStrings m offX offY params errs prefix false [] [];
  Ok (concat (map c_str (snd r))).

(** SaveParameters, core/print_results.cpp:221-290. [report]: the texts after "#   "
    (algorithm summary, fit statistic, its value, reduced value, AIC, BIC), whose
    computation is not part of this model. *)
Definition SaveParameters (header report : list str) (m : built) (offX offY : T) (params : list T)
    (errs : option (list T)) : res str :=
  do ps <- PrintParameters m offX offY params errs [];
  Ok (concat (map (fun h => c_str h ++ NL) header) ++
      NL ++ lit "# Results of fit:" ++ NL ++
      concat (map (fun h => lit "#   " ++ c_str h ++ NL) report) ++ ps).

(** SaveParameters2, core/print_results.cpp:296-303 *)
Definition SaveParameters2 (header : list str) (m : built) (offX offY : T) (params : list T) (prefix : str)
    : res str :=
  do ps <- PrintParameters m offX offY params None prefix;
  Ok (concat (map (fun h => c_str h ++ NL) header) ++ prefix ++ NL ++ ps).

End Print.
Arguments PrintModelParamsToStrings {T}. Arguments PrintParameters {T}.
Arguments centre_line {T}. Arguments param_line {T}. Arguments print_centre {T}. Arguments print_params {T}.
Arguments xy_line {T}. Arguments xy_line_err {T}. Arguments par_text {T}. Arguments par_text_err {T}.
Arguments SaveParameters {T}. Arguments SaveParameters2 {T}.

(** MakeOutputHeader, core/utilities.cpp:99-117; [timeStamp] is the text of the time *)
Definition MakeOutputHeader (programName timeStamp : str) (argv : list str) : res (list str) :=
  do h1 <- PrintToString (lit "# Best-fit model results for " ++ c_str programName);
  do h2 <- PrintToString (lit "# Generated on " ++ c_str timeStamp ++ lit " by the following command:");
  do h3 <- fold_left (fun acc a => do t <- acc; do s <- PrintToString (lit " " ++ c_str a); Ok (t ++ s))
             argv (Ok (lit "#   "));
  Ok [h1; h2; h3].

(** GetParamHeader, core/model_object.cpp:2006-2036; [dec] is "%d" *)
Definition GetParamHeader (dec : nat -> str) (m : built) : res str :=
  do r <- for_ (List.length (b_funcs m)) (fun n '(indexOffset, nSet, headerLine) =>
      do flag <- get (b_flags m) n;
      do c <- (if (flag : bool) then
                 do s <- PrintToString (lit "X0_" ++ dec (S nSet) ++ TAB ++ TAB ++ lit "Y0_" ++ dec (S nSet) ++ TAB ++ TAB);
                 Ok (indexOffset + 2, S nSet, headerLine ++ s)
               else Ok (indexOffset, nSet, headerLine));
      let '(indexOffset, nSet, headerLine) := c in
      do f <- get (b_funcs m) n;
      do headerLine <- for_ (List.length (GetParameterNames f)) (fun i headerLine =>
           do paramName <- GetParameterName m (indexOffset + i);
           do s <- PrintToString (c_str paramName ++ lit "_" ++ dec (n + 1) ++ TAB);
           Ok (headerLine ++ s)) headerLine;
      Ok (indexOffset + List.length (GetParameterNames f), nSet, headerLine)) (0, 0, lit "# ");
  Ok (snd r).

(** the lines getline delivers: pieces between newlines, the last only if not empty
    (used by ReadConfigFile, core/config_file_parser.cpp:514-527, 610-619) *)
Fixpoint getlines (cur text : str) : list str :=
  match text with
  | [] => match cur with [] => [] | _ :: _ => [cur] end
  | c :: t => if ch_eqb c (ascii_of_nat 10) then cur :: getlines [] t else getlines (cur ++ [c]) t
  end.
Definition file_lines (text : str) : list str := getlines [] text.
