(** Model of core/config_file_parser.cpp. Definitions only.

    Simplifications: text printed to stderr is left out; [origLineNumbers],
    which [ParseFunctionSection] uses only inside messages, is kept only in
    [VetConfigFile]. [strtod] and [IsNumeric] (core/utilities.cpp:615-623, which
    asks strtod whether it consumes the whole string) are arguments. A file is
    the list of its lines as delivered by [getline]. *)

From Verif Require Export StrUtil_Model Num.
Local Open Scope list_scope.

(** [s.find(p, 0)] *)
Fixpoint is_prefix (p s : str) : bool :=
  match p, s with
  | [], _ => true
  | x :: p', y :: s' => ch_eqb x y && is_prefix p' s'
  | _ :: _, [] => false
  end.
Fixpoint find_str (s p : str) : option nat :=
  if is_prefix p s then Some 0
  else match s with [] => None | _ :: t => option_map S (find_str t p) end.
Definition has (p : string) (s : str) : bool :=
  match find_str s (lit p) with Some _ => true | None => false end.

(** core/param_struct.h:44-81 mp_par: the fields the parser fills in *)
Record mp_par (T : Type) := mkPar {
  p_fixed : bool; p_lim0 : bool; p_lim1 : bool; p_lo : T; p_hi : T }.
Arguments mkPar {T}. Arguments p_fixed {T}. Arguments p_lim0 {T}. Arguments p_lim1 {T}.
Arguments p_lo {T}. Arguments p_hi {T}.

(** std::map<string,string>: assignment [m[k] = v] *)
Definition smap := list (str * str).
Fixpoint map_set (m : smap) (k v : str) : smap :=
  match m with
  | [] => [(k, v)]
  | (k', v') :: t => if str_eqb k k' then (k, v) :: t else (k', v') :: map_set t k v
  end.
Fixpoint map_get (m : smap) (k : str) : option str :=
  match m with
  | [] => None
  | (k', v') :: t => if str_eqb k k' then Some v' else map_get t k
  end.

Section Parser.
  Variable T : Type.
  Variable N : Num T.
  Variable strtod : str -> T.
  Variable IsNumeric : str -> bool.

  Definition kw_fixed : str := lit "fixed".

  (** core/config_file_parser.cpp:68-101. Returns the verdict and the line, from
      which the comment has been removed in place. *)
  Definition ValidParameterLine (line : str) (optionalParams : bool) : res (bool * str) :=
    do l <- ChopComment line hash;
    do ps <- SplitString l ws_delims;
    if 2 <=? length ps then
      if optionalParams then Ok (true, l)
      else
        do token2 <- get ps 1;
        if negb (IsNumeric token2) then Ok (false, l)
        else if 2 <? length ps then
          do token3 <- get ps 2;
          if str_eqb token3 kw_fixed then Ok (true, l)
          else
            do ps2 <- SplitString token3 [comma];
            if negb (length ps2 =? 2) then Ok (false, l)
            else
              do a <- get ps2 0; do b <- get ps2 1;
              Ok (IsNumeric a && IsNumeric b, l)
        else Ok (true, l)
    else Ok (false, l).

  Definition no_limits : mp_par T := mkPar false false false (nofZ N 0) (nofZ N 0).

  (** core/config_file_parser.cpp:127-185. Result: the value (always appended to
      parameterList), the limits entry appended to parameterLimits ([None] when
      the function leaves before the push_back) and the return code. *)
  Definition AddParameterAndLimit (line : str) : res (T * option (mp_par T) * Z) :=
    do l <- ChopComment line hash;
    do ps <- SplitString l ws_delims;
    do s1 <- get ps 1;
    let paramVal := strtod s1 in
    if 2 <? length ps then
      do extraPiece <- get ps 2;
      if str_eqb extraPiece kw_fixed then
        Ok (paramVal, Some (mkPar true false false (nofZ N 0) (nofZ N 0)), 1%Z)
      else
        match find_char extraPiece comma (Some 0) with
        | Some _ =>
            do newPieces <- SplitString extraPiece [comma];
            do a <- get newPieces 0; do b <- get newPieces 1;
            let lowerLimit := strtod a in
            let upperLimit := strtod b in
            if nleb N upperLimit lowerLimit then Ok (paramVal, None, (-1)%Z)
            else if nltb N paramVal lowerLimit || nltb N upperLimit paramVal
            then Ok (paramVal, None, (-1)%Z)
            else Ok (paramVal, Some (mkPar false true true lowerLimit upperLimit), 1%Z)
        | None => Ok (paramVal, Some no_limits, 1%Z)
        end
    else Ok (paramVal, Some no_limits, 0%Z).

  (** core/config_file_parser.cpp:191-203 *)
  Definition AddOptionalParameter (line : str) (m : smap) : res smap :=
    do l <- ChopComment line hash;
    do ps <- SplitString l ws_delims;
    do k <- get ps 0; do v <- get ps 1;
    Ok (map_set m k v).

  (** core/config_file_parser.cpp:209-224 *)
  Definition GetFunctionLabel (line : str) : res str :=
    match find_str line (lit "LABEL") with
    | None => Ok []
    | Some loc1 => do s <- substr line (loc1 + 5) None; TrimWhitespace s
    end.

  (** core/config_file_parser.cpp:230-244. Result: name and label. *)
  Definition AddFunctionNameAndLabel (line : str) : res (str * str) :=
    do label <- GetFunctionLabel line;
    do l <- ChopComment line hash;
    do ps <- SplitString l ws_delims;
    do name <- get ps 1;
    Ok (name, label).

  Definition NOFUNCSECTION : Z := (-1).
  Definition NOFUNCTIONS : Z := (-2).
  Definition INCOMPLETEXY : Z := (-3).
  Definition BADPARAMLINE : Z := (-4).

  Fixpoint find_line (p : str -> bool) (ls : list str) : option nat :=
    match ls with
    | [] => None
    | l :: t => if p l then Some 0 else option_map S (find_line p t)
    end.

  (** the checking loop, core/config_file_parser.cpp:300-324: [inl k] = line [k]
      (counted from the start of the loop) is invalid; [inr ls] = all valid, with
      comments removed from the checked lines *)
  Fixpoint vet_lines (inOpt : bool) (k : nat) (ls : list str) : res (nat + list str) :=
    match ls with
    | [] => Ok (inr [])
    | l :: t =>
        if negb (has "FUNCTION" l) then
          if has "OPTIONAL_PARAMS_START" l then
            do r <- vet_lines true (S k) t;
            Ok (match r with inl b => inl b | inr t' => inr (l :: t') end)
          else if has "OPTIONAL_PARAMS_END" l then
            do r <- vet_lines false (S k) t;
            Ok (match r with inl b => inl b | inr t' => inr (l :: t') end)
          else
            do v <- ValidParameterLine l inOpt;
            if negb (fst v) then Ok (inl k)
            else do r <- vet_lines inOpt (S k) t;
                 Ok (match r with inl b => inl b | inr t' => inr (snd v :: t') end)
        else
          do r <- vet_lines inOpt (S k) t;
          Ok (match r with inl b => inl b | inr t' => inr (l :: t') end)
    end.

  (** core/config_file_parser.cpp:256-341. Result: the return value, the lines
      (changed in place) and *badLineNumber if it is written. *)
  Definition VetConfigFile (ls : list str) (nums : list Z) (mode2D : bool)
    : res (Z * list str * option Z) :=
    match find_line (has "X0") ls with
    | None => Ok (NOFUNCSECTION, ls, None)
    | Some i =>
        let yBad := mode2D && (match nth_error ls (S i) with
                               | None => true
                               | Some y => negb (has "Y0" y)
                               end) in
        if yBad then do bad <- get nums i; Ok (INCOMPLETEXY, ls, Some bad)
        else
          match find_line (has "FUNCTION") (skipn i ls) with
          | None => Ok (NOFUNCTIONS, ls, None)
          | Some _ =>
              do r <- vet_lines false i (skipn i ls);
              match r with
              | inl k => do bad <- get nums k; Ok (BADPARAMLINE, ls, Some bad)
              | inr t => Ok (Z.of_nat i, firstn i ls ++ t, None)
              end
          end
    end.

  (** the output arguments of ParseFunctionSection *)
  Record pout := mkOut {
    o_names : list str; o_labels : list str; o_params : list T; o_limits : list (mp_par T);
    o_starts : list nat; o_limFound : bool; o_opt : list smap }.

  Definition push_opt {A} (l : list A) (x : option A) : list A :=
    match x with Some a => l ++ [a] | None => l end.

  (** append the effect of one AddParameterAndLimit call (lines 406-414, 424-432,
      467-475); [inl] = leave with -1 *)
  Definition add_par (chk : bool) (st : pout) (r : T * option (mp_par T) * Z) : pout * bool :=
    let '(v, lim, code) := r in
    let st1 := mkOut (o_names st) (o_labels st) (o_params st ++ [v]) (push_opt (o_limits st) lim)
                     (o_starts st) (o_limFound st || ((code =? 1)%Z)) (o_opt st) in
    (st1, chk && (code <? 0)%Z).

  (** core/config_file_parser.cpp:402-480, the loop from the current line on;
      [fn] is functionNumber. A line list exhausted right after an X0 line is an
      out-of-range access at line 418. *)
  Fixpoint parse_lines (mode2D chk : bool) (ls : list str) (inOpt : bool) (fn : nat) (st : pout)
    : res (Z * pout) :=
    match ls with
    | [] => Ok (0%Z, st)
    | l :: t =>
        if has "X0" l then
          let st0 := mkOut (o_names st) (o_labels st) (o_params st) (o_limits st)
                           (o_starts st ++ [fn]) (o_limFound st) (o_opt st) in
          do r <- AddParameterAndLimit l;
          let '(st1, stop) := add_par chk st0 r in
          if stop then Ok ((-1)%Z, st1)
          else if mode2D then
            match t with
            | [] => Undef
            | y :: t' =>
                if negb (has "Y0" y) then Ok ((-1)%Z, st1)
                else
                  do r2 <- AddParameterAndLimit y;
                  let '(st2, stop2) := add_par chk st1 r2 in
                  if stop2 then Ok ((-1)%Z, st2)
                  else parse_lines mode2D chk t' inOpt fn st2
            end
          else parse_lines mode2D chk t inOpt fn st1
        else if has "FUNCTION" l then
          do nl <- AddFunctionNameAndLabel l;
          parse_lines mode2D chk t inOpt (S fn)
            (mkOut (o_names st ++ [fst nl]) (o_labels st ++ [snd nl]) (o_params st) (o_limits st)
                   (o_starts st) (o_limFound st) (o_opt st ++ [[]]))
        else if has "OPTIONAL_PARAMS_START" l then parse_lines mode2D chk t true fn st
        else if has "OPTIONAL_PARAMS_END" l then parse_lines mode2D chk t false fn st
        else if inOpt then
          match fn with
          | O => Undef                                  (* optionalParamsVect[-1] *)
          | S k =>
              do m <- get (o_opt st) k;
              do m' <- AddOptionalParameter l m;
              do o' <- set (o_opt st) k m';
              parse_lines mode2D chk t inOpt fn
                (mkOut (o_names st) (o_labels st) (o_params st) (o_limits st)
                       (o_starts st) (o_limFound st) o')
          end
        else
          do r <- AddParameterAndLimit l;
          let '(st1, stop) := add_par chk st r in
          if stop then Ok ((-1)%Z, st1)
          else parse_lines mode2D chk t inOpt fn st1
    end.

  (** core/config_file_parser.cpp:380-481. [opt0] is the incoming content of
      optionalParamsVect, the only output that is not cleared first. *)
  Definition ParseFunctionSection (ls : list str) (mode2D chk : bool) (opt0 : list smap)
    : res (Z * pout) :=
    parse_lines mode2D chk ls false 0 (mkOut [] [] [] [] [] false opt0).

  (** lines 514-527 / 610-619: trim, drop empty and comment lines, number them *)
  Fixpoint keep_lines (k : Z) (file : list str) : res (list str * list Z) :=
    match file with
    | [] => Ok ([], [])
    | l :: t =>
        do l' <- TrimWhitespace l;
        do r <- keep_lines (k + 1) t;
        match l' with
        | [] => Ok r
        | c :: _ => if ch_eqb c hash then Ok r else Ok (l' :: fst r, (k + 1)%Z :: snd r)
        end
    end.

  (** lines 549-557 / 634-642: keyword lines before the function section *)
  Fixpoint read_options (ls : list str) : res (list (str * str)) :=
    match ls with
    | [] => Ok []
    | l :: t =>
        do l' <- ChopComment l hash;
        do ps <- SplitString l' ws_delims;
        do r <- read_options t;
        match ps with
        | [k; v] => Ok ((k, v) :: r)
        | _ => Ok r
        end
    end.

  Definition skip_to (z : Z) {A} (l : list A) : list A := skipn (Z.to_nat z) l.

  (** core/config_file_parser.cpp:589-656 (full version: limits are read, the
      incoming optionalParamsVect is not cleared). [None] = the outputs were not
      touched. *)
  Definition ReadConfigFile_full (file : list str) (mode2D : bool) (opt0 : list smap)
    : res (Z * option (pout * list (str * str))) :=
    do kl <- keep_lines 0 file;
    do v <- VetConfigFile (fst kl) (snd kl) mode2D;
    let '(start, ls, _) := v in
    if (start <? 0)%Z then Ok ((-1)%Z, None)
    else
      do opts <- read_options (firstn (Z.to_nat start) ls);
      do r <- ParseFunctionSection (skip_to start ls) mode2D true opt0;
      Ok (fst r, Some (snd r, opts)).

  (** core/config_file_parser.cpp:494-574 (limited version: limits not checked,
      optionalParamsVect cleared at line 535) *)
  Definition ReadConfigFile_limited (file : list str) (mode2D : bool) (opt0 : list smap)
    : res (Z * option (pout * list (str * str))) :=
    do kl <- keep_lines 0 file;
    do v <- VetConfigFile (fst kl) (snd kl) mode2D;
    let '(start, ls, _) := v in
    if (start <? 0)%Z then Ok ((-1)%Z, None)
    else
      do opts <- read_options (firstn (Z.to_nat start) ls);
      do r <- ParseFunctionSection (skip_to start ls) mode2D false [];
      Ok (fst r, Some (snd r, opts)).
End Parser.
Arguments mkOut {T}. Arguments o_names {T}. Arguments o_labels {T}. Arguments o_params {T}.
Arguments o_limits {T}. Arguments o_starts {T}. Arguments o_limFound {T}. Arguments o_opt {T}.
Arguments no_limits {T}. Arguments AddParameterAndLimit {T}. Arguments add_par {T}.
Arguments parse_lines {T}. Arguments ParseFunctionSection {T}.
Arguments ReadConfigFile_full {T}. Arguments ReadConfigFile_limited {T}.
