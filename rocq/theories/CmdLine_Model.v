(** Model of core/commandline_parser.cpp. Definitions only. Printed warnings,
    usage text and [verboseLevel] are left out. *)
From Verif Require Export StrUtil_Model.
Local Open Scope list_scope.

Definition dash : ascii := ascii_of_nat 45.
Definition equals : ascii := ascii_of_nat 61.

(** core/commandline_parser.cpp:44-54 *)
Definition StripLeadingDashes (s : str) : res str :=
  match s with
  | [] => Ok []
  | _ => match find_first_not_of s [dash] (Some 0) with
         | None => Ok []
         | Some k => substr s k None
         end
  end.

(** OptionObject, core/commandline_parser.cpp:63-148 *)
Record optobj := mkOpt { ob_flag : bool; ob_queue : bool; ob_flagSet : bool; ob_targetSet : bool; ob_targets : list str }.
Definition SetFlag (o : optobj) : optobj :=
  mkOpt (ob_flag o) (ob_queue o) true (ob_targetSet o) (ob_targets o).
Definition StoreTarget (o : optobj) (v : str) : optobj :=
  mkOpt (ob_flag o) (ob_queue o) (ob_flagSet o) true (ob_targets o ++ [v]).

(** CLineParser: [optObjPointers] and [optMap] (a later assignment of the same
    key is found first), argStrings, commandLineEmpty, ignoreUnrecognized *)
Record clp := mkClp {
  cl_objs : list optobj; cl_map : list (str * nat); cl_args : list str;
  cl_empty : bool; cl_ignore : bool }.
Definition newParser : clp := mkClp [] [] [] true true.
Definition UnrecognizedAreErrors (p : clp) : clp :=
  mkClp (cl_objs p) (cl_map p) (cl_args p) (cl_empty p) false.

(** core/commandline_parser.cpp:210-267: AddFlag, AddOption, AddQueueOption, with
    one or two names *)
Definition add_names (names : list str) (k : nat) (m : list (str * nat)) : list (str * nat) :=
  fold_left (fun m n => (n, k) :: m) names m.
Definition AddObj (isFlag isQueue : bool) (names : list str) (p : clp) : clp :=
  mkClp (cl_objs p ++ [mkOpt isFlag isQueue false false []])
        (add_names names (List.length (cl_objs p)) (cl_map p))
        (cl_args p) (cl_empty p) (cl_ignore p).
Definition AddFlag1 s := AddObj true false [s].
Definition AddFlag2 s l := AddObj true false [s; l].
Definition AddOption1 s := AddObj false false [s].
Definition AddOption2 s l := AddObj false false [s; l].
Definition AddQueueOption1 s := AddObj false true [s].
Definition AddQueueOption2 s l := AddObj false true [s; l].

Fixpoint lookup (m : list (str * nat)) (n : str) : option nat :=
  match m with
  | [] => None
  | (k, v) :: t => if str_eqb n k then Some v else lookup t n
  end.

Definition with_objs (p : clp) (o : list optobj) : clp :=
  mkClp o (cl_map p) (cl_args p) (cl_empty p) (cl_ignore p).

(** core/commandline_parser.cpp:278-353, the loop over the remaining words.
    [argv[i][0]] of an empty word is the terminating NUL. *)
Fixpoint parse_args (args : list str) (p : clp) : res (Z * clp) :=
  match args with
  | [] => Ok (0%Z, p)
  | a :: t =>
      let p1 := mkClp (cl_objs p) (cl_map p) (cl_args p) false (cl_ignore p) in
      match a with
      | c :: _ =>
          if ch_eqb c dash then
            do cur <- StripLeadingDashes a;
            if List.length cur <? 1 then Ok ((-1)%Z, p1)
            else
              do ps <- SplitString cur [equals];
              do p0 <- get ps 0;
              match lookup (cl_map p1) p0 with
              | Some k =>
                  do o <- get (cl_objs p1) k;
                  if ob_flag o then
                    do os <- set (cl_objs p1) k (SetFlag o);
                    parse_args t (with_objs p1 os)
                  else if 1 <? List.length ps then
                    do v <- get ps 1;
                    do os <- set (cl_objs p1) k (StoreTarget o v);
                    parse_args t (with_objs p1 os)
                  else
                    match t with
                    | [] => Ok ((-1)%Z, p1)
                    | v :: t' =>
                        do os <- set (cl_objs p1) k (StoreTarget o v);
                        parse_args t' (with_objs p1 os)
                    end
              | None => if cl_ignore p1 then parse_args t p1 else Ok ((-1)%Z, p1)
              end
          else parse_args t (mkClp (cl_objs p) (cl_map p) (cl_args p ++ [a]) false (cl_ignore p))
      | [] => parse_args t (mkClp (cl_objs p) (cl_map p) (cl_args p ++ [a]) false (cl_ignore p))
      end
  end.
Definition ParseCommandLine (argv : list str) (p : clp) : res (Z * clp) := parse_args (tl argv) p.

(** core/commandline_parser.cpp:357-419. Looking up an unknown name in
    GetNTargets dereferences the null pointer that [optMap[...]] creates. *)
Definition FlagSet (p : clp) (n : str) : res bool :=
  match lookup (cl_map p) n with
  | Some k => do o <- get (cl_objs p) k; Ok (ob_flagSet o)
  | None => Ok false
  end.
Definition OptionSet (p : clp) (n : str) : res bool :=
  match lookup (cl_map p) n with
  | Some k => do o <- get (cl_objs p) k; Ok (ob_targetSet o)
  | None => Ok false
  end.
Definition GetNTargets (p : clp) (n : str) : res nat :=
  match lookup (cl_map p) n with
  | Some k => do o <- get (cl_objs p) k; Ok (List.length (ob_targets o))
  | None => Undef
  end.
Definition GetTargetString (p : clp) (n : str) (i : nat) : res str :=
  match lookup (cl_map p) n with
  | Some k => do o <- get (cl_objs p) k; get (ob_targets o) i
  | None => Ok (lit "<NULL>")
  end.
Definition nArguments (p : clp) : nat := List.length (cl_args p).
Definition GetArgument (p : clp) (i : nat) : res str := get (cl_args p) i.
