(** Model of the lines of the bootstrap and Markov-chain output files:
    ModelObject::PrintModelParamsHorizontalString (core/model_object.cpp:1941-1973),
    the column header of core/mcmc_main.cpp:420-431 and the lines of a chain file
    (cdream/dream.cpp:136-145, 461-470). GetParamHeader is in Save_Model.v.
    Definitions only.

    [g10] is the conversion "%#.10g", [show] the output of a double to a stream,
    [dec] the conversion "%d". *)
From Coq Require Import ZArith List Bool.
From Verif Require Export Base Num StrUtil_Model Config_Model Build_Model Save_Model.
Local Open Scope string_scope.
Local Open Scope list_scope.

Section Row.
Variable T : Type.
Variable N : Num T.
Variable g10 show : T -> str.
Variable dec : nat -> str.

(** PrintModelParamsHorizontalString, core/model_object.cpp:1941-1973 *)
Definition PrintModelParamsHorizontalString (m : built) (offX offY : T) (params : list T) (separator : str)
    : res str :=
  do r <- for_ (List.length (b_funcs m)) (fun n '(indexOffset, outputString) =>
      do flag <- get (b_flags m) n;
      do c <- (if (flag : bool) then
                 do px <- get params indexOffset;
                 do py <- get params (indexOffset + 1);
                 let x0 := nadd N px offX in
                 let y0 := nadd N py offY in
                 do s <- (if (n =? 0)%nat then PrintToString (g10 x0 ++ c_str separator ++ g10 y0)
                          else PrintToString (c_str separator ++ g10 x0 ++ c_str separator ++ g10 y0));
                 Ok (indexOffset + 2, outputString ++ s)
               else Ok (indexOffset, outputString));
      let '(indexOffset, outputString) := c in
      do f <- get (b_funcs m) n;
      do outputString <- for_ (List.length (GetParameterNames f)) (fun i outputString =>
           do paramVal <- get params (indexOffset + i);
           do s <- PrintToString (c_str separator ++ g10 paramVal);
           Ok (outputString ++ s)) outputString;
      Ok (indexOffset + List.length (GetParameterNames f), outputString)) (0, []);
  Ok (snd r).

(** the column-header line of a chain file without its newline,
    core/mcmc_main.cpp:424-430 *)
Definition McmcColumnHeader (m : built) (nCR : nat) : res str :=
  do headerString <- GetParamHeader dec m;
  let headerString := headerString ++ lit "  likelihood  burn-in    " in
  do headerString <- for_ (nCR - 1) (fun i headerString =>
      do s <- PrintToString (lit "CR" ++ dec (i + 1) ++ lit "               ");
      Ok (headerString ++ s)) headerString;
  do s <- PrintToString (lit "CR" ++ dec nCR ++ lit "        ");
  Ok (headerString ++ s ++ lit "accept").

(** one line of a chain file without its newline, cdream/dream.cpp:137-144 and
    462-469 (where 1 is the acceptance of the first line) *)
Definition ChainLine (m : built) (offX offY : T) (params : list T) (lik : T) (inBurnIn : bool) (pCR : list T)
    (accept : nat) : res str :=
  do paramString <- PrintModelParamsHorizontalString m offX offY params TAB;
  Ok (paramString ++ lit " " ++ show lik ++ lit " " ++ (if inBurnIn then lit "1" else lit "0") ++ lit " " ++ lit " " ++
      flat_map (fun p => show p ++ lit " ") pCR ++ dec accept).

End Row.
Arguments PrintModelParamsHorizontalString {T}. Arguments ChainLine {T}.
