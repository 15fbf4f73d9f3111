(** Model of the front ends to the NLopt library and of the dispatch to the
    solvers: solvers/nmsimplex_fit.cpp, solvers/nlopt_fit.cpp,
    solvers/dispatch_solver.cpp. Definitions only. Printing is left out.

    NLopt itself is not modelled: it is an argument. An optimisation is a tree
    of questions: NLopt asks for the value of the objective function at a point,
    learns the value and whether nlopt_force_stop() has been called by then, and
    goes on, until it answers with a status, a point and a value. *)
From Coq Require Import ZArith List Bool String.
From Verif Require Import Base Num.
Import ListNotations.
Set Implicit Arguments.

(** The algorithms of nlopt.h named in nlopt_fit.cpp:89-97 *)
Inductive Algorithm :=
  LN_COBYLA | LN_BOBYQA | LN_NEWUOA_BOUND | LN_PRAXIS | LN_NELDERMEAD | LN_SBPLX.

Section Nlopt.
Variable T : Type.
Variable N : Num T.

Inductive Run :=
| Ask (x : list T) (go_on : T -> bool -> Run)
| Done (status : Z) (x : list T) (f : T).

(** core/param_struct.h:44-81, the members used here *)
Record Limits := mkLimits { fixed : bool; limited0 : bool; limited1 : bool; lim0 : T; lim1 : T }.

(** What is set on the nlopt_opt object: nmsimplex_fit.cpp:198-216,
    nlopt_fit.cpp:295-312. [None] as a bound stands for -HUGE_VAL or HUGE_VAL.
    The three tolerances are all [ftol]. *)
Record Settings := mkSettings {
  algorithm : Algorithm; lower : list (option T); upper : list (option T);
  tol : T; maxeval : Z }.

Definition Library := Settings -> list T -> Run.

(** nmsimplex_fit.cpp:180-195 and nlopt_fit.cpp:277-292: bounds of one parameter *)
Definition bounds_of (value : T) (l : Limits) : option T * option T :=
  if fixed l then (Some value, Some value)
  else if limited0 l && limited1 l then (Some (lim0 l), Some (lim1 l))
  else (None, None).

(** the loop over all parameters; [nParamsTot] bounds are filled in *)
Definition make_bounds (nParamsTot : nat) (paramVector : list T) (parameterLimits : list Limits)
    : res (list (option T) * list (option T)) :=
  for_ nParamsTot (fun i b =>
    do l <- get parameterLimits i;
    do v <- get paramVector i;
    let (lo, hi) := bounds_of v l in
    Ok (fst b ++ [lo], snd b ++ [hi])) ([], []).

(** int multiplication *)
Definition int_mul (a b : Z) : res Z :=
  let p := (a * b)%Z in
  if ((- 2 ^ 31 <=? p)%Z && (p <=? 2 ^ 31 - 1)%Z)%bool then Ok p else Undef.

Definition is_nan (x : T) : bool := negb (neqb N x x).

(** nlopt_optimize() with the objective function myfunc_nlopt
    (nmsimplex_fit.cpp:85-122) or myfunc_nlopt_gen (nlopt_fit.cpp:117-153).
    [stat] is GetFitStatistic, [interrupted n] whether the user has asked to
    stop by the n-th call, [count] the static counter funcCallCount. Returns
    NLopt's answer, the counter and, for the specification only, the points at
    which the function was evaluated with their values. *)
Fixpoint optimize (stat : list T -> T) (interrupted : nat -> bool) (r : Run) (n : nat) (count : Z)
    : (Z * list T * T) * Z * list (list T * T) :=
  match r with
  | Done status x f => ((status, x, f), count, [])
  | Ask x go_on =>
      let v := stat x in
      let stop := (is_nan v || interrupted n)%bool in
      let '(a, c, tr) := optimize stat interrupted (go_on v stop) (S n) (count + 1) in
      (a, c, (x, v) :: tr)
  end.

(** What is left in the SolverResults object *)
Record Report := mkReport { rp_solver : Z; rp_evals : Z; rp_best : T; rp_initial : T }.

(** What a fit returns: status, parameter vector, the report, and (for the
    specification) the settings given to NLopt and the evaluations. *)
Record Outcome := mkOutcome {
  oc_status : Z; oc_params : list T; oc_report : option Report;
  oc_settings : option Settings; oc_trace : list (list T * T) }.

Definition MAXEVAL_BASE : Z := 10000.  (* nmsimplex_fit.cpp:67, nlopt_fit.cpp *)

(** The common body: nmsimplex_fit.cpp:169-245 with
    algorithm NLOPT_LN_NELDERMEAD, nlopt_fit.cpp:273-336. [results] says whether
    a SolverResults object was supplied. *)
Definition fit_with (alg : Algorithm) (solverID : Z) (lib : Library)
    (stat : list T -> T) (interrupted : nat -> bool)
    (nParamsTot : nat) (paramVector : list T) (parameterLimits : list Limits) (ftol : T)
    (results : bool) (count : Z) : res (Outcome * Z) :=
  do b <- make_bounds nParamsTot paramVector parameterLimits;
  do me <- int_mul (Z.of_nat nParamsTot) MAXEVAL_BASE;
  let s := mkSettings alg (fst b) (snd b) ftol me in
  let initial := stat paramVector in
  let '((status, x, f), c, tr) := optimize stat interrupted (lib s paramVector) 0 count in
  Ok (mkOutcome status x (if results then Some (mkReport solverID c f initial) else None) (Some s) tr, c).

(** NMSimplexFit, nmsimplex_fit.cpp:165-246. core/definitions.h:69 *)
Definition NMSimplexFit := fit_with LN_NELDERMEAD 3.

(** PopulateAlgorithmMap, nlopt_fit.cpp:89-97 *)
Open Scope string_scope.
Definition algorithmMap : list (string * Algorithm) :=
  [("COBYLA", LN_COBYLA); ("BOBYQA", LN_BOBYQA); ("NEWUOA", LN_NEWUOA_BOUND);
   ("PRAXIS", LN_PRAXIS); ("NM", LN_NELDERMEAD); ("SBPLX", LN_SBPLX)].
Close Scope string_scope.

Fixpoint find_algorithm (m : list (string * Algorithm)) (name : string) : option Algorithm :=
  match m with
  | [] => None
  | (k, a) :: t => if String.eqb k name then Some a else find_algorithm t name
  end.

(** ValidNLOptSolverName, nlopt_fit.cpp:100-111 *)
Definition ValidNLOptSolverName (name : string) : bool :=
  match find_algorithm algorithmMap name with Some _ => true | None => false end.

(** NLOptFit, nlopt_fit.cpp:249-336. definitions.h:71. An unknown name returns
    -1 before anything else is done. *)
Definition NLOptFit (name : string) (lib : Library) stat interrupted nParamsTot paramVector
    parameterLimits ftol results count : res (Outcome * Z) :=
  match find_algorithm algorithmMap name with
  | None => Ok (mkOutcome (-1) paramVector None None [], count)
  | Some a => fit_with a 5 lib stat interrupted nParamsTot paramVector parameterLimits ftol results count
  end.

(** DispatchToSolver, dispatch_solver.cpp:48-87, compiled with NLopt. The four
    solvers are arguments. *)
Definition DispatchToSolver {A} (levmar de nm nlopt : A) (none : A) (solverID : Z) : A :=
  (if solverID =? 1 then levmar
   else if solverID =? 2 then de
   else if solverID =? 3 then nm
   else if solverID =? 5 then nlopt
   else none)%Z.

(** A series of fits in one process (e.g. bootstrap resampling,
    core/bootstrap_errors.cpp): the counter is a static variable which nothing
    resets (nmsimplex_fit.cpp:77, nlopt_fit.cpp:82). *)
Fixpoint fits (fit : Z -> res (Outcome * Z)) (n : nat) (count : Z) : res (list Outcome) :=
  match n with
  | O => Ok []
  | S m =>
      do r <- fit count;
      let '(o, c) := r in
      do rest <- fits fit m c;
      Ok (o :: rest)
  end.

End Nlopt.
