(** Model of the differential-evolution solver, solvers/DESolver.cpp and
    solvers/diff_evoln_fit.cpp.

    Inputs from outside are arguments: [draw k] is the k-th value returned by
    genrand_real1(), [energy n v] the value the objective function returns on
    its n-th call for the parameter vector [v], [interrupted g] whether the
    user pressed Ctrl-C by the end of generation [g], and [shuffled j i] entry
    [i] of the shuffled index vector of parameter [j] (std::shuffle seeded from
    std::random_device). Printing is left out. *)
From Coq Require Import ZArith List Bool.
From Verif Require Import Base Num.
Import ListNotations.
Set Implicit Arguments.

(** solvers/DESolver.h:27-37; the ten strategies are five ways to form a mutant
    with two crossover loops each. *)
Inductive mutation := Best1 | Rand1 | RandToBest1 | Best2 | Rand2.
Inductive crossover := Exp | Bin.

Section DE.
Variable T : Type.
Variable N : Num T.
Infix "+" := (nadd N). Infix "-" := (nsub N). Infix "*" := (nmul N). Infix "/" := (ndiv N).
Notation "0" := (nofZ N 0).
Notation "1" := (nofZ N 1).

Variable draw : nat -> T.
Variable energy : nat -> list T -> T.
Variable interrupted : nat -> bool.
Variable shuffled : nat -> nat -> Z.
Variable fuel : nat.

(** members of DESolver that Setup fixes: solvers/DESolver.cpp:59-110 *)
Record config := mkCfg {
  nDim : nat; nPop : nat; mut : mutation; cross : crossover;
  scale : T; probability : T; tolerance : T; minBounds : list T; maxBounds : list T }.
(** the other members, the position in the random stream, and (for the
    specification only) the calls of the objective function so far, last first *)
Record dstate := mkDS {
  population : list T; popEnergy : list T; bestSolution : list T; bestEnergy : T;
  rng : nat; calls : list (list T * T) }.

(** solvers/DESolver.cpp:566-573 *)
Definition RandomUniform (lo hi : T) (k : nat) : T * nat := (lo + draw k * (hi - lo), S k).
(** (int)RandomUniform(0.0, (double)n): the conversion of a NaN or infinity is
    undefined. *)
Definition rand_int (n : nat) (k : nat) : res (Z * nat) :=
  let '(u, k') := RandomUniform 0 (nofZ N (Z.of_nat n)) k in
  match ntrunc N u with None => Undef | Some z => Ok (z, k') end.

(** one do ... while loop of solvers/DESolver.cpp:528-561 *)
Fixpoint select_one (f : nat) (n : nat) (avoid : list Z) (k : nat) : res (Z * nat) :=
  match f with
  | O => Fuel
  | S f' =>
    do r <- rand_int n k;
    let '(z, k') := r in
    if existsb (Z.eqb z) avoid then select_one f' n avoid k' else Ok (z, k')
  end.
(** solvers/DESolver.cpp:528-561: [count] of r1 ... r5 requested *)
Fixpoint SelectSamples (count : nat) (n : nat) (avoid : list Z) (k : nat) : res (list Z * nat) :=
  match count with
  | O => Ok ([], k)
  | S c =>
    do r <- select_one fuel n avoid k;
    let '(z, k') := r in
    do r' <- SelectSamples c n (avoid ++ [z]) k';
    let '(zs, k'') := r' in Ok (z :: zs, k'')
  end.

Section Solver.
Variable c : config.
(** solvers/DESolver.cpp:49 *)
Definition Element (pop : list T) (i j : Z) : res T := getZ pop (i * Z.of_nat (nDim c) + j)%Z.

Definition nSamples : nat := match mut c with Best1 | RandToBest1 => 2 | Rand1 => 3 | Best2 => 4 | Rand2 => 5 end.
(** the assignments to trialSolution[n] in solvers/DESolver.cpp:317-525;
    [r i] is r_{i+1} *)
Definition mutant (pop best trial : list T) (rs : list Z) (n : Z) : res T :=
  let e i := (do r <- get rs i; Element pop r n) in
  match mut c with
  | Best1 => do b <- getZ best n; do a1 <- e 0%nat; do a2 <- e 1%nat; Ok (b + scale c * (a1 - a2))
  | Rand1 => do a1 <- e 0%nat; do a2 <- e 1%nat; do a3 <- e 2%nat; Ok (a1 + scale c * (a2 - a3))
  | RandToBest1 => do t <- getZ trial n; do b <- getZ best n; do a1 <- e 0%nat; do a2 <- e 1%nat;
                   Ok (t + (scale c * (b - t) + scale c * (a1 - a2)))
  | Best2 => do b <- getZ best n; do a1 <- e 0%nat; do a2 <- e 1%nat; do a3 <- e 2%nat; do a4 <- e 3%nat;
             Ok (b + scale c * (a1 + a2 - a3 - a4))
  | Rand2 => do a1 <- e 0%nat; do a2 <- e 1%nat; do a3 <- e 2%nat; do a4 <- e 3%nat; do a5 <- e 4%nat;
             Ok (a1 + scale c * (a2 + a3 - a4 - a5))
  end.
Definition next_dim (n : Z) : Z := ((n + 1) mod Z.of_nat (nDim c))%Z.

(** the loop [for (i = 0; (RandomUniform(0,1) < probability) && (i < nDim); i++)];
    [left] = nDim - i *)
Fixpoint exp_loop (left : nat) (pop best : list T) (rs : list Z) (n : Z) (trial : list T) (k : nat) : res (list T * nat) :=
  let '(u, k') := RandomUniform 0 1 k in
  if nltb N u (probability c) then
    match left with
    | O => Ok (trial, k')
    | S left' =>
      do v <- mutant pop best trial rs n;
      do trial' <- setZ trial n v;
      exp_loop left' pop best rs (next_dim n) trial' k'
    end
  else Ok (trial, k').
(** the loop of the Bin strategies *)
Fixpoint bin_loop (left : nat) (pop best : list T) (rs : list Z) (n : Z) (trial : list T) (k : nat) : res (list T * nat) :=
  match left with
  | O => Ok (trial, k)
  | S left' =>
    let '(u, k') := RandomUniform 0 1 k in
    if (nltb N u (probability c) || (left' =? 0)%nat)%bool then
      do v <- mutant pop best trial rs n;
      do trial' <- setZ trial n v;
      bin_loop left' pop best rs (next_dim n) trial' k'
    else bin_loop left' pop best rs (next_dim n) trial k'
  end.

Definition row (pop : list T) (cand : nat) : list T := firstn (nDim c) (skipn (cand * nDim c)%nat pop).
(** solvers/DESolver.cpp:162-206 with 317-525 *)
Definition CalcTrialSolution (s : dstate) (cand : nat) : res (list T * nat) :=
  do r <- SelectSamples nSamples (nPop c) [Z.of_nat cand] (rng s);
  let '(rs, k) := r in
  do r <- rand_int (nDim c) k;
  let '(n, k) := r in
  let trial := row (population s) cand in
  match cross c with
  | Exp => exp_loop (nDim c) (population s) (bestSolution s) rs n trial k
  | Bin => bin_loop (nDim c) (population s) (bestSolution s) rs n trial k
  end.

(** solvers/DESolver.cpp:231-236, one parameter *)
Definition bring_back (lo hi old t : T) (k : nat) : T * nat :=
  let '(t, k) := if nltb N t lo then (let '(u, k') := RandomUniform 0 1 k in (lo + u * (old - lo), k')) else (t, k) in
  if nltb N hi t then (let '(u, k') := RandomUniform 0 1 k in (hi - u * (hi - old), k')) else (t, k).
(** solvers/DESolver.cpp:228-236 *)
Definition enforce_bounds (oldValues trial : list T) (k : nat) : res (list T * nat) :=
  for_ (nDim c) (fun j '(tr, k) =>
    do t <- get tr j; do lo <- get (minBounds c) j; do hi <- get (maxBounds c) j; do old <- get oldValues j;
    let '(t', k') := bring_back lo hi old t k in
    do tr' <- set tr j t'; Ok (tr', k')) (trial, k).

(** CopyVector(RowVector(population, cand), v) *)
Definition write_row (pop v : list T) (cand : nat) : list T :=
  firstn (cand * nDim c)%nat pop ++ v ++ skipn (cand * nDim c + nDim c)%nat pop.

(** the body of the candidate loop, solvers/DESolver.cpp:222-251 *)
Definition candidate_step (cand : nat) (s : dstate) : res dstate :=
  do r <- CalcTrialSolution s cand;
  let '(trial, k) := r in
  let oldValues := row (population s) cand in
  do r <- enforce_bounds oldValues trial k;
  let '(trial, k) := r in
  let e := energy (length (calls s)) trial in
  let cs := (trial, e) :: calls s in
  do pe <- get (popEnergy s) cand;
  if nltb N e pe then
    do pE <- set (popEnergy s) cand e;
    let pop := write_row (population s) trial cand in
    if nltb N e (bestEnergy s) then Ok (mkDS pop pE trial e k cs)
    else Ok (mkDS pop pE (bestSolution s) (bestEnergy s) k cs)
  else Ok (mkDS (population s) (popEnergy s) (bestSolution s) (bestEnergy s) k cs).

(** solvers/DESolver.cpp:579-586 *)
Definition TestConverged (d : T * T * T) (ftol : T) : bool :=
  let '(d0, d1, d2) := d in (nltb N d0 ftol && nltb N d1 ftol && nltb N d2 ftol)%bool.

Definition DE_CONVERGED : Z := 1.
Definition DE_MAX_ITERATIONS : Z := 5.
Definition DE_SIGINT : Z := 100.

(** solvers/DESolver.cpp:262-295: bookkeeping after a generation: the new
    [relativeDeltas], [lastBestEnergy], and whether to stop *)
Definition convergence (g : nat) (deltas : T * T * T) (last best : T) : (T * T * T) * T * bool :=
  if (g mod 10 =? 0)%nat then
    let '(d0, d1, d2) := deltas in
    let rel := nabs N (1 - last / best) in
    if (g =? 20)%nat then ((rel, d1, d2), best, false)
    else if (g =? 30)%nat then ((rel, d0, d2), best, false)
    else if (40 <=? g)%nat then
      let d := (rel, d0, d1) in
      if TestConverged d (tolerance c) then (d, last, true) else (d, best, false)
    else (deltas, best, false)
  else (deltas, last, false).

(** solvers/DESolver.cpp:219-305: result (status, generations, state) *)
Fixpoint generations_loop (left g : nat) (deltas : T * T * T) (last : T) (s : dstate) : res (Z * nat * dstate) :=
  match left with
  | O => Ok (DE_MAX_ITERATIONS, g, s)
  | S left' =>
    do s <- for_ (nPop c) candidate_step s;
    if interrupted g then Ok (DE_SIGINT, g, s)
    else
      let '(deltas, last, stop) := convergence g deltas last (bestEnergy s) in
      if stop then Ok (DE_CONVERGED, g, s) else generations_loop left' (S g) deltas last s
  end.
Definition BIG : T := nofZ N (10 ^ 20).
(** solvers/DESolver.cpp:209-306 *)
Definition Solve (maxGenerations : nat) (s : dstate) : res (Z * nat * dstate) :=
  generations_loop maxGenerations O (nofZ N 100, nofZ N 100, nofZ N 100) BIG
    (mkDS (population s) (popEnergy s) (bestSolution s) BIG (rng s) (calls s)).

(** solvers/DESolver.cpp:111-158. The population is filled row by row, so
    writing an element is appending it. *)
Definition Setup (useLHS : bool) (k : nat) : res dstate :=
  do r <- for_ (nPop c) (fun i '(pop, k) =>
    for_ (nDim c) (fun j '(pop, k) =>
      do lo <- get (minBounds c) j; do hi <- get (maxBounds c) j;
      if useLHS then
        let intervalSize := (hi - lo) / nofZ N (Z.of_nat (nPop c)) in
        let p := draw k in
        Ok (pop ++ [lo + (nofZ N (shuffled j i) + p) * intervalSize], S k)
      else let '(v, k') := RandomUniform lo hi k in Ok (pop ++ [v], k')) (pop, k)) ([], k);
  let '(pop, k) := r in
  Ok (mkDS pop (repeat BIG (nPop c)) (repeat 0 (nDim c)) 0 k []).
End Solver.

(** solvers/diff_evoln_fit.cpp:101-175. Limits: core/param_struct.h:44-81
    (the members used here). *)
Record limits := mkLim { fixed : bool; limited0 : bool; limited1 : bool; lim0 : T; lim1 : T }.
Definition nFree (lims : list limits) : nat := length (filter (fun l => negb (fixed l)) lims).
Definition bounds (params : list T) (lims : list limits) : res (list T * list T * bool) :=
  for_ (length params) (fun i '(los, his, ok) =>
    do p <- get params i; do l <- get lims i;
    if fixed l then Ok (los ++ [p], his ++ [p], ok)
    else if (limited0 l && limited1 l)%bool then Ok (los ++ [lim0 l], his ++ [lim1 l], ok)
    else Ok (los ++ [0], his ++ [0], false)) ([], [], true).
Definition POP_SIZE_PER_PARAMETER : nat := 8.
(** status, resulting parameter vector, and the final solver state if it ran *)
Definition DiffEvolnFit (params : list T) (lims : list limits) (ftol : T) (useLHS : bool) (maxGenerations : nat) (k : nat)
  : res (Z * list T * option dstate) :=
  do r <- bounds params lims;
  let '(los, his, ok) := r in
  if negb ok then Ok ((-2)%Z, params, None)
  else
    let c := mkCfg (length params) (POP_SIZE_PER_PARAMETER * nFree lims)%nat RandToBest1 Exp (ndec N 7 1) (nofZ N 1) ftol los his in
    do s <- Setup c useLHS k;
    do r <- Solve c maxGenerations s;
    let '(status, g, s) := r in
    Ok (status, bestSolution s, Some s).
End DE.
Arguments RandomUniform {T} N. Arguments rand_int {T} N. Arguments select_one {T} N. Arguments SelectSamples {T} N.
Arguments Element {T}. Arguments nSamples {T}. Arguments mutant {T} N. Arguments next_dim {T}. Arguments exp_loop {T} N.
Arguments bin_loop {T} N. Arguments row {T}. Arguments CalcTrialSolution {T} N. Arguments bring_back {T} N.
Arguments enforce_bounds {T} N. Arguments write_row {T}. Arguments candidate_step {T} N. Arguments TestConverged {T} N.
Arguments convergence {T} N. Arguments generations_loop {T} N. Arguments BIG {T} N. Arguments Solve {T} N. Arguments Setup {T} N.
Arguments nFree {T}. Arguments bounds {T} N. Arguments DiffEvolnFit {T} N.
Arguments mkCfg {T}. Arguments nDim {T}. Arguments nPop {T}. Arguments mut {T}. Arguments cross {T}. Arguments scale {T}.
Arguments probability {T}. Arguments tolerance {T}. Arguments minBounds {T}. Arguments maxBounds {T}.
Arguments mkDS {T}. Arguments population {T}. Arguments popEnergy {T}. Arguments bestSolution {T}. Arguments bestEnergy {T}.
Arguments rng {T}. Arguments calls {T}. Arguments mkLim {T}. Arguments fixed {T}. Arguments limited0 {T}. Arguments limited1 {T}.
Arguments lim0 {T}. Arguments lim1 {T}.
