(** Property C45: what is passed to Nelder-Mead and the other NLopt solvers.
    The arithmetic [N] is arbitrary (so IEEE binary64 with any values), and so
    is NLopt, up to the contracts named in each theorem. [fit_with] is the body
    common to NMSimplexFit and NLOptFit. *)
From Coq Require Import ZArith List Bool String Lia Reals Lra.
From Verif Require Import Nlopt_Spec Nlopt_Proof.
Import ListNotations.

(** Fixed parameters get equal bounds, both at the starting value; two-sided
    limits are passed on; a parameter without limits gets infinite bounds; the
    tolerance and the evaluation limit are as documented. *)
Theorem C45_bounds : forall T (N : Num T) a id lib stat intr n start ls ftol rs c o c',
  List.length start = n -> List.length ls = n ->
  fit_with N a id lib stat intr n start ls ftol rs c = Ok (o, c') ->
  exists s, oc_settings o = Some s /\ algorithm s = a /\ tol s = ftol /\ maxeval s = (Z.of_nat n * 10000)%Z /\
    List.length (lower s) = n /\ List.length (upper s) = n /\
    forall i v l, nth_error start i = Some v -> nth_error ls i = Some l ->
      (fixed l = true -> nth i (lower s) None = Some v /\ nth i (upper s) None = Some v) /\
      (fixed l = false -> limited0 l = true -> limited1 l = true ->
         nth i (lower s) None = Some (lim0 l) /\ nth i (upper s) None = Some (lim1 l)) /\
      (fixed l = false -> limited0 l = false -> limited1 l = false ->
         nth i (lower s) None = None /\ nth i (upper s) None = None).
Proof. exact bounds_proof. Qed.
Print Assumptions C45_bounds.

(** Every parameter vector at which the fit statistic is evaluated, and the
    final one, satisfies the user's limits and keeps the fixed parameters,
    provided NLopt respects the bounds it is given, limits come in pairs and the
    starting vector is within them. *)
Theorem C45_within : forall T (N : Num T) a id lib stat intr n start ls ftol rs c o c',
  respects_bounds N lib -> List.length start = n -> List.length ls = n -> Forall (@two_sided T) ls ->
  acceptable N start ls start ->
  fit_with N a id lib stat intr n start ls ftol rs c = Ok (o, c') ->
  forall x, x = oc_params o \/ In x (map fst (oc_trace o)) -> acceptable N start ls x.
Proof. exact within_proof. Qed.
Print Assumptions C45_within.

Example C45_library_case : respects_bounds NumR lib1. Proof. exact lib1_ok. Qed.
Example C45_start_case :
  acceptable NumR [1; 2]%R [mkLimits false true true 0 3; mkLimits true false false 0 0]%R [1; 2]%R /\
  Forall (@two_sided _) [mkLimits false true true 0 3; mkLimits true false false 0 0]%R.
Proof.
  split; [split; [reflexivity|]|].
  - intros [|[|[|i]]] v l s Hv Hl Hs; cbn in *; try discriminate;
      injection Hv as <-; injection Hl as <-; injection Hs as <-; cbn; split; apply Rleb_true; lra.
  - constructor; [right; reflexivity|]. constructor; [left; reflexivity|constructor].
Qed.

(** One-sided limits are dropped: with a lower limit of 0 only, NLopt gets no
    bounds at all, and a library that respects the bounds it is given may
    return -1. *)
Theorem C45_one_sided_refuted : exists lib start ls,
  respects_bounds NumR lib /\ List.length start = 1%nat /\ List.length ls = 1%nat /\
  acceptable NumR start ls start /\
  exists o c', fit_with NumR LN_NELDERMEAD 3 lib (fun _ => 0%R) (fun _ => false) 1 start ls 0%R true 0 = Ok (o, c') /\
    ~ acceptable NumR start ls (oc_params o).
Proof. exact one_sided_proof. Qed.
Print Assumptions C45_one_sided_refuted.

(** The fits never fail for up to 200000 parameters. *)
Theorem C45_defined : forall T (N : Num T) a id lib stat intr n start ls ftol rs c,
  List.length start = n -> List.length ls = n -> (n <= Z.to_nat 200000)%nat ->
  exists o c', fit_with N a id lib stat intr n start ls ftol rs c = Ok (o, c').
Proof. exact fit_defined. Qed.
Print Assumptions C45_defined.

(** A not-a-number fit statistic, or the user's interrupt, ends the fit at once
    with status -5, provided NLopt honours nlopt_force_stop. *)
Theorem C45_stop : forall T (N : Num T) a id lib stat intr n start ls ftol rs c o c',
  honours_force_stop lib ->
  fit_with N a id lib stat intr n start ls ftol rs c = Ok (o, c') ->
  forall k p, nth_error (oc_trace o) k = Some p -> (is_nan N (snd p) = true \/ intr k = true) ->
    oc_status o = (-5)%Z /\ List.length (oc_trace o) = S k.
Proof. exact stop_proof. Qed.
Print Assumptions C45_stop.
Example C45_stop_case : forall T (x : list T) (z : T),
  obeys_stop (Ask x (fun v stop => if stop then Done (-5) x z else Done 1 x v)).
Proof. intros. constructor; intros; [eauto|constructor]. Qed.

(** The report: the initial value is the statistic at the starting vector. The
    number of evaluations is that of this fit plus whatever the counter held
    before. *)
Theorem C45_report : forall T (N : Num T) a id lib stat intr n start ls ftol c o c',
  fit_with N a id lib stat intr n start ls ftol true c = Ok (o, c') ->
  exists r, oc_report o = Some r /\ rp_solver r = id /\ rp_initial r = stat start /\
    rp_evals r = (c + Z.of_nat (List.length (oc_trace o)))%Z /\ c' = rp_evals r /\
    Forall (fun p => snd p = stat (fst p)) (oc_trace o).
Proof. exact report_proof. Qed.
Print Assumptions C45_report.

(** ... so in a series of fits the k-th reports the evaluations of all the fits
    up to it: only the first report is right. *)
Theorem C45_counts_refuted : forall T (N : Num T) a id lib stat intr np start ls ftol n os,
  fits (fit_with N a id lib stat intr np start ls ftol true) n 0 = Ok os ->
  forall k o, nth_error os k = Some o -> exists r, oc_report o = Some r /\
    rp_evals r = Z.of_nat (List.length (flat_map (@oc_trace T) (firstn (S k) os))).
Proof. exact counts_proof. Qed.
Print Assumptions C45_counts_refuted.
Example C45_counts_case : exists o1 o2,
  fits (fit_with NumR LN_NELDERMEAD 3 (fun _ _ => Ask [0%R] (fun v _ => Done 1 [0%R] v)) (fun _ => 0%R)
    (fun _ => false) 0 [] [] 0%R true) 2 0 = Ok [o1; o2] /\
  List.length (oc_trace o2) = 1%nat /\ option_map (@rp_evals _) (oc_report o2) = Some 2%Z.
Proof. do 2 eexists. split; [reflexivity|]. split; reflexivity. Qed.

(** Algorithm names: exactly six are valid, they select different algorithms,
    and any other name is rejected before anything is evaluated. *)
Theorem C45_names : forall name, ValidNLOptSolverName name = true <->
  In name ["COBYLA"; "BOBYQA"; "NEWUOA"; "PRAXIS"; "NM"; "SBPLX"]%string.
Proof. exact names_proof. Qed.
Print Assumptions C45_names.
Theorem C45_distinct : forall n1 n2 a,
  find_algorithm algorithmMap n1 = Some a -> find_algorithm algorithmMap n2 = Some a -> n1 = n2.
Proof. exact distinct_proof. Qed.
Print Assumptions C45_distinct.
Theorem C45_unknown : forall T (N : Num T) name lib stat intr n start ls ftol rs c,
  ~ In name ["COBYLA"; "BOBYQA"; "NEWUOA"; "PRAXIS"; "NM"; "SBPLX"]%string ->
  exists o, NLOptFit N name lib stat intr n start ls ftol rs c = Ok (o, c) /\
    oc_status o = (-1)%Z /\ oc_params o = start /\ oc_trace o = [].
Proof. exact unknown_proof. Qed.
Print Assumptions C45_unknown.
Theorem C45_selected : forall T (N : Num T) name lib stat intr n start ls ftol rs c o c',
  List.length start = n -> List.length ls = n ->
  NLOptFit N name lib stat intr n start ls ftol rs c = Ok (o, c') ->
  forall s, oc_settings o = Some s ->
  algorithm s = match name with
    | "COBYLA" => LN_COBYLA | "BOBYQA" => LN_BOBYQA | "NEWUOA" => LN_NEWUOA_BOUND
    | "PRAXIS" => LN_PRAXIS | "NM" => LN_NELDERMEAD | _ => LN_SBPLX end%string.
Proof. exact selected_proof. Qed.
Print Assumptions C45_selected.

(** The dispatcher calls the solver that belongs to the number and nothing for
    any other number. *)
Theorem C45_dispatch : forall A (levmar de nm nlopt none : A) id,
  DispatchToSolver levmar de nm nlopt none id =
    match id with 1 => levmar | 2 => de | 3 => nm | 5 => nlopt | _ => none end%Z.
Proof. exact dispatch_proof. Qed.
Print Assumptions C45_dispatch.
