(** Model of the second half of imfit and imfit-mcmc: from the model object that
    SetupModelObject returned and the model functions that AddFunctions added to the
    solver, and from the solver to the files that are written. core/imfit_main.cpp,
    core/mcmc_main.cpp, core/print_results.cpp and the output methods of
    core/model_object.cpp. Definitions only. Messages are left out, except the numbers that
    imfit prints with --fitstat-only; opening and writing files always succeeds. *)
From Coq Require Import ZArith List Bool Ascii String.
From Verif Require Export Base Num Stats_Model Fit_Model StrUtil_Model Config_Model Build_Model Save_Model Opt_Model Start_Model.
From Verif Require Boot_Model.
Import ListNotations.
Local Open Scope list_scope.

(** core/imfit_main.cpp:94-95 and core/mcmc_main.cpp:83-84 *)
Definition X0_string : str := lit "X0".
Definition Y0_string : str := lit "Y0".
(** core/definitions.h:38, core/options_imfit.h:35 *)
Definition interruptedParameterFileName : str := lit "current_parameters_imfit.dat".

Section Handover.
  Variable T : Type.
  Variable N : Num T.

  Definition move_limits (p : mp_par T) (d : T) : mp_par T :=
    mkPar (p_fixed p) (p_lim0 p) (p_lim1 p) (nsub N (p_lo p) d) (nsub N (p_hi p) d).

  (** core/imfit_main.cpp:293-305 and core/mcmc_main.cpp:308-319: the limits of the
      centres. [parameterInfo[i].offset] is not used afterwards. *)
  Definition move_infos (b : built) (offset : Z * Z) (info : list (mp_par T)) : res (list (mp_par T)) :=
    for_ (b_nParamsTot b) (fun i info =>
      do name <- GetParameterName b i;
      if str_eqb name X0_string then
        do p <- get info i; set info i (move_limits p (nofZ N (fst offset)))
      else if str_eqb name Y0_string then
        do p <- get info i; set info i (move_limits p (nofZ N (snd offset)))
      else Ok info) info.
  (** core/imfit_main.cpp:294-295 and core/mcmc_main.cpp:262-265 *)
  Definition count_free (nParamsTot : nat) (info : list (mp_par T)) : res Z :=
    for_ nParamsTot (fun i nFree =>
      do p <- get info i; Ok (if p_fixed p then nFree - 1 else nFree)%Z) (Z.of_nat nParamsTot).
  (** core/imfit_main.cpp:346-354 and core/mcmc_main.cpp:357-366 *)
  Definition start_values (b : built) (offset : Z * Z) (parameterList : list T) : res (list T) :=
    for_ (b_nParamsTot b) (fun i v =>
      do name <- GetParameterName b i;
      do x <- get parameterList i;
      if str_eqb name X0_string then set v i (nsub N x (nofZ N (fst offset)))
      else if str_eqb name Y0_string then set v i (nsub N x (nofZ N (snd offset)))
      else set v i x) (repeat (nofZ N 0) (b_nParamsTot b)).

  (** what the solver gets besides the model object *)
  Record handover := mkHand { h_start : list T; h_info : list (mp_par T); h_free : Z }.

  (** core/imfit_main.cpp:252-354: [inl] is the exit status *)
  Definition begin_imfit (b : built) (offset : Z * Z) (po : pout T) (obj : mobj T)
    : res (Z + handover * mobj T) :=
    if negb (b_nParamsTot b =? List.length (o_params po))%nat then Ok (inl (-1)%Z)
    else
    do r <- FinalSetupForFitting N obj;
    let (status, obj) := r : Z * mobj T in
    if (status <? 0)%Z then Ok (inl (-1)%Z)
    else if (b_nParamsTot b <=? 0)%nat then Ok (inl (-1)%Z)
    else
    do nFree <- count_free (b_nParamsTot b) (o_limits po);
    do info <- move_infos b offset (o_limits po);
    do start <- start_values b offset (o_params po);
    Ok (inr (mkHand start info nFree, obj)).

  (** what the sampler of imfit-mcmc gets *)
  Record sampling := mkSampling {
    d_hand : handover;
    d_lock : list bool; d_low : list T; d_high : list T;
    d_names : list str; d_chains : Z }.

  (** core/mcmc_main.cpp:251-400: [inl] is the exit status; [nChains] is the option *)
  Definition begin_mcmc (b : built) (offset : Z * Z) (po : pout T) (obj : mobj T) (nChains : Z)
    : res (Z + sampling * mobj T) :=
    if negb (b_nParamsTot b =? List.length (o_params po))%nat then Ok (inl (-1)%Z)
    else
    do nFree <- count_free (b_nParamsTot b) (o_limits po);
    do r <- FinalSetupForFitting N obj;
    let (status, obj) := r : Z * mobj T in
    if (status <? 0)%Z then Ok (inl (-1)%Z)
    else
    do ok <- for_ (b_nParamsTot b) (fun i ok =>
        do p <- get (o_limits po) i;
        Ok (if negb (p_fixed p) && (negb (p_lim0 p) || negb (p_lim1 p)) then false else ok)) true;
    if negb ok then Ok (inl (-2)%Z)
    else if (b_nParamsTot b <=? 0)%nat then Ok (inl (-1)%Z)
    else
    do info <- move_infos b offset (o_limits po);
    do start <- start_values b offset (o_params po);
    do l <- for_ (b_nParamsTot b) (fun i '(lock, low, high, names) =>
        do p <- get info i;
        do name <- GetParameterName b i;
        if p_fixed p then do v <- get start i; Ok (lock ++ [true], low ++ [v], high ++ [v], names ++ [name])
        else Ok (lock ++ [false], low ++ [p_lo p], high ++ [p_hi p], names ++ [name])) ([], [], [], []);
    let '(lock, low, high, names) := l in
    Ok (inr (mkSampling (mkHand start info nFree) lock low high names
               (if (nChains <=? 0)%Z then nFree else nChains), obj)).
End Handover.
Arguments mkHand {T}. Arguments h_start {T}. Arguments h_info {T}. Arguments h_free {T}.
Arguments mkSampling {T}. Arguments d_hand {T}. Arguments d_lock {T}. Arguments d_low {T}. Arguments d_high {T}.
Arguments d_names {T}. Arguments d_chains {T}. Arguments move_limits {T}. Arguments move_infos {T}. Arguments count_free {T}.
Arguments start_values {T}. Arguments begin_imfit {T}. Arguments begin_mcmc {T}.

(** A solver, seen from the model object: it asks for the fit statistic (GetFitStatistic)
    or the deviates (ComputeDeviates) at parameter vectors of its choice, and finishes. *)
Inductive session (T A : Type) :=
| Finished (a : A)
| AskStatistic (p : list T) (k : T -> session T A)
| AskDeviates (p : list T) (k : list T -> session T A).
Arguments Finished {T A}. Arguments AskStatistic {T A}. Arguments AskDeviates {T A}.

(** What DispatchToSolver leaves behind: its status, paramsVect, the errors of the
    SolverResults object, and whether Ctrl-C was pressed. *)
Record fitted (T : Type) := mkFitted { r_status : Z; r_params : list T; r_errors : option (list T); r_stopped : bool }.
Arguments mkFitted {T}. Arguments r_status {T}. Arguments r_params {T}. Arguments r_errors {T}. Arguments r_stopped {T}.

(** what a run leaves behind, in the order in which it is written *)
Inductive output (T : Type) :=
| OStatistic (v : T) (reduced : option T) (aic bic : T)     (* printed with --fitstat-only *)
| OParameters (name text : str)
| OBootstrap (name head : str) (rows : list (list T))
| OImage (name : str) (cols rows : nat) (pixels : list T).
Arguments OStatistic {T}. Arguments OParameters {T}. Arguments OBootstrap {T}. Arguments OImage {T}.

Section Finish.
  Variable T : Type.
  Variable N : Num T.
  (** The model image: the state that CreateModelImage keeps from call to call, and the
      image (modelVector) it computes for a parameter vector (core/model_object.cpp:1108-1190,
      modelled in Image_Model.v). *)
  Variable IS : Type.
  Variable create : IS -> list T -> res (IS * list T).
  (** printf's %.4f, %g, %.5g as in Save_Model; %f *)
  Variables f4 g g5 f6 : T -> str.
  (** "%d" *)
  Variable dec : nat -> str.
  (** print_results.cpp:186-217 GetSolverSummary: solver and status *)
  Variable summary : Z -> Z -> str.
  (** the C library's qsort and time(), and the stream of genrand_real2 values after
      init_genrand(seed) *)
  Variable qsort : list T -> list T.
  Variable clock : Z.
  Variable draws : Z -> nat -> T.
  (** bound on the rejected draws of MakeBootstrapSample *)
  Variable fuel : nat.

  (** the model object during the fit: data, weights, ... ; state of the model image; the
      last model image, if any; position of the random-number generator (seed, number of
      values drawn) *)
  Record world := mkWorld { w_obj : mobj T; w_img : IS; w_vec : option (list T); w_rng : Z * nat }.

  (** core/model_object.cpp:1597-1607 GetFitStatistic: CreateModelImage and the statistic *)
  Definition fit_statistic (w : world) (p : list T) : res (T * world) :=
    do c <- create (w_img w) p;
    let (img, vec) := c : IS * list T in
    do r <- GetFitStatistic N (w_obj w) vec;
    let (o, v) := r : mobj T * T in
    Ok (v, mkWorld o img (Some vec) (w_rng w)).
  (** core/model_object.cpp:1413-1496 ComputeDeviates; the array of the solver has one
      element for each term *)
  Definition deviates (w : world) (p : list T) : res (list T * world) :=
    do c <- create (w_img w) p;
    let (img, vec) := c : IS * list T in
    do r <- ComputeDeviates N (w_obj w) vec (repeat (nofZ N 0) (nTerms (w_obj w))) 0;
    let (o, y) := r : mobj T * list T in
    Ok (y, mkWorld o img (Some vec) (w_rng w)).
  Fixpoint converse {A : Type} (s : session T A) (w : world) : res (A * world) :=
    match s with
    | Finished a => Ok (a, w)
    | AskStatistic p k => do r <- fit_statistic w p; converse (k (fst r)) (snd r)
    | AskDeviates p k => do r <- deviates w p; converse (k (fst r)) (snd r)
    end.

  (** ---- bootstrap: core/bootstrap_errors.cpp with this model object ---- *)
  (** core/model_object.cpp:2061-2087 *)
  Definition boot_sample (w : world) : res world :=
    do r <- Fit_Model.MakeBootstrapSample N fuel (w_obj w) (draws (fst (w_rng w))) (snd (w_rng w));
    let (o, k) := r : mobj T * nat in
    Ok (mkWorld o (w_img w) (w_vec w) (fst (w_rng w), k)).
  (** a fit to a resample *)
  Definition refit (s : list T -> session T (Z * list T)) (p : list T) (w : res world) : Z * list T * res world :=
    match w with
    | Ok w0 =>
      match converse (s p) w0 with
      | Ok (z, p', w1) => (z, p', Ok w1)
      | Undef => (0%Z, p, Undef) | Abort => (0%Z, p, Abort) | Fuel => (0%Z, p, Fuel)
      end
    | bad => (0%Z, p, bad)
    end.
  Definition boot_env (lm nm : list T -> session T (Z * list T)) : Boot_Model.env T (res world) :=
    Boot_Model.mkEnv
      (fun seed w => do w <- w; Ok (mkWorld (w_obj w) (w_img w) (w_vec w) (seed, 0%nat)))
      (fun _ => clock)
      (fun w => (0%Z, do w <- w; boot_sample w))
      (fun w => do w <- w; boot_sample w)
      (refit lm) (refit nm).

  (** core/print_results.cpp:239-259: the name of the statistic *)
  Definition statistic_name (o : mobj T) : str :=
    let whichStat := WhichFitStatistic o false in
    if (whichStat =? 2)%Z then lit "Cash statistic"
    else if (whichStat =? 3)%Z then lit "Poisson-MLR statistic"
    else
      let whichStat := WhichFitStatistic o true in
      if (whichStat =? 12)%Z then lit "chi-squared (user-supplied errors)"
      else if (whichStat =? 11)%Z then lit "chi-squared (model-based errors)"
      else lit "chi-squared (data-based errors)".
  (** core/print_results.cpp:221-290 SaveParameters: [o] is the object after the statistic
      has been computed *)
  Definition report (o : mobj T) (nFree solver status : Z) (fitStatistic : T) : list str :=
    let nDegreesFreedom := (nValid o - nFree)%Z in
    let aic := AIC_corrected N fitStatistic nFree (nValid o) true in
    let bic := BIC N fitStatistic nFree (nValid o) true in
    [ summary solver status;
      lit "Fit statistic: " ++ statistic_name o;
      lit "Best-fit value: " ++ f6 fitStatistic;
      (if (WhichFitStatistic o false =? 2)%Z then lit "Reduced value: none"
       else lit "Reduced value: " ++ f6 (ndiv N fitStatistic (nofZ N nDegreesFreedom)));
      lit "AIC: " ++ f6 aic;
      lit "BIC: " ++ f6 bic ].
  Definition save_parameters (header : list str) (b : built) (offset : Z * Z) (nFree solver : Z)
      (r : fitted T) (w : world) : res (str * world) :=
    do x <- fit_statistic w (r_params r);
    let (v, w) := x : T * world in
    do txt <- SaveParameters N f4 g g5 header (report (w_obj w) nFree solver (r_status r) v) b
                (nofZ N (fst offset)) (nofZ N (snd offset)) (r_params r) (r_errors r);
    Ok (txt, w).
  (** core/print_results.cpp:158-181 PrintFitStatistic *)
  Definition print_statistic (nFree : Z) (p : list T) (w : world) : res (output T * world) :=
    do x <- fit_statistic w p;
    let (v, w) := x : T * world in
    let n := nValid (w_obj w) in
    Ok (OStatistic v
          (if (WhichFitStatistic (w_obj w) false =? 2)%Z then None else Some (ndiv N v (nofZ N (n - nFree))))
          (AIC_corrected N v nFree n true) (BIC N v nFree n true), w).

  (** core/model_object.cpp:2257-2291 *)
  Definition GetModelImageVector (w : world) : res (option (list T)) :=
    match w_vec w with
    | None => Ok None
    | Some vec =>
      if doConvolution (w_obj w) then
        do l <- for_ (nDataVals (w_obj w)) (fun z l => do x <- get vec (zModel (w_obj w) z); Ok (l ++ [x])) [];
        Ok (Some l)
      else Ok (Some vec)
    end.
  (** core/model_object.cpp:2311-2351 *)
  Definition GetResidualImageVector (w : world) : res (option (list T)) :=
    match w_vec w with
    | None => Ok None
    | Some vec =>
      do l <- for_ (nDataVals (w_obj w)) (fun z l =>
          do d <- get (dataVector (w_obj w)) z;
          do x <- get vec (zModel (w_obj w) z); Ok (l ++ [nsub N d x])) [];
      Ok (Some l)
    end.
  (** core/model_object.cpp:2357-2379 *)
  Definition GetWeightImageVector (w : world) : res (option (list T)) :=
    if weightValsSet (w_obj w) then
      do l <- for_ (nDataVals (w_obj w)) (fun z l =>
          do x <- get (weightVector (w_obj w)) z; Ok (l ++ [nmul N x x])) [];
      Ok (Some l)
    else Ok None.
  (** SaveVectorAsImage (core/image_io.cpp): reads nColumns x nRows values; nothing is
      written for a null pointer *)
  Definition save_image (name : str) (o : mobj T) (pix : option (list T)) : res (list (output T)) :=
    match pix with
    | None => Ok []
    | Some l =>
      let n := (nDataColumns o * nDataRows o)%nat in
      if (List.length l <? n)%nat then Undef
      else Ok [OImage name (nDataColumns o) (nDataRows o) (firstn n l)]
    end.

  (** the single-image object as the bootstrap sees it *)
  Definition boot_mo (b : built) (offset : Z * Z) : Boot_Model.mo :=
    Boot_Model.mkMo (map (fun f => List.length (GetParameterNames f)) (b_funcs b)) (b_flags b) (fst offset) (snd offset).

  (** core/imfit_main.cpp:397-425. The header of the file: core/bootstrap_errors.cpp:189-193 *)
  Definition bootstrap (o : opts T) (header : list str) (b : built) (offset : Z * Z) (h : handover T)
      (lm nm : list T -> session T (Z * list T)) (r : fitted T) (w : world) : res (list (output T) * world) :=
    do doBoot <- as_bool (o K_doBootstrap); do nIter <- as_int (o K_bootstrapIterations);
    if doBoot && (0 <? nIter)%Z && negb (r_stopped r) then
      do save <- as_bool (o K_saveBootstrap); do name <- as_str (o K_outputBootstrapFileName);
      do seed <- as_int (o K_rngSeed);
      do head <- (if save then
                    do t <- SaveParameters2 N f4 g g5 header b (nofZ N (fst offset)) (nofZ N (snd offset)) (r_params r) (lit "#");
                    do hl <- GetParamHeader dec b;
                    Ok (t ++ lit "#" ++ NL ++ lit "# Bootstrap resampling output (" ++ dec (Z.to_nat nIter) ++
                        lit " iterations requested):" ++ NL ++ c_str hl ++ NL)
                  else Ok []);
      do x <- Boot_Model.BootstrapErrors N qsort (boot_env lm nm) (boot_mo b offset) (map string_of_list_ascii (b_labels b)) 1
                (b_nParamsTot b) (r_params r) (map (fun p => if p_fixed p then 1 else 0)%Z (h_info h))
                (Z.to_nat nIter) (WhichFitStatistic (w_obj w) false) save seed false (Ok w);
      let '(_, _, rows, w) := x in
      do w <- w;
      Ok (if save then [OBootstrap name head rows] else [], w)
    else Ok ([], w).

  (** core/imfit_main.cpp:428-485 *)
  Definition outputs (o : opts T) (header : list str) (b : built) (offset : Z * Z) (nFree : Z)
      (statOnly : bool) (r : fitted T) (w : world) : res (list (output T)) :=
    do savePars <- as_bool (o K_saveBestFitParams); do pname <- as_str (o K_outputParameterFileName);
    do solver <- as_int (o K_solver);
    do x <- (if savePars && negb statOnly then
               do t <- save_parameters header b offset nFree solver r w;
               Ok ([OParameters (if r_stopped r then interruptedParameterFileName else pname) (fst t)], snd t)
             else Ok ([], w));
    let (out1, w) := x : list (output T) * world in
    do m <- as_bool (o K_saveModel); do mname <- as_str (o K_outputModelFileName);
    do out2 <- (if m && negb (r_stopped r) then do l <- GetModelImageVector w; save_image mname (w_obj w) l else Ok []);
    do d <- as_bool (o K_saveResidualImage); do dname <- as_str (o K_outputResidualFileName);
    do out3 <- (if d && negb (r_stopped r) then do l <- GetResidualImageVector w; save_image dname (w_obj w) l else Ok []);
    do e <- as_bool (o K_saveWeightImage); do ename <- as_str (o K_outputWeightFileName);
    do out4 <- (if e && negb (r_stopped r) then do l <- GetWeightImageVector w; save_image ename (w_obj w) l else Ok []);
    Ok (out1 ++ out2 ++ out3 ++ out4).

  (** core/imfit_main.cpp:252-485 and the return value: from AddFunctions to the end.
      [solver] is DispatchToSolver with the chosen solver, [lm] and [nm] the refits of the
      bootstrap; they get the same parameter information. *)
  Definition finish_imfit (o : opts T) (header : list str) (b : built) (offset : Z * Z) (po : pout T)
      (obj : mobj T) (img0 : IS)
      (solver : handover T -> session T (fitted T)) (lm nm : handover T -> list T -> session T (Z * list T))
    : res (Z * list (output T)) :=
    do s <- begin_imfit N b offset po obj;
    match s with
    | inl z => Ok (z, [])
    | inr (h, obj) =>
      let w := mkWorld obj img0 None (0%Z, 0%nat) in
      do statOnly <- as_bool (o K_printFitStatisticOnly);
      do x <- (if statOnly then
                 do y <- print_statistic (h_free h) (h_start h) w;
                 Ok ([fst y], mkFitted 0 (h_start h) None false, snd y)
               else
                 do y <- converse (solver h) w;
                 Ok ([], fst y, snd y));
      let '(out0, r, w) := x in
      do y <- bootstrap o header b offset h (lm h) (nm h) r w;
      do out <- outputs o header b offset (h_free h) statOnly r (snd y);
      Ok (0%Z, out0 ++ fst y ++ out)
    end.
End Finish.
Arguments mkWorld {T IS}. Arguments w_obj {T IS}. Arguments w_img {T IS}. Arguments w_vec {T IS}. Arguments w_rng {T IS}.
Arguments fit_statistic {T} N {IS}. Arguments deviates {T} N {IS}. Arguments converse {T} N {IS} create {A}.
Arguments boot_sample {T} N {IS}. Arguments refit {T} N {IS}. Arguments boot_env {T} N {IS}.
Arguments statistic_name {T}. Arguments report {T} N. Arguments save_parameters {T} N {IS}. Arguments print_statistic {T} N {IS}.
Arguments GetModelImageVector {T IS}. Arguments GetResidualImageVector {T} N {IS}. Arguments GetWeightImageVector {T} N {IS}.
Arguments save_image {T}. Arguments bootstrap {T} N {IS}. Arguments outputs {T} N {IS}. Arguments finish_imfit {T} N {IS}.
