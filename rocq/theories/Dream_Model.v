(** Model of the DREAM Markov-chain sampler, cdream/*.cpp, and of the part of
    core/mcmc_main.cpp that prepares it. Definitions only.

    From outside come, as arguments: the random-number generator (any state type
    [G] with any answers), the log-likelihood [fn] (p->fun, a function of the
    parameter vector: core/mcmc_main.cpp:1008-1018), the GSL statistics functions
    and std::sort, and the value [ninf] that stands for -INFINITY.

    The arrays state(t,i,j) and lik(t,i) are lists of generations; a generation is
    added at the end when the code first writes it (rows beyond it are malloc'ed
    and not yet written). Messages are left out; what verboseLevel > 1 prints about
    each transition is kept in [d_tr], together with the proposal and the uniform
    number used, for the specification. *)
From Coq Require Import List Arith ZArith Bool.
From Verif Require Import Base Num Boot_Model.
Import ListNotations.
Set Implicit Arguments.

(** a loop whose i-th pass computes the i-th element of a row *)
Fixpoint collect {A S} (k n : nat) (f : nat -> S -> res (A * S)) (s : S) : res (list A * S) :=
  match n with
  | O => Ok ([], s)
  | Datatypes.S m =>
    do x <- f k s; let '(a, s1) := x in
    do y <- collect (Datatypes.S k) m f s1; let '(l, s2) := y in
    Ok (a :: l, s2)
  end.
(** the same without state *)
Fixpoint each {A} (k n : nat) (f : nat -> res A) : res (list A) :=
  match n with
  | O => Ok []
  | S m => do a <- f k; do l <- each (S k) m f; Ok (a :: l)
  end.

Section Dream.
Variable T : Type.
Variable N : Num T.
Variable G : Type.
Infix "+" := (nadd N). Infix "-" := (nsub N). Infix "*" := (nmul N). Infix "/" := (ndiv N).
Notation "0" := (nofZ N 0).
Notation "1" := (nofZ N 1).
Notation "2" := (nofZ N 2).

(** gsl_rng_uniform, gsl_rng_uniform_int(n), gsl_ran_gaussian(sigma), gsl_ran_shuffle (as the
    list of old positions in new order) and gsl_ran_multinomial(K, N, p) *)
Record rng := mkRng {
  r_unif : G -> T * G;
  r_int : G -> Z -> Z * G;
  r_gauss : G -> T -> T * G;
  r_perm : G -> nat -> list nat * G;
  r_multi : G -> nat -> nat -> list T -> list nat * G }.
(** gsl_stats_mean, _variance_m, _sd, _covariance_m, _quantile_from_sorted_data, _max_index; std::sort *)
Record gsl := mkGsl {
  g_mean : list T -> T;
  g_var_m : list T -> T -> T;
  g_sd : list T -> T;
  g_cov_m : list T -> list T -> T -> T -> T;
  g_quant : list T -> T -> T;
  g_max_index : list T -> nat;
  g_sort : list T -> list T }.

(** cdream/dream_params.h:13-58, the members used *)
Record pars := mkPars {
  maxEvals : nat; numChains : nat; report_interval : Z;
  burnIn : Z; recalcLik : Z; collapseOutliers : bool; gelmanEvals : Z; loopSteps : nat;
  deltaMax : Z; pCR_update : bool; nCR : nat;
  noise : T; bstar_zero : T; scaleReductionCrit : T; reenterBurnin : T;
  nfree : Z; nvar : nat; varLock : list bool; varLo : list T; varHi : list T }.

(** cdream/dream_pars.cpp:5-46. [lock[i]] is read for i < n, as are lo and hi. *)
Definition SetupDreamParams (n : nat) (lock : list bool) (lo hi : list T) : res pars :=
  do nf <- for_ n (fun i nf => do b <- get lock i; Ok (if (b : bool) then (nf - 1)%Z else nf)) (Z.of_nat n);
  Ok {| maxEvals := 10 * 10 * 10 * 10 * 10; numChains := 5; report_interval := 1;
        burnIn := 0; recalcLik := 0; collapseOutliers := true; gelmanEvals := 5000; loopSteps := 10;
        deltaMax := Z.quot (nf - 1) 2; pCR_update := true; nCR := 3;
        noise := ndec N 5 2; bstar_zero := ndec N 1 3; scaleReductionCrit := ndec N 101 2;
        reenterBurnin := ndec N 2 1;
        nfree := nf; nvar := n; varLock := lock; varLo := lo; varHi := hi |}.

(** core/mcmc_main.cpp:306-319 (limits of X0/Y0 moved by the image offset), 355-364 (values moved)
    and 371-391 (a fixed parameter has its value as both limits). A parameter is
    (fixed, limits, value, offset to subtract: the image offset for X0/Y0, 0 for the others;
    for the others the code subtracts nothing at all). *)
Record mpar := mkMpar { m_fixed : Z; m_lo : T; m_hi : T; m_value : T; m_off : option T }.
Definition sub_off (x : T) (o : option T) : T := match o with Some d => x - d | None => x end.
Definition mcmc_limit (q : mpar) : bool * T * T * T :=
  let v := sub_off (m_value q) (m_off q) in
  if (m_fixed q =? 1)%Z then (true, v, v, v)
  else (false, sub_off (m_lo q) (m_off q), sub_off (m_hi q) (m_off q), v).

Variable rg : rng.
Variable gs : gsl.
Variable fn : list T -> T.
Variable ninf : T.
Variable fuel : nat.

(** cdream/include/rng/GSLStream.h:29-33 with a = 0, b = 1 *)
Definition uniform (g : G) : T * G := let '(u, g') := r_unif rg g in (0 + (1 - 0) * u, g').
(** cdream/include/rng/GSLStream.h:35-39; gsl_rng_uniform_int stops the program when its
    argument is 0 (and the argument is unsigned, so a negative one is out of its range) *)
Definition uniform_int (g : G) (a b : Z) : res (Z * G) :=
  if (b <=? a)%Z then Abort
  else let '(z, g') := r_int rg g (b - a)%Z in Ok ((a + z)%Z, g').
(** cdream/include/rng/GSLStream.h:48-50 with mu = 0 *)
Definition gaussian (g : G) (sigma : T) : T * G := let '(x, g') := r_gauss rg g sigma in (x + 0, g').
(** cdream/include/rng/GSLStream.h:41 *)
Definition shuffle {A} (g : G) (x : list A) : res (list A * G) :=
  let '(ks, g') := r_perm rg g (length x) in
  do y <- each 0 (length x) (fun i => do k <- get ks i; get x k); Ok (y, g').

(** state(t,i,j) of one generation *)
Definition cell (row : list (list T)) (i : Z) (j : nat) : res T := do r <- getZ row i; get r j.

(** cdream/gen_CR.cpp:5-25: [L] and the array CRm (numChains x loopSteps, flat; [None] is an entry
    never written) *)
Definition gen_CR (pCR : list T) (crm : list (option Z)) (L : list nat) (g : G)
  : res (list (option Z) * list nat * G) :=
  if (length L <? length pCR)%nat then Ok (crm, L, g) else
  let size := length crm in
  let '(a, g1) := r_multi rg g (length pCR) size pCR in
  let L' := a ++ skipn (length a) L in
  do w <- for_ (length L') (fun m '(j, c) =>
            do lm <- get L' m;
            for_ lm (fun _ '(j, c) => do c' <- set c j (Some (Z.of_nat m + 1)%Z); Ok (S j, c')) (j, c)) (O, crm);
  let '(_, c) := w in
  do y <- shuffle g1 c; let '(c', g2) := y in
  Ok (c', L', g2).

(** cdream/dream.cpp:213-214: while (r2 == r1 || r2 == i) ++r2 %= numChains *)
Fixpoint next_r2 (f : nat) (n i r1 r2 : Z) : res Z :=
  if ((r2 =? r1) || (r2 =? i))%Z then
    match f with O => Fuel | S f' => next_r2 f' n i r1 (Z.rem (r2 + 1) n)%Z end
  else Ok r2.
(** cdream/dream.cpp:207-216: one pair *)
Definition pick_pair (n : nat) (i : nat) (g : G) : res (Z * Z * G) :=
  let nz := Z.of_nat n in let iz := Z.of_nat i in
  do a <- uniform_int g 0 (nz - 1); let '(r1, g1) := a in
  do b <- uniform_int g1 0 (nz - 1); let '(r2, g2) := b in
  let r1 := if (iz <=? r1)%Z then (r1 + 1)%Z else r1 in
  do r2 <- (if (2 <? nz)%Z then next_r2 fuel nz iz r1 r2 else Ok r2);
  Ok (r1, r2, g2).

Section Gen.
Variable p : pars.

(** cdream/dream.cpp:195-198 *)
Definition pick_delta (g : G) : res (Z * G) :=
  if (1 <? deltaMax p)%Z then uniform_int g 1 (deltaMax p + 1)%Z else Ok (1%Z, g).
(** cdream/dream.cpp:204-216 *)
Definition pick_pairs (i : nat) (delta : Z) (g : G) : res (list (Z * Z) * G) :=
  collect 0 (Z.to_nat delta) (fun _ g => do x <- pick_pair (numChains p) i g; let '(a, b, g') := x in Ok ((a, b), g')) g.

(** cdream/dream.cpp:229-233 *)
Fixpoint pair_diff (prev : list (list T)) (j : nat) (pairs : list (Z * Z)) (acc : T) : res T :=
  match pairs with
  | [] => Ok acc
  | (a, b) :: ps =>
    do acc' <- (if (a =? b)%Z then Ok acc
                else do x <- cell prev a j; do y <- cell prev b j; Ok (acc + (x - y)));
    pair_diff prev j ps acc'
  end.

(** cdream/dream.cpp:221-245: parameter j. [None]: updatePar[j] is false (locked, and then it is
    false from the start, or kept by the crossover), and e, epsilon and pairDiff are not used. The
    second component of the state is updateDim[i]. *)
Definition draw_par (prev : list (list T)) (pairs : list (Z * Z)) (cr : res Z) (j : nat) (s : G * Z)
  : res (option (T * T * T) * (G * Z)) :=
  let '(g, dim) := s in
  do locked <- get (varLock p) j;
  if (locked : bool) then Ok (None, (g, dim)) else
  let '(u, g1) := uniform g in
  let e := noise p * (2 * u - 1) in
  let '(eps, g2) := gaussian g1 (bstar_zero p) in
  do pd <- pair_diff prev j pairs 0;
  do c <- cr;
  let crossRate := 1 * nofZ N c / nofZ N (Z.of_nat (nCR p)) in
  if nltb N crossRate 1 then
    let '(v, g3) := uniform g2 in
    if nltb N v (1 - crossRate) then Ok (None, (g3, (dim - 1)%Z))
    else Ok (Some (e, eps, pd), (g3, dim))
  else Ok (Some (e, eps, pd), (g2, dim)).

(** cdream/dream.cpp:247-251 *)
Definition gamma_of (t : nat) (dim delta : Z) : T :=
  if ((1 <? t) && (t mod 5 =? 0))%nat then 1
  else ndec N 238 2 / nsqrt N (2 * nofZ N dim * nofZ N delta).

(** cdream/dream.cpp:193-265 for chain i: the proposal and updateDim[i]. CRm(i, genNumber) is read
    when it is first needed. *)
Definition propose (t : nat) (prev : list (list T)) (crm : list (option Z)) (gen : nat) (i : nat) (g : G)
  : res (list T * Z * G) :=
  do x <- pick_delta g; let '(delta, g1) := x in
  do cur <- get prev i;
  do y <- pick_pairs i delta g1; let '(pairs, g2) := y in
  let cr := (do o <- get crm (i * loopSteps p + gen)%nat; match o with Some c => Ok c | None => Undef end) in
  do z <- collect 0 (nvar p) (draw_par prev pairs cr) (g2, nfree p);
  let '(upd, (g3, dim)) := z in
  if (0 <? dim)%Z then
    let gamma := gamma_of t dim delta in
    do pr <- each 0 (nvar p) (fun j =>
               do x <- get cur j;
               do o <- get upd j;
               match o with
               | Some (e, eps, pd) => Ok (x + ((1 + e) * gamma * pd + eps))
               | None => Ok x
               end);
    Ok (pr, dim, g3)
  else
    do pr <- each 0 (nvar p) (fun j => get cur j);
    Ok (pr, dim, g3).

(** cdream/dream.cpp:272-280 (and, with [all] true, cdream/dream_initialize.cpp:56-62, where locked
    parameters are tested too): the loop stops at the first parameter outside *)
Definition inside (all : bool) (x : list T) : res bool :=
  for_ (nvar p) (fun j ok =>
    if (ok : bool) then
      do locked <- get (varLock p) j;
      if ((locked : bool) && negb all)%bool then Ok true else
      do v <- get x j; do lo <- get (varLo p) j; do hi <- get (varHi p) j;
      Ok (negb (nltb N v lo || nltb N hi v))
    else Ok false) true.

(** cdream/dream.cpp:268-301 for one chain: lik(t-1,i) and lik(t,i) *)
Definition evaluate (inBurnIn : Z) (cur : list T) (lprev : T) (pr : list T) (dim : Z) : res (T * T) :=
  let recalc := (0 <? recalcLik p + inBurnIn)%Z in
  if (0 <? dim)%Z then
    do calc <- inside false pr;
    Ok (if recalc then fn cur else lprev, if (calc : bool) then fn pr else ninf)
  else Ok (lprev, if recalc then fn cur else lprev).

(** what is known about one transition *)
Record trans := mkTrans {
  tr_prop : list T; tr_dim : Z; tr_prev : T; tr_new : T; tr_u : option T; tr_acc : bool }.

(** cdream/dream.cpp:303-331 for one chain *)
Definition accept (cur pr : list T) (dim : Z) (lprev lnew : T) (g : G) : list T * T * trans * G :=
  let '(acc, u, g') :=
    if neqb N lnew ninf then (false, None, g)
    else if nleb N lprev lnew then (true, None, g)
    else let '(u, g') := uniform g in (nltb N (nlog N u) (lnew - lprev), Some u, g') in
  let tr := mkTrans pr dim lprev lnew u acc in
  if (acc : bool) then (pr, lnew, tr, g') else (cur, lprev, tr, g').

(** cdream/dream.cpp:193-331: a whole generation. Answers lik(t-1,.), then state(t,.), lik(t,.) and
    the transitions. (In the branch updateDim[i] = 0 the code copies state(t-1,i) into the proposal
    once more; it is there already.) *)
Definition generation (t : nat) (prev : list (list T)) (lprev : list T) (crm : list (option Z)) (gen : nat)
    (inBurnIn : Z) (g : G)
  : res (list T * list (list T) * list T * list trans * G) :=
  do a <- collect 0 (numChains p) (fun i g =>
            do x <- propose t prev crm gen i g; let '(pr, dim, g') := x in Ok ((pr, dim), g')) g;
  let '(props, g1) := a in
  do ls <- each 0 (numChains p) (fun i =>
            do cur <- get prev i; do lp <- get lprev i; do q <- get props i;
            evaluate inBurnIn cur lp (fst q) (snd q));
  do b <- collect 0 (numChains p) (fun i g =>
            do cur <- get prev i; do q <- get props i; do l <- get ls i;
            let '(row, lk, tr, g') := accept cur (fst q) (snd q) (fst l) (snd l) g in Ok ((row, lk, tr), g')) g1;
  let '(rows, g2) := b in
  Ok (map fst ls, map (fun x => fst (fst x)) rows, map (fun x => snd (fst x)) rows, map snd rows, g2).

(** cdream/dream.cpp:336-357: delta_tot; gsl_pow_2(x) is x*x *)
Definition adapt (prev row : list (list T)) (acc : list bool) (crm : list (option Z)) (gen : nat) (dtot : list T)
  : res (list T) :=
  do sds <- each 0 (nvar p) (fun j =>
              do col <- each 0 (numChains p) (fun i => cell row (Z.of_nat i) j); Ok (g_sd gs col));
  for_ (numChains p) (fun i dtot =>
    do a <- get acc i;
    if (a : bool) then
      do dn <- for_ (nvar p) (fun j dn =>
                 do locked <- get (varLock p) j;
                 do sd <- get sds j;
                 if (negb (locked : bool) && nltb N 0 sd)%bool then
                   do x <- cell row (Z.of_nat i) j; do y <- cell prev (Z.of_nat i) j;
                   let q := (x - y) / sd in Ok (dn + q * q)
                 else Ok dn) 0;
      do o <- get crm (i * loopSteps p + gen)%nat;
      match o with
      | None => Undef
      | Some c => do old <- getZ dtot (c - 1)%Z; setZ dtot (c - 1)%Z (old + dn)
      end
    else Ok dtot) dtot.

(** cdream/dream.cpp:369-386: totalSteps and pCR (a division by zero is an infinity or NaN).
    totalSteps is unsigned; it is bounded by the number of steps done and its wrap-around is left out. *)
Definition new_pCR (L : list nat) (steps : list Z) (dtot pcr : list T) : res (list Z * list T) :=
  do steps' <- each 0 (nCR p) (fun m => do a <- get steps m; do l <- get L m; Ok (a + Z.of_nat l)%Z);
  do sum <- for_ (nCR p) (fun m s => do d <- get dtot m; Ok (s + d)) 0;
  if nltb N 0 sum then
    do q <- each 0 (nCR p) (fun m => do d <- get dtot m; do s <- get steps' m; Ok (d / sum / nofZ N s));
    let tot := fold_left (nadd N) q 0 in
    Ok (steps', map (fun x => x / tot) q)
  else Ok (steps', pcr).

(** the values state(a .. a+len-1, i, j), as GSL reads them with stride numChains*nvar *)
Definition window (st : list (list (list T))) (a len : nat) (i j : nat) : res (list T) :=
  each 0 len (fun k => do row <- get st (a + k)%nat; cell row (Z.of_nat i) j).
Definition window_lik (lk : list (list T)) (a len : nat) (i : nat) : res (list T) :=
  each 0 len (fun k => do row <- get lk (a + k)%nat; get row i).

(** cdream/check_outliers.cpp:3-31 *)
Definition check_outliers (t : nat) (lk : list (list T)) : res (list T * list bool) :=
  let t0 := (t / 2)%nat in
  do meanlik <- each 0 (numChains p) (fun i =>
                  do w <- window_lik lk t0 (t - t0)%nat i; Ok (g_mean gs w));
  let liksrt := g_sort gs meanlik in
  let Q1 := g_quant gs liksrt (ndec N 25 2) in
  let Q3 := g_quant gs liksrt (ndec N 75 2) in
  let IQR := Q3 - Q1 in
  let UR := Q1 - 2 * IQR in
  Ok (meanlik, map (fun m => nltb N m UR) meanlik).

(** the burn-in variables: inBurnIn, burnInStart, curRun *)
Record burn := mkBurn { inBurnIn : Z; burnInStart : Z; curRun : Z }.

(** cdream/dream.cpp:388-412; [lk] has the rows up to t-1, [row] and [lrow] are generation t *)
Definition collapse (t : nat) (lk : list (list T)) (row : list (list T)) (lrow : list T) (b : burn)
  : res (list (list T) * list T * burn) :=
  if (collapseOutliers p && nltb N (nofZ N (Z.of_nat t)) (reenterBurnin p * nofZ N (Z.of_nat (maxEvals p))))%bool then
    do mo <- check_outliers t lk; let '(meanlik, outliers) := mo in
    let best := g_max_index gs meanlik in
    for_ (numChains p) (fun i '(row, lrow, b) =>
      do o <- get outliers i;
      if ((o : bool) && negb (i =? best)%nat)%bool then
        do lb <- get lrow best; do lrow' <- set lrow i lb;
        do rb <- get row best; do row' <- set row i rb;
        let b' := if ((inBurnIn b =? 0) && (0 <? burnIn p))%Z then mkBurn 1 (Z.of_nat t) 0 else b in
        Ok (row', lrow', b')
      else Ok (row, lrow, b)) (row, lrow, b)
  else Ok (row, lrow, b).

(** cdream/gelman_rubin.cpp:5-92. The counts are int: m*n*n beyond the range is undefined, as is a
    negative count (converted to size_t). *)
Definition gelman_rubin (st : list (list (list T))) (sr : list T) (first numIter : Z) (adjustDF : bool)
  : res (list T) :=
  let t := if (numIter <=? 0)%Z then Z.of_nat (maxEvals p) else numIter in
  let t0 := Z.quot (t + first) 2 in
  let n := (t - t0 - 1)%Z in
  if ((n <? 0) || (t0 <? 0))%Z then Undef else
  let m := Z.of_nat (numChains p) in
  let nn := nofZ N n in let mm := nofZ N m in
  each 0 (nvar p) (fun j =>
    do locked <- get (varLock p) j;
    do old <- get sr j;
    if (locked : bool) then Ok old else
    do cols <- each 0 (numChains p) (fun i => window st (Z.to_nat t0) (Z.to_nat n) i j);
    let mean := map (g_mean gs) cols in
    let mean2 := map (fun x => x * x) mean in
    let var := map (fun c => g_var_m gs c (g_mean gs c)) cols in
    let betMean := g_mean gs mean in
    let betMean2 := g_mean gs mean2 in
    let betVar := g_var_m gs mean betMean in
    let W := g_mean gs var in
    let varVar := g_var_m gs var W in
    let sigma2 := (nn - 1) / nn * W + betVar in
    let Vhat := sigma2 + betVar / mm in
    let Rhat := Vhat / W in
    let cv1 := g_cov_m gs var mean2 W betMean2 in
    let cv2 := g_cov_m gs var mean W betMean in
    if (2147483647 <? m * n * n)%Z then Undef else
    let a := (nn - 1) / nn in
    let b := (mm + 1) / nofZ N (m * n)%Z in
    let c := betVar * nn in
    let varVhat := a * a * varVar / mm
                   + b * b * (2 / (mm - 1)) * (c * c)
                   + 2 * (mm + 1) * (nn - 1) / nofZ N (m * n * n)%Z * nofZ N (Z.quot n m)
                     * (cv1 - 2 * betMean * cv2) in
    let df := 2 * (Vhat * Vhat) / varVhat in
    Ok (if nltb N 0 W then nsqrt N (if adjustDF then Rhat * (df + nofZ N 3) / (df + 1) else Rhat)
        else 1)).

(** cdream/dream.cpp:421-438: exitLoop <= 0 *)
Definition all_converged (sr : list T) : res bool :=
  do e <- for_ (nvar p) (fun j e =>
            do locked <- get (varLock p) j;
            if (locked : bool) then Ok (e - 1)%Z else
            do r <- get sr j;
            Ok (if nltb N r (scaleReductionCrit p) then (e - 1)%Z else e)) (Z.of_nat (nvar p));
  Ok (e <=? 0)%Z.

(** cdream/dream.cpp:414-454: answers the burn-in variables, scaleReduction and whether the loop is left *)
Definition end_of_loop (t : nat) (st : list (list (list T))) (sr : list T) (b : burn)
  : res (burn * list T * bool) :=
  if (inBurnIn b =? 0)%Z then
    if (gelmanEvals p <=? curRun b + 1)%Z then
      do sr' <- gelman_rubin st sr (burnInStart b + burnIn p)%Z (Z.of_nat t) false;
      do c <- all_converged sr';
      if (c : bool) then Ok (mkBurn (inBurnIn b) (burnInStart b) (curRun b + 1)%Z, sr', true)
      else Ok (mkBurn (inBurnIn b) (burnInStart b) 0, sr', false)
    else Ok (mkBurn (inBurnIn b) (burnInStart b) (curRun b + 1)%Z, sr, false)
  else
    if (burnInStart b + burnIn p <=? Z.of_nat t)%Z then Ok (mkBurn 0 (burnInStart b) (curRun b), sr, false)
    else Ok (b, sr, false).

(** a line of a chain file: parameters, likelihood, burn-in flag, crossover probabilities, acceptance *)
Record oline := mkOline { o_par : list T; o_lik : T; o_burn : Z; o_pcr : list T; o_acc : Z }.

Record ds := mkDs {
  d_g : G; d_st : list (list (list T)); d_lk : list (list T); d_tr : list (list trans);
  d_crm : list (option Z); d_L : list nat; d_pcr : list T; d_steps : list Z; d_dtot : list T;
  d_gen : nat; d_burn : burn; d_rep : Z; d_sr : list T; d_out : list (list oline) }.

(** cdream/dream.cpp:185-471: generation t *)
Definition step (t : nat) (s : ds) : res (ds * bool) :=
  do cr <- (if (d_gen s =? 0)%nat then gen_CR (d_pcr s) (d_crm s) (d_L s) (d_g s)
            else Ok (d_crm s, d_L s, d_g s));
  let '(crm, L, g1) := cr in
  do prev <- get (d_st s) (t - 1)%nat;
  do lprev <- get (d_lk s) (t - 1)%nat;
  let b0 := d_burn s in
  do ge <- generation t prev lprev crm (d_gen s) (inBurnIn b0) g1;
  let '(lprev', row, lrow, trs, g2) := ge in
  let lk := upd (d_lk s) (t - 1)%nat lprev' in
  let adapting := (negb (inBurnIn b0 =? 0)%Z && pCR_update p)%bool in
  do dtot <- (if adapting then adapt prev row (map tr_acc trs) crm (d_gen s) (d_dtot s) else Ok (d_dtot s));
  do z <- (if (loopSteps p <=? d_gen s + 1)%nat then
             do sp <- (if adapting then new_pCR L (d_steps s) dtot (d_pcr s) else Ok (d_steps s, d_pcr s));
             let '(steps, pcr) := sp in
             do co <- collapse t lk row lrow b0; let '(row', lrow', b1) := co in
             do el <- end_of_loop t (d_st s ++ [row']) (d_sr s) b1; let '(b2, sr, stop) := el in
             Ok (O, steps, pcr, row', lrow', b2, sr, stop)
           else Ok ((d_gen s + 1)%nat, d_steps s, d_pcr s, row, lrow, b0, d_sr s, false));
  let '(gen', steps, pcr, row', lrow', b', sr, stop) := z in
  let printing := (negb stop && (report_interval p <=? d_rep s + 1)%Z)%bool in
  do lines <- each 0 (numChains p) (fun i =>
                do x <- get row' i; do l <- get lrow' i; do tr <- get trs i;
                Ok (mkOline x l (if (Z.of_nat t <? burnInStart b' + burnIn p)%Z then 1 else 0)%Z pcr
                       (if tr_acc tr then 1 else 0)%Z));
  Ok ({| d_g := g2; d_st := d_st s ++ [row']; d_lk := lk ++ [lrow']; d_tr := d_tr s ++ [trs];
         d_crm := crm; d_L := L; d_pcr := pcr; d_steps := steps; d_dtot := dtot;
         d_gen := gen'; d_burn := b';
         d_rep := if printing then 0%Z else if stop then d_rep s else (d_rep s + 1)%Z;
         d_sr := sr; d_out := if printing then d_out s ++ [lines] else d_out s |}, stop).

(** cdream/dream.cpp:185-471: [n] more generations, the first being t; true when stopped by convergence *)
Fixpoint generations (n t : nat) (s : ds) : res (ds * bool) :=
  match n with
  | O => Ok (s, false)
  | S n' => do x <- step t s; let '(s', stop) := x in
            if (stop : bool) then Ok (s', true) else generations n' (S t) s'
  end.

(** ---- start ---- *)

(** cdream/dream_initialize.cpp:42-46 and 86-90 *)
Definition clamp (x lo hi : T) : T := if nltb N x lo then lo else if nltb N hi x then hi else x.

(** cdream/dream_initialize.cpp:76-95: the while loop of one chain *)
Fixpoint resample (f : nat) (x : list T) (l : T) (g : G) : res (list T * T * G) :=
  if (neqb N l ninf || negb (neqb N l l))%bool then
    match f with
    | O => Fuel
    | S f' =>
      do y <- collect 0 (nvar p) (fun j g =>
                do locked <- get (varLock p) j; do lo <- get (varLo p) j; do hi <- get (varHi p) j;
                if (locked : bool) then Ok (clamp lo lo hi, g)
                else let '(u, g') := uniform g in Ok (clamp (lo + (hi - lo) * u) lo hi, g')) g;
      let '(x', g') := y in
      resample f' x' (fn x') g'
    end
  else Ok (x, l, g).

(** cdream/dream_initialize.cpp:9-97 *)
Definition dream_initialize (g : G) : res (list (list T) * list T * G) :=
  let n := numChains p in
  do a <- collect 0 (nvar p) (fun _ g => shuffle g (map Z.of_nat (seq 0 n))) g;
  let '(samples, g1) := a in
  do b <- collect 0 n (fun i g =>
            collect 0 (nvar p) (fun j g =>
              do locked <- get (varLock p) j; do lo <- get (varLo p) j; do hi <- get (varHi p) j;
              if (locked : bool) then Ok (clamp lo lo hi, g)
              else
                let '(u, g') := uniform g in
                let nn := nofZ N (Z.of_nat n) in
                let intervalSize := (hi - lo) / nn in
                do sj <- get samples j; do s <- get sj i;
                Ok (clamp (lo + nofZ N s * (hi - lo) / nn + intervalSize * u) lo hi, g')) g) g1;
  let '(rows, g2) := b in
  do liks <- each 0 n (fun i => do x <- get rows i; do ok <- inside true x; Ok (if (ok : bool) then fn x else ninf));
  do c <- collect 0 n (fun i g =>
            do x <- get rows i; do l <- get liks i;
            do y <- resample fuel x l g; let '(x', l', g') := y in Ok ((x', l'), g')) g2;
  let '(final, g3) := c in
  Ok (map fst final, map snd final, g3).

(** cdream/dream.cpp:58-60, 88-89, 150-183: the variables at the start of the loop *)
Definition start (st : list (list (list T))) (lk : list (list T)) (pcr : list T) (inBurn : Z)
    (out : list (list oline)) (g : G) : ds :=
  {| d_g := g; d_st := st; d_lk := lk; d_tr := [];
     d_crm := repeat None (numChains p * loopSteps p);
     d_L := repeat O (nCR p); d_pcr := pcr; d_steps := repeat 0%Z (nCR p); d_dtot := repeat 1 (nCR p);
     d_gen := O; d_burn := mkBurn inBurn 0 0; d_rep := 0; d_sr := repeat 0 (nvar p); d_out := out |}.

(** return values: cdream/dream.h:20-24 *)
Definition exit_code (converged : bool) : Z := if converged then 0%Z else 1%Z.

(** cdream/dream.cpp:56-495, new run (appendFile = 0) *)
Definition dream_new (g : G) : res (Z * ds) :=
  let inBurn := (if 0 <? burnIn p then 1 else 0)%Z in
  let pcr := repeat (1 / nofZ N (Z.of_nat (nCR p))) (nCR p) in
  do a <- dream_initialize g; let '(row, lrow, g1) := a in
  do lines <- each 0 (numChains p) (fun i =>
                do x <- get row i; do l <- get lrow i; Ok (mkOline x l inBurn pcr 1%Z));
  do r <- generations (maxEvals p - 1) 1 (start [row] [lrow] pcr inBurn [lines] g1);
  let '(s, c) := r in Ok (exit_code c, s).

(** ---- resuming ---- *)
Variable tok : Type.
(** reading a number from a stream: None when it fails *)
Variable rd : tok -> option T.
Variable rd_int : tok -> option Z.
(** a line of a chain file: skipped (empty or starting with '#'), or words. Text after the last newline
    is not a line: getline() sets eof on it and the loop ends. *)
Inductive fline := Skip | Data (words : list tok).

(** successive  istr >> x : a word that is not a number leaves 0 in the variable and makes the
    following ones keep their values, as does the end of the line *)
Fixpoint read_nums (words : list tok) (vars : list (option T)) : list (option T) * option (list tok) :=
  match vars with
  | [] => ([], Some words)
  | v :: vs =>
    match words with
    | [] => (v :: vs, None)
    | w :: ws =>
      match rd w with
      | Some x => let '(l, r) := read_nums ws vs in (Some x :: l, r)
      | None => (Some 0 :: vs, None)
      end
    end
  end.

(** cdream/restore_state.cpp:40-45: one line; [None] is a variable that holds no value yet *)
Definition read_line (words : list tok) (inBurn : Z) (pcr : list T)
  : list (option T) * option T * Z * list T :=
  let '(x, r) := read_nums words (repeat None (nvar p)) in
  match r with
  | None => (x, None, inBurn, pcr)
  | Some ws =>
    let '(l, r) := read_nums ws [None] in
    let lv := match l with [v] => v | _ => None end in
    match r with
    | None => (x, lv, inBurn, pcr)
    | Some [] => (x, lv, inBurn, pcr)
    | Some (w :: ws) =>
      match rd_int w with
      | None => (x, lv, 0%Z, pcr)
      | Some b =>
        let '(q, _) := read_nums ws (map Some pcr) in
        (x, lv, b, map (fun o => match o with Some v => v | None => 0 end) q)
      end
    end
  end.

(** cdream/restore_state.cpp:32-48: the data lines of one file *)
Fixpoint read_file (ls : list fline) (line : nat) (inBurn : Z) (pcr : list T)
  : list (list (option T) * option T) * Z * list T :=
  match ls with
  | [] => ([], inBurn, pcr)
  | l :: rest =>
    if (maxEvals p <=? line)%nat then ([], inBurn, pcr) else
    match l with
    | Skip => read_file rest line inBurn pcr
    | Data ws =>
      let '(x, lv, b, q) := read_line ws inBurn pcr in
      let '(rows, b', q') := read_file rest (S line) b q in
      ((x, lv) :: rows, b', q')
    end
  end.

(** cdream/restore_state.cpp:19-54: prevLines and what is read of each chain; a missing file is [None] *)
Fixpoint restore_files (files : list (option (list fline))) (prevLines inBurn : Z) (pcr : list T)
  : Z * list (list (list (option T) * option T)) * Z * list T :=
  match files with
  | [] => (prevLines, [], inBurn, pcr)
  | None :: _ => ((-1)%Z, [], inBurn, pcr)
  | Some ls :: rest =>
    let '(rows, b, q) := read_file ls O inBurn pcr in
    let line := Z.of_nat (length rows) in
    let pl := if (line <? prevLines)%Z then (line - 1)%Z else prevLines in
    let '(pl', others, b', q') := restore_files rest pl b q in
    (pl', rows :: others, b', q')
  end.
Definition dream_restore_state (files : list (option (list fline))) (inBurn : Z) (pcr : list T) :=
  restore_files files (Z.of_nat (maxEvals p)) inBurn pcr.

Definition all_set (l : list (option T)) : res (list T) :=
  each 0 (length l) (fun j => do o <- get l j; match o with Some v => Ok v | None => Undef end).
(** generation t of the restored arrays. Simplification: a value that is absent counts as a use of
    uninitialised memory as soon as the generation is needed, even if only part of it is read. *)
Definition restored_row (chains : list (list (list (option T) * option T))) (t : nat) : res (list (list T) * list T) :=
  do row <- each 0 (length chains) (fun i => do c <- get chains i; do r <- get c t; all_set (fst r));
  do lrow <- each 0 (length chains) (fun i => do c <- get chains i; do r <- get c t;
                                     match snd r with Some l => Ok l | None => Undef end);
  Ok (row, lrow).

(** cdream/dream.cpp:56-495, resumed run (appendFile = 1): -10 when a file is missing *)
Definition dream_resume (files : list (option (list fline))) (g : G) : res (Z * ds) :=
  let inBurn := (if 0 <? burnIn p then 1 else 0)%Z in
  let pcr := repeat (1 / nofZ N (Z.of_nat (nCR p))) (nCR p) in
  let '(prevLines, chains, b, q) := dream_restore_state files inBurn pcr in
  if (prevLines <? 0)%Z then Ok ((-10)%Z, start [] [] q b [] g) else
  let k := Z.to_nat (prevLines + 1)%Z in
  if (maxEvals p <=? k)%nat then Ok (exit_code false, start [] [] q b [] g) else
  do rows <- each 0 k (restored_row chains);
  do r <- generations (maxEvals p - k) k (start (map fst rows) (map snd rows) q b [] g);
  let '(s, c) := r in Ok (exit_code c, s).

End Gen.

(** ---- what a run writes ---- *)

(** cdream/dream.cpp:135-144 and 458-470: the numbers of a line as words; the parameters through
    PrintModelParamsHorizontalString ("%#.10g", core/model_object.cpp:1941-1973), the others with the
    stream's 12 digits. *)
Section Write.
Variable tok : Type.
Variables pr10 pr12 : T -> tok.
Variable pr_int : Z -> tok.
Definition line_words (m : mo) (o : oline) : res (list tok) :=
  do xs <- PrintModelParamsHorizontalString N m (o_par o);
  Ok (map pr10 xs ++ [pr12 (o_lik o); pr_int (o_burn o)] ++ map pr12 (o_pcr o) ++ [pr_int (o_acc o)]).
(** the file of chain i after the lines [out] (header lines start with '#') *)
Definition chain_file (m : mo) (header : list (fline tok)) (out : list (list oline)) (i : nat) : res (list (fline tok)) :=
  do ls <- each 0 (length out) (fun k => do row <- get out k; do o <- get row i; do w <- line_words m o; Ok (Data w));
  Ok (header ++ ls).
End Write.
End Dream.
