(** Model of the Levenberg-Marquardt solver, solvers/mpfit.cpp and
    solvers/levmar_fit.cpp.

    The function that computes the deviates is an argument: [funct k v] is the
    vector of deviates written by the k-th call, for the parameter vector [v].
    It always returns 0 (solvers/levmar_fit.cpp:54-60), so the branches for a
    negative return value are left out. [interrupted k] tells whether the user
    has pressed Ctrl-C when [k] calls have been made. Printing is left out.

    The matrix fjac, stored column after column with leading dimension m, is a
    list of columns; entry [i + m*j] is row [i] of column [j]. Work arrays whose
    content is always written before it is read are local to each function. *)
From Coq Require Import ZArith List Bool.
From Verif Require Import Base Num Stats_Model DE_Model.
Import ListNotations.
Set Implicit Arguments.

(** solvers/mpfit.h:109-129 *)
Definition MP_ERR_NAN : Z := (-16)%Z.
Definition MP_ERR_NPOINTS : Z := (-18)%Z.
Definition MP_ERR_NFREE : Z := (-19)%Z.
Definition MP_ERR_INITBOUNDS : Z := (-21)%Z.
Definition MP_ERR_BOUNDS : Z := (-22)%Z.
Definition MP_ERR_PARAM : Z := (-23)%Z.
Definition MP_ERR_DOF : Z := (-24)%Z.
Definition MP_OK_CHI : Z := 1%Z.
Definition MP_OK_PAR : Z := 2%Z.
Definition MP_OK_BOTH : Z := 3%Z.
Definition MP_OK_DIR : Z := 4%Z.
Definition MP_MAXITER : Z := 5%Z.
Definition MP_FTOL : Z := 6%Z.
Definition MP_XTOL : Z := 7%Z.
Definition MP_GTOL : Z := 8%Z.
Definition MP_SIGINT : Z := 100%Z.

(** why the deviates were computed: lines 523, 1272, 834 and 1012 *)
Inductive why := Start | Derivative | Trial | Final.

Section LM.
Variable T : Type.
Variable N : Num T.
Infix "+" := (nadd N). Infix "-" := (nsub N). Infix "*" := (nmul N). Infix "/" := (ndiv N).
Infix "<?" := (nltb N). Infix "<=?" := (nleb N). Infix "==" := (neqb N) (at level 70).
Notation "0" := (nofZ N 0).
Notation "1" := (nofZ N 1).
Notation "- x" := (nneg N x).

(** the Euclidean norm used throughout; mp_enorm() in the code *)
Variable enorm : list T -> T.

(** solvers/mpfit.h:132-133 and solvers/mpfit.cpp:92-100 *)
Definition MACHEP0 : T := ndec N 22204460 23.
Definition DWARF : T := ndec N 22250739 315.
Definition p0001 : T := ndec N 1 4.
Definition p001 : T := ndec N 1 3.
Definition p05 : T := ndec N 5 2.
Definition p1 : T := ndec N 1 1.
Definition p25 : T := ndec N 25 2.
Definition p5 : T := ndec N 5 1.
Definition p75 : T := ndec N 75 2.

(** solvers/mpfit.cpp:2072-2086 *)
Definition dmax1 (a b : T) : T := if b <=? a then a else b.
Definition dmin1 (a b : T) : T := if a <=? b then a else b.

(** fjac[i + m*j] *)
Definition matrix := list (list T).
Definition get2 (a : matrix) (i j : nat) : res T := do c <- get a j; get c i.
Definition set2 (a : matrix) (i j : nat) (v : T) : res matrix :=
  do c <- get a j; do c' <- set c i v; set a j c'.
(** the [hi - lo] elements starting at [&c[lo]], as an argument of mp_enorm() *)
Definition sub (c : list T) (lo hi : nat) : res (list T) :=
  if Nat.leb hi (length c) then Ok (firstn (hi - lo)%nat (skipn lo c)) else Undef.
Definition zeros (n : nat) : list T := repeat 0 n.
(** for (i = lo; i < hi; i++) sum += a[i]*b[i], sum = 0 initially *)
Definition dot (a b : list T) (lo hi : nat) : res T :=
  for_from lo (hi - lo)%nat (fun i sum => do x <- get a i; do y <- get b i; Ok (sum + x * y)) 0.

(** ---- mp_qrfac ---- *)
(** solvers/mpfit.cpp:1475-1479 *)
Definition find_kmax (rdiag : list T) (j n : nat) : res nat :=
  for_from j (n - j)%nat (fun k kmax => do a <- get rdiag kmax; do b <- get rdiag k;
    Ok (if a <? b then k else kmax)) j.
(** solvers/mpfit.cpp:1480-1496: exchange columns [j] and [kmax] (loop 1485-1491
    as one exchange) *)
Definition exchange (a : matrix) (ipvt : list nat) (rdiag wa : list T) (j kmax : nat)
  : res (matrix * list nat * list T * list T) :=
  if Nat.eqb kmax j then Ok (a, ipvt, rdiag, wa)
  else
    do cj <- get a j; do ck <- get a kmax;
    do a <- set a j ck; do a <- set a kmax cj;
    do rj <- get rdiag j; do rdiag <- set rdiag kmax rj;
    do wj <- get wa j; do wa <- set wa kmax wj;
    do k <- get ipvt j; do k' <- get ipvt kmax;
    do ipvt <- set ipvt j k'; do ipvt <- set ipvt kmax k;
    Ok (a, ipvt, rdiag, wa).
(** solvers/mpfit.cpp:1509-1514 *)
Definition scale_col (c : list T) (j m : nat) (ajnorm : T) : res (list T) :=
  do c <- for_from j (m - j)%nat (fun i c => do x <- get c i; set c i (x / ajnorm)) c;
  do d <- get c j; set c j (d + 1).
(** solvers/mpfit.cpp:1522-1537: apply the transformation to a column *)
Definition reflect (cj ck : list T) (j m : nat) : res (list T) :=
  do sum <- dot cj ck j m;
  do d <- get cj j;
  let temp := sum / d in
  for_from j (m - j)%nat (fun i ck => do x <- get ck i; do y <- get cj i; set ck i (x - temp * y)) ck.
(** solvers/mpfit.cpp:1538-1547 *)
Definition update_norm (ck : list T) (rdiag wa : list T) (j k m : nat) : res (list T * list T) :=
  do rk <- get rdiag k;
  if rk == 0 then Ok (rdiag, wa)
  else
    do x <- get ck j;
    let temp := x / rk in
    let temp := dmax1 0 (1 - temp * temp) in
    let rk := rk * nsqrt N temp in
    do wk <- get wa k;
    let temp := rk / wk in
    if p05 * temp * temp <=? MACHEP0 then
      do s <- sub ck (S j) m;
      do rdiag <- set rdiag k (enorm s);
      do wa <- set wa k (enorm s);
      Ok (rdiag, wa)
    else
      do rdiag <- set rdiag k rk;
      Ok (rdiag, wa).
(** solvers/mpfit.cpp:1469-1553, one pass *)
Definition qrfac_step (m n : nat) (j : nat) (st : matrix * list nat * list T * list T)
  : res (matrix * list nat * list T * list T) :=
  let '(a, ipvt, rdiag, wa) := st in
  do kmax <- find_kmax rdiag j n;
  do e <- exchange a ipvt rdiag wa j kmax;
  let '(a, ipvt, rdiag, wa) := e in
  do cj <- get a j;
  do s <- sub cj j m;
  let ajnorm := enorm s in
  if ajnorm == 0 then
    do rdiag <- set rdiag j (- ajnorm);
    Ok (a, ipvt, rdiag, wa)
  else
    do d <- get cj j;
    let ajnorm := if d <? 0 then - ajnorm else ajnorm in
    do cj <- scale_col cj j m ajnorm;
    do a <- set a j cj;
    do r <- for_from (S j) (n - S j)%nat (fun k '(a, rdiag, wa) =>
      do ck <- get a k;
      do ck <- reflect cj ck j m;
      do a <- set a k ck;
      do u <- update_norm ck rdiag wa j k m;
      let '(rdiag, wa) := u in
      Ok (a, rdiag, wa)) (a, rdiag, wa);
    let '(a, rdiag, wa) := r in
    do rdiag <- set rdiag j (- ajnorm);
    Ok (a, ipvt, rdiag, wa).
(** solvers/mpfit.cpp:1361-1557 with pivot = 1: the factored matrix, ipvt, rdiag
    and acnorm *)
Definition qrfac (m n : nat) (a : matrix) : res (matrix * list nat * list T * list T) :=
  do acnorm <- for_ n (fun j ac => do c <- get a j; do s <- sub c 0%nat m; Ok (ac ++ [enorm s])) [];
  do r <- for_ (Nat.min m n) (qrfac_step m n) (a, seq 0%nat n, acnorm, acnorm);
  let '(a, ipvt, rdiag, wa) := r in
  Ok (a, ipvt, rdiag, acnorm).

(** ---- mp_qrsolv ---- *)
(** solvers/mpfit.cpp:1608-1620 *)
Definition qrsolv_copy (n : nat) (r : matrix) : res matrix :=
  for_ n (fun j r => for_from j (n - j)%nat (fun i r => do v <- get2 r j i; set2 r i j v) r) r.
(** solvers/mpfit.cpp:1645-1687, one pass of the loop over [k] *)
Definition givens (n k : nat) (st : matrix * list T * list T * T) : res (matrix * list T * list T * T) :=
  let '(r, sdiag, wa, qtbpj) := st in
  do sk <- get sdiag k;
  if sk == 0 then Ok st
  else
    do rkk <- get2 r k k;
    let '(c, s) :=
      if nabs N rkk <? nabs N sk then
        let cotan := rkk / sk in
        let sin := p5 / nsqrt N (p25 + p25 * cotan * cotan) in (sin * cotan, sin)
      else
        let tan := sk / rkk in
        let cos := p5 / nsqrt N (p25 + p25 * tan * tan) in (cos, cos * tan) in
    do r <- set2 r k k (c * rkk + s * sk);
    do wk <- get wa k;
    let temp := c * wk + s * qtbpj in
    let qtbpj := (- s) * wk + c * qtbpj in
    do wa <- set wa k temp;
    do q <- for_from (S k) (n - S k)%nat (fun i '(r, sdiag) =>
      do x <- get2 r i k; do y <- get sdiag i;
      let temp := c * x + s * y in
      do sdiag <- set sdiag i ((- s) * x + c * y);
      do r <- set2 r i k temp;
      Ok (r, sdiag)) (r, sdiag);
    let '(r, sdiag) := q in
    Ok (r, sdiag, wa, qtbpj).
(** solvers/mpfit.cpp:1625-1698, one pass of the loop over [j] *)
Definition eliminate (n : nat) (ipvt : list nat) (diag x : list T) (j : nat) (st : matrix * list T * list T)
  : res (matrix * list T * list T) :=
  let '(r, sdiag, wa) := st in
  do l <- get ipvt j;
  do dl <- get diag l;
  do q <- (if dl == 0 then Ok (r, sdiag, wa)
    else
      do sdiag <- for_from j (n - j)%nat (fun k sd => set sd k 0) sdiag;
      do sdiag <- set sdiag j dl;
      do g <- for_from j (n - j)%nat (givens n) (r, sdiag, wa, 0);
      let '(r, sdiag, wa, _) := g in Ok (r, sdiag, wa));
  let '(r, sdiag, wa) := q in
  do rjj <- get2 r j j;
  do sdiag <- set sdiag j rjj;
  do xj <- get x j;
  do r <- set2 r j j xj;
  Ok (r, sdiag, wa).
(** the number of leading columns before the first zero of the diagonal, with
    the entries of [wa] from there on set to zero: solvers/mpfit.cpp:1703-1709 and
    1896-1904 *)
Definition find_nsing (n : nat) (d wa : list T) : res (nat * list T) :=
  for_ n (fun j '(nsing, wa) =>
    do dj <- get d j;
    let nsing := if (dj == 0) && Nat.eqb nsing n then j else nsing in
    if Nat.ltb nsing n then do wa <- set wa j 0; Ok (nsing, wa) else Ok (nsing, wa)) (n, wa).
(** solvers/mpfit.cpp:1713-1727 *)
Definition back_subst (nsing : nat) (r : matrix) (sdiag wa : list T) : res (list T) :=
  for_ nsing (fun k wa =>
    let j := (nsing - k - 1)%nat in
    do sum <- for_from (S j) (nsing - S j)%nat (fun i sum => do a <- get2 r i j; do w <- get wa i; Ok (sum + a * w)) 0;
    do w <- get wa j; do d <- get sdiag j;
    set wa j ((w - sum) / d)) wa.
(** x[ipvt[j]] = wa[j]: solvers/mpfit.cpp:1732-1735 and 1924-1927 *)
Definition unpermute (n : nat) (ipvt : list nat) (wa x : list T) : res (list T) :=
  for_ n (fun j x => do l <- get ipvt j; do w <- get wa j; set x l w) x.
(** solvers/mpfit.cpp:1561-1740: the matrix (with S below the diagonal), x and
    sdiag *)
Definition qrsolv (n : nat) (r : matrix) (ipvt : list nat) (diag qtb : list T) : res (matrix * list T * list T) :=
  do r <- qrsolv_copy n r;
  do x <- for_ n (fun j x => do v <- get2 r j j; Ok (x ++ [v])) [];
  do wa <- sub qtb 0%nat n;
  do e <- for_ n (eliminate n ipvt diag x) (r, zeros n, wa);
  let '(r, sdiag, wa) := e in
  do q <- find_nsing n sdiag wa;
  let '(nsing, wa) := q in
  do wa <- back_subst nsing r sdiag wa;
  do x <- unpermute n ipvt wa x;
  Ok (r, x, sdiag).

(** ---- mp_lmpar ---- *)
(** solvers/mpfit.cpp:1906-1922 *)
Definition newton_dir (nsing : nat) (r : matrix) (wa : list T) : res (list T) :=
  for_ nsing (fun k wa =>
    let j := (nsing - k - 1)%nat in
    do w <- get wa j; do d <- get2 r j j;
    do wa <- set wa j (w / d);
    do temp <- get wa j;
    for_ j (fun i wa => do w <- get wa i; do a <- get2 r i j; set wa i (w - a * temp)) wa) wa.
(** diag[ifree[j]]*x[j] *)
Definition scaled (n : nat) (ifree : list nat) (diag x : list T) : res (list T) :=
  for_ n (fun j w => do p <- get ifree j; do d <- get diag p; do v <- get x j; Ok (w ++ [d * v])) [].
(** wa1[j] = diag[ifree[l]]*(wa2[l]/dxnorm): solvers/mpfit.cpp:1947-1950, 2028-2031 *)
Definition scaled_perm (n : nat) (ipvt ifree : list nat) (diag wa2 : list T) (dxnorm : T) : res (list T) :=
  for_ n (fun j w => do l <- get ipvt j; do p <- get ifree l; do d <- get diag p; do v <- get wa2 l;
    Ok (w ++ [d * (v / dxnorm)])) [].
(** solvers/mpfit.cpp:1951-1964 *)
Definition forward_subst (n : nat) (r : matrix) (wa : list T) : res (list T) :=
  for_ n (fun j wa =>
    do sum <- for_ j (fun i sum => do a <- get2 r i j; do w <- get wa i; Ok (sum + a * w)) 0;
    do w <- get wa j; do d <- get2 r j j;
    set wa j ((w - sum) / d)) wa.
(** solvers/mpfit.cpp:1972-1982 *)
Definition gradient (n : nat) (r : matrix) (ipvt ifree : list nat) (diag qtb : list T) : res (list T) :=
  for_ n (fun j w =>
    do sum <- for_ (S j) (fun i sum => do a <- get2 r i j; do q <- get qtb i; Ok (sum + a * q)) 0;
    do l <- get ipvt j; do p <- get ifree l; do d <- get diag p;
    Ok (w ++ [sum / d])) [].
(** solvers/mpfit.cpp:2032-2045 *)
Definition correction (n : nat) (r : matrix) (sdiag wa : list T) : res (list T) :=
  for_ n (fun j wa =>
    do w <- get wa j; do d <- get sdiag j;
    do wa <- set wa j (w / d);
    do temp <- get wa j;
    for_from (S j) (n - S j)%nat (fun i wa => do w <- get wa i; do a <- get2 r i j; set wa i (w - a * temp)) wa) wa.

(** solvers/mpfit.cpp:2001-2059; [left] = 10 - iter at label L150 *)
Fixpoint lmpar_loop (left : nat) (n : nat) (ipvt ifree : list nat) (diag qtb : list T) (delta : T)
    (r : matrix) (par parl paru fp : T) : res (matrix * T * list T) :=
  let par := if par == 0 then dmax1 DWARF (p001 * paru) else par in
  let temp := nsqrt N par in
  do wa1 <- for_ n (fun j w => do p <- get ifree j; do d <- get diag p; Ok (w ++ [temp * d])) [];
  do q <- qrsolv n r ipvt wa1 qtb;
  let '(r, x, sdiag) := q in
  do wa2 <- scaled n ifree diag x;
  let dxnorm := enorm wa2 in
  let temp := fp in
  let fp := dxnorm - delta in
  if (nabs N fp <=? p1 * delta) || ((parl == 0) && (fp <=? temp) && (temp <? 0)) then Ok (r, par, x)
  else match left with
  | O => Ok (r, par, x)
  | S left' =>
    do wa1 <- scaled_perm n ipvt ifree diag wa2 dxnorm;
    do wa1 <- correction n r sdiag wa1;
    let temp := enorm wa1 in
    let parc := ((fp / delta) / temp) / temp in
    let parl := if 0 <? fp then dmax1 parl par else parl in
    let paru := if fp <? 0 then dmin1 paru par else paru in
    let par := dmax1 parl (par + parc) in
    lmpar_loop left' n ipvt ifree diag qtb delta r par parl paru fp
  end.
(** solvers/mpfit.cpp:1783-2067: the matrix, *par and x *)
Definition lmpar (n : nat) (r : matrix) (ipvt ifree : list nat) (diag qtb : list T) (delta par : T)
  : res (matrix * T * list T) :=
  do wa1 <- sub qtb 0%nat n;
  do d <- for_ n (fun j d => do v <- get2 r j j; Ok (d ++ [v])) [];
  do q <- find_nsing n d wa1;
  let '(nsing, wa1) := q in
  do wa1 <- newton_dir nsing r wa1;
  do x <- unpermute n ipvt wa1 (zeros n);
  do wa2 <- scaled n ifree diag x;
  let dxnorm := enorm wa2 in
  let fp := dxnorm - delta in
  if fp <=? p1 * delta then Ok (r, 0, x)
  else
    do parl <- (if Nat.leb n nsing then
        do wa1 <- scaled_perm n ipvt ifree diag wa2 dxnorm;
        do wa1 <- forward_subst n r wa1;
        let temp := enorm wa1 in
        Ok (((fp / delta) / temp) / temp)
      else Ok 0);
    do wa1 <- gradient n r ipvt ifree diag qtb;
    let gnorm := enorm wa1 in
    let paru := gnorm / delta in
    let paru := if paru == 0 then DWARF / dmin1 delta p1 else paru in
    let par := dmax1 par parl in
    let par := dmin1 par paru in
    let par := if par == 0 then gnorm / dxnorm else par in
    lmpar_loop 9 n ipvt ifree diag qtb delta r par parl paru fp.

(** ---- mp_covar ---- *)
(** solvers/mpfit.cpp:2190-2208; the loop ends at the first small diagonal entry;
    the second component is [l + 1] *)
Fixpoint invert_r (left k : nat) (tolr : T) (r : matrix) : res (matrix * nat) :=
  match left with
  | O => Ok (r, k)
  | S left' =>
    do rkk <- get2 r k k;
    if nabs N rkk <=? tolr then Ok (r, k)
    else
      do r <- set2 r k k (1 / rkk);
      do r <- for_ k (fun j r =>
        do rkk <- get2 r k k; do rjk <- get2 r j k;
        let temp := rkk * rjk in
        do r <- set2 r j k 0;
        for_ (S j) (fun i r => do a <- get2 r i k; do b <- get2 r i j; set2 r i k (a + (- temp) * b)) r) r;
      invert_r left' (S k) tolr r
  end.
(** solvers/mpfit.cpp:2215-2233 *)
Definition form_inverse (l1 : nat) (r : matrix) : res matrix :=
  for_ l1 (fun k r =>
    do r <- for_ k (fun j r =>
      do temp <- get2 r j k;
      for_ (S j) (fun i r => do a <- get2 r i j; do b <- get2 r i k; set2 r i j (a + temp * b)) r) r;
    do temp <- get2 r k k;
    for_ (S k) (fun i r => do a <- get2 r i k; set2 r i k (a * temp)) r) r.
(** solvers/mpfit.cpp:2239-2253 *)
Definition unpermute_cov (n l1 : nat) (ipvt : list nat) (r : matrix) (wa : list T) : res (matrix * list T) :=
  for_ n (fun j '(r, wa) =>
    do jj <- get ipvt j;
    do r <- for_ (S j) (fun i r =>
      do r <- (if Nat.leb l1 j then set2 r i j 0 else Ok r);
      do ii <- get ipvt i;
      do v <- get2 r i j;
      do r <- (if Nat.ltb jj ii then set2 r ii jj v else Ok r);
      (if Nat.ltb ii jj then set2 r jj ii v else Ok r)) r;
    do v <- get2 r j j;
    do wa <- set wa jj v;
    Ok (r, wa)) (r, wa).
(** solvers/mpfit.cpp:2258-2264 *)
Definition symmetrize (n : nat) (r : matrix) (wa : list T) : res matrix :=
  for_ n (fun j r =>
    do r <- for_ j (fun i r => do v <- get2 r j i; set2 r i j v) r;
    do w <- get wa j; set2 r j j w) r.
(** solvers/mpfit.cpp:2165-2275 *)
Definition covar (n : nat) (r : matrix) (ipvt : list nat) (tol : T) : res matrix :=
  do r00 <- get2 r 0%nat 0%nat;
  do q <- invert_r n 0%nat (tol * nabs N r00) r;
  let '(r, l1) := q in
  do r <- form_inverse l1 r;
  do q <- unpermute_cov n l1 ipvt r (zeros n);
  let '(r, wa) := q in
  symmetrize n r wa.

(** ---- mpfit ---- *)
Variable funct : nat -> list T -> list T.
Variable interrupted : nat -> bool.
Variable fuel : nat.

(** solvers/mpfit.h:57-71, the fields mpfit() uses *)
Record mp_config := mkConf {
  ftol : T; xtol : T; gtol : T; stepfactor : T; epsfcn : T; covtol : T; maxiter : Z; maxfev : Z; nprint : Z }.
(** solvers/mpfit.cpp:378-403 (douserscale and nofinitecheck keep their defaults,
    0 and 1, when the caller leaves them 0) *)
Definition merge_config (c : mp_config) : mp_config :=
  let tol := ndec N 1 10 in
  mkConf (if 0 <? ftol c then ftol c else tol) (if 0 <? xtol c then xtol c else tol)
    (if 0 <? gtol c then gtol c else tol) (if 0 <? stepfactor c then stepfactor c else nofZ N 100)
    (if 0 <? epsfcn c then epsfcn c else MACHEP0) (if 0 <? covtol c then covtol c else ndec N 1 14)
    (if (0 <? maxiter c)%Z then maxiter c else 200%Z) (maxfev c) (if (0 <=? nprint c)%Z then nprint c else 1%Z).

(** the calls made so far, last first *)
Definition log := list (why * list T * list T).
Definition evaluate (w : why) (v : list T) (cs : log) : list T * log :=
  let r := funct (length cs) v in (r, (w, v, r) :: cs).

(** solvers/mpfit.cpp:452-457 *)
Definition free_indices (pars : option (list (limits T))) (npar : nat) : res (list nat) :=
  for_ npar (fun i fr =>
    match pars with
    | None => Ok (fr ++ [i])
    | Some ps => do p <- get ps i; Ok (if fixed p then fr else fr ++ [i])
    end) [].
(** solvers/mpfit.cpp:464-475 *)
Definition check_limits (npar : nat) (ps : list (limits T)) (xall : list T) : res (option Z) :=
  for_ npar (fun i err =>
    match err with
    | Some _ => Ok err
    | None =>
      do p <- get ps i; do x <- get xall i;
      if negb (fixed p) && limited0 p && limited1 p && (lim1 p <=? lim0 p) then Ok (Some MP_ERR_BOUNDS)
      else if (limited0 p && (x <? lim0 p)) || (limited1 p && (lim1 p <? x)) then Ok (Some MP_ERR_INITBOUNDS)
      else Ok None
    end) None.
(** solvers/mpfit.cpp:477-488: qllim, qulim, llim, ulim of the free parameters *)
Definition free_limits (ifree : list nat) (ps : list (limits T)) : res (list (limits T)) :=
  for_ (length ifree) (fun i q => do p <- get ifree i; do l <- get ps p; Ok (q ++ [l])) [].

(** xnew[ifree[i]] = x[i]: solvers/mpfit.cpp:552-554, 827-829, 1007-1009 *)
Definition spread (nfree : nat) (ifree : list nat) (x xall : list T) : res (list T) :=
  for_ nfree (fun i xn => do v <- get x i; do p <- get ifree i; set xn p v) xall.

(** solvers/mpfit.cpp:1254-1275: the step for parameter [j]. LevMarFit leaves the
    fields step, relstep, side and deriv_debug of the limits 0, so only the
    two automatic choices of the step remain. *)
Definition fd_step (eps : T) (lims : option (list (limits T))) (j : nat) (temp : T) : res T :=
  let h := eps * nabs N temp in
  let h := if h == 0 then eps else h in
  do up <- match lims with
    | None => Ok false
    | Some q => do l <- get q j; Ok (limited1 l && ((lim1 l - h) <? temp))
    end;
  Ok (if up then - h else h).
(** solvers/mpfit.cpp:1102-1357 for these settings: the Jacobian and the calls *)
Definition fdjac2 (m nfree : nat) (ifree : list nat) (x fvec : list T) (epsfcn : T)
    (lims : option (list (limits T))) (cs : log) : res (matrix * log) :=
  let eps := nsqrt N (dmax1 epsfcn MACHEP0) in
  do r <- for_ nfree (fun j '(x, fjac, cs) =>
    do p <- get ifree j;
    do temp <- get x p;
    do h <- fd_step eps lims j temp;
    do x1 <- set x p (temp + h);
    let '(wa, cs) := evaluate Derivative x1 cs in
    do x2 <- set x1 p temp;
    do col <- for_ m (fun i col => do a <- get wa i; do b <- get fvec i; Ok (col ++ [(a - b) / h])) [];
    Ok (x2, fjac ++ [col], cs)) (x, [], cs);
  let '(_, fjac, cs) := r in
  Ok (fjac, cs).

(** solvers/mpfit.cpp:576-599: columns of parameters pegged at a limit *)
Definition peg_columns (m nfree : nat) (lims : list (limits T)) (x fvec : list T) (fjac : matrix) : res matrix :=
  for_ nfree (fun j fjac =>
    do l <- get lims j; do xj <- get x j; do c <- get fjac j;
    let lpegged := limited0 l && (xj == lim0 l) in
    let upegged := limited1 l && (xj == lim1 l) in
    do sum <- (if lpegged || upegged then dot fvec c 0%nat m else Ok 0);
    do fjac <- (if lpegged && (0 <? sum) then set fjac j (zeros m) else Ok fjac);
    (if upegged && (sum <? 0) then set fjac j (zeros m) else Ok fjac)) fjac.

(** solvers/mpfit.cpp:650-674: qtf, and R with its diagonal in fjac *)
Definition apply_qt (m nfree : nat) (fjac : matrix) (rdiag fvec : list T) : res (matrix * list T) :=
  do r <- for_ nfree (fun j '(fjac, wa4, qtf) =>
    do c <- get fjac j;
    do temp3 <- get c j;
    do wa4 <- (if temp3 == 0 then Ok wa4
      else
        do sum <- dot c wa4 j m;
        let temp := (- sum) / temp3 in
        for_from j (m - j)%nat (fun i w => do a <- get w i; do b <- get c i; set w i (a + b * temp)) wa4);
    do d <- get rdiag j;
    do fjac <- set2 fjac j j d;
    do q <- get wa4 j;
    Ok (fjac, wa4, qtf ++ [q])) (fjac, fvec, []);
  let '(fjac, _, qtf) := r in
  Ok (fjac, qtf).
(** solvers/mpfit.cpp:684-698 *)
Definition all_finite (nfree : nat) (fjac : matrix) : res bool :=
  for_ nfree (fun j ok => for_ nfree (fun i ok => do v <- get2 fjac i j; Ok (ok && nfin N v)) ok) true.
(** solvers/mpfit.cpp:705-721 *)
Definition grad_norm (nfree : nat) (fjac : matrix) (ipvt : list nat) (wa2 qtf : list T) (fnorm : T) : res T :=
  if fnorm == 0 then Ok 0
  else for_ nfree (fun j g =>
    do l <- get ipvt j; do w <- get wa2 l;
    if w == 0 then Ok g
    else
      do sum <- for_ (S j) (fun i sum => do a <- get2 fjac i j; do q <- get qtf i; Ok (sum + a * (q / fnorm))) 0;
      Ok (dmax1 g (nabs N (sum / w)))) 0.
(** solvers/mpfit.cpp:623-632 *)
Definition initial_diag (nfree : nat) (ifree : list nat) (wa2 diag : list T) : res (list T) :=
  for_ nfree (fun j d => do p <- get ifree j; do w <- get wa2 j; set d p (if w == 0 then 1 else w)) diag.
(** solvers/mpfit.cpp:733-737 *)
Definition rescale (nfree : nat) (ifree : list nat) (wa2 diag : list T) : res (list T) :=
  for_ nfree (fun j d => do p <- get ifree j; do w <- get wa2 j; do a <- get d p; set d p (dmax1 a w)) diag.

(** the local variables of mpfit() that live across iterations *)
Record lm_state := mkLM {
  s_x : list T; s_fvec : list T; s_fnorm : T; s_fnorm1 : T; s_par : T; s_delta : T; s_xnorm : T; s_iter : Z;
  s_diag : list T; s_fjac : matrix; s_ipvt : list nat; s_qtf : list T; s_gnorm : T; s_log : log }.

(** solvers/mpfit.cpp:798-799 *)
Definition ulim1 (u : T) : T :=
  let sgnu := if 0 <=? u then 1 else nofZ N (-1) in
  u * (1 - sgnu * MACHEP0) - (if u == 0 then MACHEP0 else 0).
Definition llim1 (l : T) : T :=
  let sgnl := if 0 <=? l then 1 else nofZ N (-1) in
  l * (1 + sgnl * MACHEP0) + (if l == 0 then MACHEP0 else 0).

(** solvers/mpfit.cpp:769-783: pegged components of the step, and alpha *)
Definition limit_step (nfree : nat) (lims : list (limits T)) (x wa1 : list T) : res (list T * T) :=
  for_ nfree (fun j '(wa1, alpha) =>
    do l <- get lims j; do xj <- get x j; do w <- get wa1 j;
    let lpegged := limited0 l && (xj <=? lim0 l) in
    let upegged := limited1 l && (lim1 l <=? xj) in
    let dwa1 := MACHEP0 <? nabs N w in
    let w := if lpegged && (w <? 0) then 0 else w in
    let w := if upegged && (0 <? w) then 0 else w in
    do wa1 <- set wa1 j w;
    let alpha := if dwa1 && limited0 l && ((xj + w) <? lim0 l) then dmin1 alpha ((lim0 l - xj) / w) else alpha in
    let alpha := if dwa1 && limited1 l && (lim1 l <? (xj + w)) then dmin1 alpha ((lim1 l - xj) / w) else alpha in
    Ok (wa1, alpha)) (wa1, 1).
(** solvers/mpfit.cpp:786-807: scale the step and move *)
Definition move (nfree : nat) (lims : list (limits T)) (x wa1 : list T) (alpha : T) : res (list T * list T) :=
  for_ nfree (fun j '(wa1, wa2) =>
    do l <- get lims j; do xj <- get x j; do w <- get wa1 j;
    let w := w * alpha in
    do wa1 <- set wa1 j w;
    let y := xj + w in
    let y := if limited1 l && (ulim1 (lim1 l) <=? y) then lim1 l else y in
    let y := if limited0 l && (y <=? llim1 (lim0 l)) then lim0 l else y in
    Ok (wa1, wa2 ++ [y])) (wa1, []).
(** solvers/mpfit.cpp:853-864: R times the step *)
Definition r_times (nfree : nat) (fjac : matrix) (ipvt : list nat) (wa1 : list T) : res (list T) :=
  for_ nfree (fun j wa3 =>
    do wa3 <- set wa3 j 0;
    do l <- get ipvt j; do temp <- get wa1 l;
    for_ (S j) (fun i wa3 => do a <- get wa3 i; do b <- get2 fjac i j; set wa3 i (a + b * temp)) wa3) (zeros nfree).

Inductive next := Inner | Outer | Stop (info : Z).

Section Fit.
Variable m nfree : nat.
Variable ifree : list nat.
(** None: pars is null *)
Variable lims : option (list (limits T)).
Variable conf : mp_config.
Variable xall : list T.

(** qanylim with the limits, when it is not 0 *)
Definition any_limits : option (list (limits T)) :=
  match lims with
  | None => None
  | Some q => if existsb (fun l => limited0 l || limited1 l) q then Some q else None
  end.

(** solvers/mpfit.cpp:551-737, one pass of the outer loop up to the inner loop;
    [Some info] when the loop ends, with [true] if it leaves through CLEANUP *)
Definition outer_step (s : lm_state) : res (lm_state * option (bool * Z)) :=
  do xnew <- spread nfree ifree (s_x s) xall;
  do q <- fdjac2 m nfree ifree xnew (s_fvec s) (epsfcn conf) lims (s_log s);
  let '(fjac, cs) := q in
  do fjac <- match any_limits with None => Ok fjac | Some q => peg_columns m nfree q (s_x s) (s_fvec s) fjac end;
  do q <- qrfac m nfree fjac;
  let '(fjac, ipvt, rdiag, wa2) := q in
  do d <- (if (s_iter s =? 1)%Z then
      do diag <- initial_diag nfree ifree wa2 (s_diag s);
      do wa3 <- scaled nfree ifree diag (s_x s);
      let xnorm := enorm wa3 in
      let delta := stepfactor conf * xnorm in
      Ok (diag, xnorm, if delta == 0 then stepfactor conf else delta)
    else Ok (s_diag s, s_xnorm s, s_delta s));
  let '(diag, xnorm, delta) := d in
  do q <- apply_qt m nfree fjac rdiag (s_fvec s);
  let '(fjac, qtf) := q in
  do fin <- all_finite nfree fjac;
  if negb fin then
    Ok (mkLM (s_x s) (s_fvec s) (s_fnorm s) (s_fnorm1 s) (s_par s) delta xnorm (s_iter s) diag fjac ipvt qtf (s_gnorm s) cs,
        Some (true, MP_ERR_NAN))
  else
    do gnorm <- grad_norm nfree fjac ipvt wa2 qtf (s_fnorm s);
    let s' diag := mkLM (s_x s) (s_fvec s) (s_fnorm s) (s_fnorm1 s) (s_par s) delta xnorm (s_iter s) diag fjac ipvt qtf gnorm cs in
    if gnorm <=? gtol conf then Ok (s' diag, Some (false, MP_OK_DIR))
    else if (maxiter conf =? 0)%Z then Ok (s' diag, Some (false, 0%Z))
    else
      do diag <- rescale nfree ifree wa2 diag;
      Ok (s' diag, None).

(** solvers/mpfit.cpp:943-996: what happens after a trial *)
Definition decide (s : lm_state) (actred prered ratio : T) : next :=
  let chi := (nabs N actred <=? ftol conf) && (prered <=? ftol conf) && (p5 * ratio <=? 1) in
  let info := if chi then MP_OK_CHI else 0%Z in
  let info := if s_delta s <=? xtol conf * s_xnorm s then MP_OK_PAR else info in
  let info := if chi && (info =? 2)%Z then MP_OK_BOTH else info in
  if negb (info =? 0)%Z then Stop info
  else
    let nfev := Z.of_nat (length (s_log s)) in
    let info := if interrupted (length (s_log s)) then MP_SIGINT else 0%Z in
    let info := if (0 <? maxfev conf)%Z && (maxfev conf <=? nfev)%Z then MP_MAXITER else info in
    let info := if (maxiter conf <=? s_iter s)%Z then MP_MAXITER else info in
    let info := if (nabs N actred <=? MACHEP0) && (prered <=? MACHEP0) && (p5 * ratio <=? 1) then MP_FTOL else info in
    let info := if s_delta s <=? MACHEP0 * s_xnorm s then MP_XTOL else info in
    let info := if s_gnorm s <=? MACHEP0 then MP_GTOL else info in
    if negb (info =? 0)%Z then Stop info
    else if ratio <? p0001 then Inner else Outer.

(** solvers/mpfit.cpp:742-996, one pass of the inner loop *)
Definition inner_step (s : lm_state) : res (lm_state * next) :=
  do q <- lmpar nfree (s_fjac s) (s_ipvt s) ifree (s_diag s) (s_qtf s) (s_delta s) (s_par s);
  let '(fjac, par, wa1) := q in
  do wa1 <- for_ nfree (fun j w => do v <- get wa1 j; Ok (w ++ [- v])) [];
  do q <- match any_limits with
    | None =>
      do wa2 <- for_ nfree (fun j w => do xj <- get (s_x s) j; do v <- get wa1 j; Ok (w ++ [xj + v])) [];
      Ok (wa1, wa2, 1)
    | Some ls =>
      do q <- limit_step nfree ls (s_x s) wa1;
      let '(wa1, alpha) := q in
      do q <- move nfree ls (s_x s) wa1 alpha;
      let '(wa1, wa2) := q in
      Ok (wa1, wa2, alpha)
    end;
  let '(wa1, wa2, alpha) := q in
  do wa3 <- scaled nfree ifree (s_diag s) wa1;
  let pnorm := enorm wa3 in
  let delta := if (s_iter s =? 1)%Z then dmin1 (s_delta s) pnorm else s_delta s in
  do xnew <- spread nfree ifree wa2 xall;
  let '(wa4, cs) := evaluate Trial xnew (s_log s) in
  let fnorm := s_fnorm s in
  let fnorm1 := enorm wa4 in
  let actred := if p1 * fnorm1 <? fnorm then let temp := fnorm1 / fnorm in 1 - temp * temp else nneg N 1 in
  do wa3 <- r_times nfree fjac (s_ipvt s) wa1;
  let temp1 := enorm wa3 * alpha / fnorm in
  let temp2 := (nsqrt N (alpha * par) * pnorm) / fnorm in
  let prered := temp1 * temp1 + (temp2 * temp2) / p5 in
  let dirder := - (temp1 * temp1 + temp2 * temp2) in
  let ratio := if prered == 0 then 0 else actred / prered in
  let '(delta, par) :=
    if ratio <=? p25 then
      let temp := if 0 <=? actred then p5 else p5 * dirder / (dirder + p5 * actred) in
      let temp := if (fnorm <=? p1 * fnorm1) || (temp <? p1) then p1 else temp in
      (temp * dmin1 delta (pnorm / p1), par / temp)
    else if (par == 0) || (p75 <=? ratio) then (pnorm / p5, p5 * par)
    else (delta, par) in
  do s' <- (if p0001 <=? ratio then
      do w <- scaled nfree ifree (s_diag s) wa2;
      Ok (mkLM wa2 wa4 fnorm1 fnorm1 par delta (enorm w) (s_iter s + 1)%Z (s_diag s) fjac (s_ipvt s) (s_qtf s) (s_gnorm s) cs)
    else
      Ok (mkLM (s_x s) (s_fvec s) fnorm fnorm1 par delta (s_xnorm s) (s_iter s) (s_diag s) fjac (s_ipvt s) (s_qtf s) (s_gnorm s) cs));
  Ok (s', decide s' actred prered ratio).

(** the two loops; [inside] tells which of them is running *)
Fixpoint run (f : nat) (inside : bool) (s : lm_state) : res (lm_state * bool * Z) :=
  match f with
  | O => Fuel
  | S f' =>
    if inside then
      do r <- inner_step s;
      let '(s, n) := r in
      match n with Inner => run f' true s | Outer => run f' false s | Stop info => Ok (s, false, info) end
    else
      do r <- outer_step s;
      let '(s, e) := r in
      match e with None => run f' true s | Some (cleanup, info) => Ok (s, cleanup, info) end
  end.
End Fit.

(** solvers/mpfit.h:74-92, the fields LevMarFit passes on *)
Record mp_result := mkRes {
  bestnorm : T; orignorm : T; niter : Z; nfev : Z; nfreeparams : Z; npegged : Z; xerror : list T }.

(** solvers/mpfit.cpp:1041-1048 *)
Definition x_errors (npar nfree : nat) (ifree : list nat) (cov : matrix) : res (list T) :=
  for_ nfree (fun j xe => do cc <- get2 cov j j; do p <- get ifree j;
    if 0 <? cc then set xe p (nsqrt N cc) else Ok xe) (zeros npar).
(** solvers/mpfit.cpp:1017-1023 *)
Definition count_pegged (npar : nat) (pars : option (list (limits T))) (xall : list T) : res Z :=
  match pars with
  | None => Ok 0%Z
  | Some ps => for_ npar (fun i n =>
      do p <- get ps i; do x <- get xall i;
      Ok (if (limited0 p && (lim0 p == x)) || (limited1 p && (lim1 p == x)) then (n + 1)%Z else n)) 0%Z
  end.

(** solvers/mpfit.cpp:352-1097: status, the parameters after the call, the fields
    of the result structure when it was filled in, and the calls of the function *)
Definition mpfit (m npar : Z) (xall : list T) (pars : option (list (limits T))) (config : mp_config)
  : res (Z * list T * option mp_result * log) :=
  let conf := merge_config config in
  if (m <=? 0)%Z then Ok (MP_ERR_NPOINTS, xall, None, [])
  else if (npar <=? 0)%Z then Ok (MP_ERR_NFREE, xall, None, [])
  else
    let m' := Z.to_nat m in
    let n' := Z.to_nat npar in
    do ifree <- free_indices pars n';
    let nfree := length ifree in
    if Nat.eqb nfree 0 then Ok (MP_ERR_NFREE, xall, None, [])
    else
      do err <- match pars with None => Ok None | Some ps => check_limits n' ps xall end;
      match err with
      | Some e => Ok (e, xall, None, [])
      | None =>
        do lims <- match pars with None => Ok None | Some ps => do q <- free_limits ifree ps; Ok (Some q) end;
        if (ftol conf <=? 0) || (xtol conf <=? 0) || (gtol conf <=? 0) || (maxiter conf <? 0)%Z || (stepfactor conf <=? 0)
        then Ok (MP_ERR_PARAM, xall, None, [])
        else if Nat.ltb m' nfree then Ok (MP_ERR_DOF, xall, None, [])
        else
          let '(fvec, cs) := evaluate Start xall [] in
          let fnorm := enorm fvec in
          do x <- for_ nfree (fun i x => do p <- get ifree i; do v <- get xall p; Ok (x ++ [v])) [];
          let s0 := mkLM x fvec fnorm (nofZ N (-1)) 0 0 (nofZ N (-1)) 1%Z (zeros n') [] [] (zeros nfree) 0 cs in
          do r <- run m' nfree ifree lims conf xall fuel false s0;
          let '(s, cleanup, info) := r in
          if cleanup : bool then Ok (info, xall, None, s_log s)
          else
            do xout <- spread nfree ifree (s_x s) xall;
            do peg <- count_pegged n' pars xout;
            do cov <- covar nfree (s_fjac s) (s_ipvt s) (covtol conf);
            do xe <- x_errors n' nfree ifree cov;
            let cs := if (0 <? nprint conf)%Z && (0 <? info)%Z then snd (evaluate Final xout (s_log s)) else s_log s in
            let b := dmax1 (s_fnorm s) (s_fnorm1 s) in
            Ok (info, xout,
                Some (mkRes (b * b) (fnorm * fnorm) (s_iter s) (Z.of_nat (length cs)) (Z.of_nat nfree) peg xe), cs)
      end.
End LM.
Arguments MACHEP0 {T}.
Arguments DWARF {T}.
Arguments p0001 {T}.
Arguments p001 {T}.
Arguments p05 {T}.
Arguments p1 {T}.
Arguments p25 {T}.
Arguments p5 {T}.
Arguments p75 {T}.
Arguments dmax1 {T}.
Arguments dmin1 {T}.
Arguments get2 {T}.
Arguments set2 {T}.
Arguments sub {T}.
Arguments zeros {T}.
Arguments dot {T}.
Arguments find_kmax {T}.
Arguments exchange {T}.
Arguments scale_col {T}.
Arguments reflect {T}.
Arguments update_norm {T}.
Arguments qrfac_step {T}.
Arguments qrfac {T}.
Arguments qrsolv_copy {T}.
Arguments givens {T}.
Arguments eliminate {T}.
Arguments find_nsing {T}.
Arguments back_subst {T}.
Arguments unpermute {T}.
Arguments qrsolv {T}.
Arguments newton_dir {T}.
Arguments scaled {T}.
Arguments scaled_perm {T}.
Arguments forward_subst {T}.
Arguments gradient {T}.
Arguments correction {T}.
Arguments lmpar_loop {T}.
Arguments lmpar {T}.
Arguments invert_r {T}.
Arguments form_inverse {T}.
Arguments unpermute_cov {T}.
Arguments symmetrize {T}.
Arguments covar {T}.
Arguments merge_config {T}.
Arguments evaluate {T}.
Arguments free_indices {T}.
Arguments check_limits {T}.
Arguments free_limits {T}.
Arguments spread {T}.
Arguments fd_step {T}.
Arguments fdjac2 {T}.
Arguments peg_columns {T}.
Arguments apply_qt {T}.
Arguments all_finite {T}.
Arguments grad_norm {T}.
Arguments initial_diag {T}.
Arguments rescale {T}.
Arguments ulim1 {T}.
Arguments llim1 {T}.
Arguments limit_step {T}.
Arguments move {T}.
Arguments r_times {T}.
Arguments any_limits {T}.
Arguments outer_step {T}.
Arguments decide {T}.
Arguments inner_step {T}.
Arguments run {T}.
Arguments x_errors {T}.
Arguments count_pegged {T}.
Arguments mpfit {T}.
Arguments mkConf {T}. Arguments ftol {T}. Arguments xtol {T}. Arguments gtol {T}. Arguments stepfactor {T}. Arguments epsfcn {T}. Arguments covtol {T}. Arguments maxiter {T}. Arguments maxfev {T}. Arguments nprint {T}. Arguments mkLM {T}. Arguments s_x {T}. Arguments s_fvec {T}. Arguments s_fnorm {T}. Arguments s_fnorm1 {T}. Arguments s_par {T}. Arguments s_delta {T}. Arguments s_xnorm {T}. Arguments s_iter {T}. Arguments s_diag {T}. Arguments s_fjac {T}. Arguments s_ipvt {T}. Arguments s_qtf {T}. Arguments s_gnorm {T}. Arguments s_log {T}. Arguments mkRes {T}. Arguments bestnorm {T}. Arguments orignorm {T}. Arguments niter {T}. Arguments nfev {T}. Arguments nfreeparams {T}. Arguments npegged {T}. Arguments xerror {T}.

(** solvers/levmar_fit.cpp:66-116; [limitsExist] is paramLimitsExist *)
Definition LevMarFit {T} (N : Num T) (funct : nat -> list T -> list T) (interrupted : nat -> bool) (fuel : nat)
    (nDataVals nParamsTot : Z) (params : list T) (lims : list (limits T)) (ftol : T) (limitsExist : bool)
  : res (Z * list T * option (mp_result T) * log T) :=
  let zero := nofZ N 0 in
  mpfit N (mp_enorm N) funct interrupted fuel nDataVals nParamsTot params
    (if limitsExist then Some lims else None)
    (mkConf ftol zero zero zero zero zero 1000%Z 0%Z 0%Z).
