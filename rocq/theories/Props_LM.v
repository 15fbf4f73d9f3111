(** C41-C44: the Levenberg-Marquardt solver. [deviates k v] is the vector written
    by the k-th call of the function that computes the deviates, [stop k] whether
    the user has interrupted the program after [k] calls: both arbitrary. The
    result holds the status, the parameters after the call, the result structure
    when it was filled in, and the calls made (reason, parameters, deviates), most
    recent first. *)
From Coq Require Import ZArith List Bool Lia Reals Lra Permutation.
From Flocq Require Import Core.Core IEEE754.BinarySingleNaN.
From Verif Require Import Base Num Sums FloatFacts FloatOrder Stats_Model Stats_Spec DE_Model LM_Model LM_Spec DE_FloatProof LM_Proof LM_FloatProof LM_QR LM_QRReal LM_RealProof.
Import ListNotations.
Local Open Scope R_scope.

(** ---- C41 ---- *)
(** binary64: a run that evaluates anything started within the limits; the
    result and every trial vector are within them, fixed parameters keep their
    value; a run that evaluates nothing leaves the parameters as they were. *)
Theorem C41_limits : forall m deviates stop fuel nData params lims ftol limitsExist status out r calls,
  LevMarFit (NumF m) deviates stop fuel nData (Z.of_nat (length params)) params lims ftol limitsExist = Ok (status, out, r, calls) ->
  let pars := if limitsExist then Some lims else None in
  keeps pars params out /\ (calls = [] -> out = params) /\
  (calls <> [] -> within f_ltb pars params /\ within f_ltb pars out) /\
  (forall reason v d, In (reason, v, d) calls -> reason <> Derivative -> keeps pars params v /\ within f_ltb pars v).
Proof.
  intros m deviates stop fuel nData params lims ftol limitsExist status out r calls E pars.
  pose proof (@mpfit_ok F64 (NumF m) (mp_enorm (NumF m)) deviates stop fuel (@F_up m) (@F_lo m) (@F_irr m) (@F_ord m) pos (@enorm_pos m) (@F_trans m) (@F_accept m) params pars nData (Z.of_nat (length params)) _ status out r calls (eq_sym (Nat2Z.id (length params))) E) as H.
  destruct H as (K & [(_ & -> & -> & _)|(W0 & W & Fo & _ & [B|(fv & B & _)] & _)]).
  - split; [exact K|]. split; [reflexivity|]. split; [intros Q; now contradiction Q|]. intros ? ? ? [].
  - subst out. split; [exact K|]. split; [reflexivity|]. split; [intros _; split; assumption|].
    intros reason v d Hin Hr. rewrite Forall_forall in Fo. specialize (Fo _ Hin). destruct reason; cbn [entry_good] in Fo; [|congruence|exact Fo|exact Fo].
    subst v. split; [split; auto|exact W0].
  - split; [exact K|]. split; [intros ->; destruct B|]. split; [intros _; split; assumption|].
    intros reason v d Hin Hr. rewrite Forall_forall in Fo. specialize (Fo _ Hin). destruct reason; cbn [entry_good] in Fo; [|congruence|exact Fo|exact Fo].
    subst v. split; [split; auto|exact W0].
Qed.
Print Assumptions C41_limits.

(** Contradictory limits and a start outside the limits are rejected, without
    evaluating anything, with the documented codes -22 and -21; *)
Theorem C41_rejected : forall m deviates stop fuel nData params lims ftol status out r calls,
  LevMarFit (NumF m) deviates stop fuel nData (Z.of_nat (length params)) params lims ftol true = Ok (status, out, r, calls) ->
  (0 < nData)%Z -> (exists j p, (j < length params)%nat /\ nth_error lims j = Some p /\ fixed p = false) ->
  bad_limits f_ltb f_leb lims params ->
  (status = (-22)%Z \/ status = (-21)%Z) /\ out = params /\ r = None /\ calls = [].
Proof. intros m deviates stop fuel nData params lims ftol status out r calls E Hm Hf Hb. exact (@rejected F64 (NumF m) deviates stop fuel nData params lims _ status out r calls Hm E Hf Hb). Qed.
Print Assumptions C41_rejected.
(** and these codes are used for nothing else. *)
Theorem C41_codes : forall m deviates stop fuel nData params lims ftol limitsExist status out r calls,
  LevMarFit (NumF m) deviates stop fuel nData (Z.of_nat (length params)) params lims ftol limitsExist = Ok (status, out, r, calls) ->
  (status = (-22)%Z -> limitsExist = true /\ exists p, In p lims /\ empty_interval f_leb p) /\
  (status = (-21)%Z -> limitsExist = true /\ exists j p x, nth_error lims j = Some p /\ nth_error params j = Some x /\ starts_outside f_ltb p x).
Proof.
  intros m deviates stop fuel nData params lims ftol limitsExist status out r calls E.
  destruct (@mpfit_codes F64 (NumF m) _ _ _ _ _ _ _ _ _ _ _ _ E) as (A & B). split; intros H.
  - destruct (A H) as (ps & p & Hp & Q). destruct limitsExist; [injection Hp as <-|discriminate]. split; [reflexivity|]. exists p. exact Q.
  - destruct (B H) as (ps & j & p & x & Hp & Q). destruct limitsExist; [injection Hp as <-|discriminate]. split; [reflexivity|]. exists j, p, x. exact Q.
Qed.
Print Assumptions C41_codes.

(** a run: the deviates 3 - a - b*t and b - 4 at t = 1, 2; [b] fixed at 1,
    0 <= a <= 3/2 *)
Definition demo_dev (k : nat) (v : list F64) : list F64 :=
  match v with
  | [a; b] => [f_sub (f_ofZ 3) (f_add a b); f_sub (f_ofZ 5) (f_add a (f_mul b (f_ofZ 2)))]
  | _ => []
  end.
Definition demo_lims : list (limits F64) :=
  [mkLim false true true (f_ofZ 0) (f_div (f_ofZ 3) (f_ofZ 2)); mkLim true false false (f_ofZ 0) (f_ofZ 0)].
Definition demo_fit (m : Libm) := LevMarFit (NumF m) demo_dev (fun _ => false) 40 2 2 [f_ofZ 1; f_ofZ 1] demo_lims (f_dec 1 8) true.
Example C41_case : forall m, exists status out r calls, demo_fit m = Ok (status, out, r, calls) /\ calls <> [] /\
  nth_error out 0 = Some (f_div (f_ofZ 3) (f_ofZ 2)).
Proof.
  intros m. assert (H : match demo_fit m with Ok (_, [a; _], _, _ :: _) => f_eqb a (f_div (f_ofZ 3) (f_ofZ 2)) | _ => false end = true) by (vm_compute; reflexivity).
  destruct (demo_fit m) as [[[[status out] r] calls]| | |]; [|discriminate|discriminate|discriminate].
  destruct out as [|a [|b [|c out]]]; try discriminate. destruct calls as [|e calls]; [discriminate|].
  exists status, [a; b], r, (e :: calls). split; [reflexivity|]. split; [discriminate|]. cbn [nth_error]. f_equal.
  apply eqb_exact; [exact H|]. vm_compute. reflexivity.
Qed.
Example C41_rejected_case : forall m,
  match LevMarFit (NumF m) demo_dev (fun _ => false) 40 2 2 [f_ofZ 2; f_ofZ 1] demo_lims (f_dec 1 8) true with Ok (status, _, None, []) => Z.eqb status (-21) | _ => false end = true.
Proof. intros m. vm_compute. reflexivity. Qed.

(** ---- C42 ---- *)
(** binary64: either the parameters are the starting ones, or they are a trial
    vector at which the norm of the deviates is smaller than at the start. *)
Theorem C42_not_worse : forall m deviates stop fuel nData params lims ftol limitsExist status out r calls,
  LevMarFit (NumF m) deviates stop fuel nData (Z.of_nat (length params)) params lims ftol limitsExist = Ok (status, out, r, calls) ->
  out = params \/
  exists k, nth_error (rev calls) k = Some (Trial, out, deviates k out) /\
    f_ltb (mp_enorm (NumF m) (deviates k out)) (mp_enorm (NumF m) (deviates 0%nat params)) = true.
Proof.
  intros m deviates stop fuel nData params lims ftol limitsExist status out r calls E.
  pose proof (@mpfit_ok F64 (NumF m) (mp_enorm (NumF m)) deviates stop fuel (@F_up m) (@F_lo m) (@F_irr m) (@F_ord m) pos (@enorm_pos m) (@F_trans m) (@F_accept m) params (if limitsExist then Some lims else None) nData (Z.of_nat (length params)) _ status out r calls (eq_sym (Nat2Z.id (length params))) E) as H.
  destruct H as (K & [(_ & _ & -> & _)|(_ & _ & _ & C & [B|(fv & B & B2)] & _)]); [left; reflexivity|left; exact B|right].
  apply in_rev in B. apply In_nth_error in B. destruct B as (k & Hk). pose proof (C _ _ _ _ Hk) as ->. exists k. split; [exact Hk|exact B2].
Qed.
Print Assumptions C42_not_worse.
(** Exact arithmetic: the sum of squares of the deviates decreases, as long as
    they are of reasonable size. *)
Theorem C42_sum_of_squares : forall deviates stop fuel nData params lims ftol limitsExist status out r calls,
  LevMarFit NumR deviates stop fuel nData (Z.of_nat (length params)) params lims ftol limitsExist = Ok (status, out, r, calls) ->
  (forall k v, Forall (fun x => Rabs x < 13040000000000000000 / INR (length (deviates k v))) (deviates k v)) ->
  out = params \/
  exists k, nth_error (rev calls) k = Some (Trial, out, deviates k out) /\ sum_of_squares (deviates k out) < sum_of_squares (deviates 0%nat params).
Proof.
  intros deviates stop fuel nData params lims ftol limitsExist status out r calls E Sz.
  pose proof (@mpfit_ok R NumR (mp_enorm NumR) deviates stop fuel R_up R_lo R_irr R_ord (fun x => 0 <= x) R_norm R_trans R_accept params (if limitsExist then Some lims else None) nData (Z.of_nat (length params)) _ status out r calls (eq_sym (Nat2Z.id (length params))) E) as H.
  destruct H as (K & [(_ & _ & -> & _)|(_ & _ & _ & C & [B|(fv & B & B2)] & _)]); [left; reflexivity|left; exact B|right].
  apply in_rev in B. apply In_nth_error in B. destruct B as (k & Hk). pose proof (C _ _ _ _ Hk) as ->. exists k. split; [exact Hk|].
  rewrite !Stats_Proof.mp_enorm_exact in B2 by (left; apply Sz). apply Rltb_true in B2. apply sqrt_lt_0_alt. exact B2.
Qed.
Print Assumptions C42_sum_of_squares.
(** What is reported: the norm at the start squared, and the square of the larger
    of the norm at the result and the norm of one more trial (or -1). Missing
    from the property: that the reported best value is the one at the result. *)
Theorem C42_reported_partial : forall m deviates stop fuel nData params lims ftol limitsExist status out r calls,
  LevMarFit (NumF m) deviates stop fuel nData (Z.of_nat (length params)) params lims ftol limitsExist = Ok (status, out, Some r, calls) ->
  let norm := mp_enorm (NumF m) in
  orignorm r = f_mul (norm (deviates 0%nat params)) (norm (deviates 0%nat params)) /\
  exists d b, ((out = params /\ d = deviates 0%nat params) \/ exists k, nth_error (rev calls) k = Some (Trial, out, d) /\ d = deviates k out) /\
    (b = f_ofZ (-1) \/ exists v e, In (Trial, v, e) calls /\ b = norm e) /\
    let best := if f_leb b (norm d) then norm d else b in bestnorm r = f_mul best best.
Proof.
  intros m deviates stop fuel nData params lims ftol limitsExist status out r calls E norm.
  pose proof (@mpfit_ok F64 (NumF m) (mp_enorm (NumF m)) deviates stop fuel (@F_up m) (@F_lo m) (@F_irr m) (@F_ord m) pos (@enorm_pos m) (@F_trans m) (@F_accept m) params (if limitsExist then Some lims else None) nData (Z.of_nat (length params)) _ status out (Some r) calls (eq_sym (Nat2Z.id (length params))) E) as H.
  destruct H as (K & [(Q & _)|(_ & _ & _ & C & _ & Q)]); [discriminate|].
  destruct (Q r eq_refl) as (Q1 & fv & b & Q2 & Q3 & Q4). split; [exact Q1|]. exists fv, b. split; [|split; [exact Q3|exact Q4]].
  destruct Q2 as [Q2|Q2]; [left; exact Q2|right]. apply in_rev in Q2. apply In_nth_error in Q2. destruct Q2 as (k & Hk). exists k. split; [exact Hk|].
  exact (C _ _ _ _ Hk).
Qed.
Print Assumptions C42_reported_partial.
(** The reported best value can belong to a rejected step: for the deviate
    1 + |a - 1|, started at its minimum a = 1, the result is a = 1 but the
    reported value is not 1. *)
Definition kink (k : nat) (v : list F64) : list F64 := match v with [a] => [f_add (f_ofZ 1) (f_abs (f_sub a (f_ofZ 1)))] | _ => [] end.
Definition kink_fit (m : Libm) := LevMarFit (NumF m) kink (fun _ => false) 200 1 1 [f_ofZ 1] [] (f_dec 1 8) false.
Theorem C42_bestnorm_refuted : forall m, exists status r calls,
  kink_fit m = Ok (status, [f_ofZ 1], Some r, calls) /\
  f_ltb (f_mul (mp_enorm (NumF m) (kink 0 [f_ofZ 1])) (mp_enorm (NumF m) (kink 0 [f_ofZ 1]))) (bestnorm r) = true.
Proof.
  intros m. assert (H : match kink_fit m with Ok (_, [a], Some r, _) => f_eqb a (f_ofZ 1) &&
     f_ltb (f_mul (mp_enorm (NumF m) (kink 0 [f_ofZ 1])) (mp_enorm (NumF m) (kink 0 [f_ofZ 1]))) (bestnorm r) | _ => false end = true) by (vm_compute; reflexivity).
  destruct (kink_fit m) as [[[[status out] r] calls]| | |]; [|discriminate|discriminate|discriminate].
  destruct out as [|a [|b out]]; try discriminate. destruct r as [r|]; [|discriminate]. apply andb_true_iff in H. destruct H as (H1 & H2).
  exists status, r, calls. split; [|exact H2]. apply eqb_exact in H1; [|vm_compute; reflexivity]. rewrite H1. reflexivity.
Qed.
Print Assumptions C42_bestnorm_refuted.

(** ---- C43 ---- *)
(** the relative step, the square root of 2.220446e-16 *)
Definition step : R := sqrt (22204460 / IZR (10 ^ 23)).
(** Exact arithmetic: the vectors used for numerical derivatives are within the
    limits, if the two limits of each free parameter are at least two steps apart.
    Missing: narrower limits and rounding (see below). *)
Theorem C43_derivatives_partial : forall deviates stop fuel nData params lims ftol limitsExist status out r calls,
  LevMarFit NumR deviates stop fuel nData (Z.of_nat (length params)) params lims ftol limitsExist = Ok (status, out, r, calls) ->
  (forall l, In l lims -> fixed l = false -> limited0 l = true -> limited1 l = true ->
     2 * step * Rmax 1 (Rmax (Rabs (lim0 l)) (Rabs (lim1 l))) <= lim1 l - lim0 l) ->
  forall reason v d, In (reason, v, d) calls ->
    keeps (if limitsExist then Some lims else None) params v /\ within Rltb (if limitsExist then Some lims else None) v.
Proof.
  intros deviates stop fuel nData params lims ftol limitsExist status out r calls E Wd reason v d Hin.
  set (pars := if limitsExist then Some lims else None) in *.
  pose proof (@mpfit_ok R NumR (mp_enorm NumR) deviates stop fuel R_up R_lo R_irr R_ord (fun x => 0 <= x) R_norm R_trans R_accept params pars nData (Z.of_nat (length params)) _ status out r calls (eq_sym (Nat2Z.id (length params))) E) as H.
  destruct H as (K & [(_ & -> & _)|(W0 & _ & Fo & _)]); [destruct Hin|].
  rewrite Forall_forall in Fo. specialize (Fo _ Hin). destruct reason; cbn [entry_good] in Fo; [subst v; split; [split; auto|exact W0]| |exact Fo|exact Fo].
  exact (derivative_within Wd Fo).
Qed.
Print Assumptions C43_derivatives_partial.

(** Narrow limits, 1 and 1 + 2^-30: started at the upper limit, the solver
    evaluates the function below the lower limit. *)
Definition narrow : list (limits F64) := [mkLim false true true (f_ofZ 1) (f_add (f_ofZ 1) (f_div (f_ofZ 1) (f_ofZ (2 ^ 30))))].
Definition identity_dev (k : nat) (v : list F64) : list F64 := v.
Definition narrow_fit (m : Libm) := LevMarFit (NumF m) identity_dev (fun _ => false) 40 1 1 [f_add (f_ofZ 1) (f_div (f_ofZ 1) (f_ofZ (2 ^ 30)))] narrow (f_dec 1 8) true.
Definition below_or_above (low high : F64) (e : why * list F64 * list F64) : bool :=
  match e with (Derivative, [x], _) => f_ltb x low || f_ltb high x | _ => false end.
Lemma below_or_above_spec low high calls : existsb (below_or_above low high) calls = true ->
  exists x d, In (Derivative, [x], d) calls /\ (f_ltb x low = true \/ f_ltb high x = true).
Proof.
  intros H. apply existsb_exists in H. destruct H as ([[w v] d] & Hin & H). destruct w; try discriminate. destruct v as [|x [|y v]]; try discriminate.
  exists x, d. split; [exact Hin|]. apply orb_true_iff. exact H.
Qed.
Theorem C43_narrow_refuted : forall m, exists status out r calls, narrow_fit m = Ok (status, out, r, calls) /\
  exists x d, In (Derivative, [x], d) calls /\ f_ltb x (f_ofZ 1) = true.
Proof.
  intros m. assert (H : match narrow_fit m with Ok (_, _, _, calls) => existsb (below_or_above (f_ofZ 1) (B754_infinity false)) calls | _ => false end = true) by (vm_compute; reflexivity).
  destruct (narrow_fit m) as [[[[status out] r] calls]| | |]; [|discriminate|discriminate|discriminate].
  exists status, out, r, calls. split; [reflexivity|]. apply below_or_above_spec in H. destruct H as (x & d & Hin & [H|H]).
  - exists x, d. split; [exact Hin|exact H].
  - exfalso. destruct x as [[]|[]| |[]]; discriminate H.
Qed.
Print Assumptions C43_narrow_refuted.
(** Wide limits, 0 and 1.2379646548527392: rounding alone takes the evaluation
    above the upper limit. *)
Definition wide : list (limits F64) := [mkLim false true true (f_ofZ 0) (f_dec 12379646548527392 16)].
Definition wide_fit (m : Libm) := LevMarFit (NumF m) identity_dev (fun _ => false) 40 1 1 [f_dec 1237964636405629 15] wide (f_dec 1 8) true.
Theorem C43_rounding_refuted : forall m, exists status out r calls, wide_fit m = Ok (status, out, r, calls) /\
  exists x d, In (Derivative, [x], d) calls /\ f_ltb (f_dec 12379646548527392 16) x = true.
Proof.
  intros m. assert (H : match wide_fit m with Ok (_, _, _, calls) => existsb (below_or_above (B754_infinity true) (f_dec 12379646548527392 16)) calls | _ => false end = true) by (vm_compute; reflexivity).
  destruct (wide_fit m) as [[[[status out] r] calls]| | |]; [|discriminate|discriminate|discriminate].
  exists status, out, r, calls. split; [reflexivity|]. apply below_or_above_spec in H. destruct H as (x & d & Hin & [H|H]).
  - exfalso. destruct x as [[]|[]| |[]]; discriminate H.
  - exists x, d. split; [exact Hin|exact H].
Qed.
Print Assumptions C43_rounding_refuted.

(** ---- C44 ---- *)
(** Any arithmetic: the factorisation of an m x n matrix stays inside its arrays,
    and the pivot array is a permutation of 0 .. n-1. *)
Theorem C44_permutation : forall (T : Type) (N : Num T) (norm : list T -> T) m n a,
  length a = n -> Forall (fun c => length c = m) a ->
  exists q pivot rdiag acnorm, qrfac N norm m n a = Ok (q, pivot, rdiag, acnorm) /\ Permutation (seq 0 n) pivot.
Proof.
  intros T N norm m n a L F. destruct (@qrfac_ok T N norm m n a (conj L F)) as (q & ip & rd & ac & E & _ & P & _). exists q, ip, rd, ac. split; [exact E|exact P].
Qed.
Print Assumptions C44_permutation.
(** Exact arithmetic, columns of norm below 1.304e19/m (so that the program's norm
    is exact): the inner products of the columns of the triangular factor are
    those of the permuted columns of the matrix, R^T R = P^T J^T J P. *)
Theorem C44_qr : forall m n a, (0 < m)%nat -> length a = n -> Forall (fun c => length c = m) a ->
  (forall c, In c a -> inner m c c < (13040000000000000000 / INR m) * (13040000000000000000 / INR m)) ->
  exists q pivot rdiag acnorm, qrfac NumR (mp_enorm NumR) m n a = Ok (q, pivot, rdiag, acnorm) /\ Permutation (seq 0 n) pivot /\
    (forall k l, (k < n)%nat -> (l < n)%nat ->
      rsum m (fun i => upper q rdiag i k * upper q rdiag i l) = inner m (nth (nth k pivot 0%nat) a []) (nth (nth l pivot 0%nat) a [])) /\
    (forall k, (k < n)%nat -> nth k acnorm 0 = sqrt (inner m (nth k a []) (nth k a []))).
Proof.
  intros m n a Hm L F Sm. destruct (@qrfac_ok R NumR (mp_enorm NumR) m n a (conj L F)) as (q & ip & rd & ac & E & _ & P & _ & Lac & Pac).
  exists q, ip, rd, ac. split; [exact E|]. split; [exact P|].
  assert (S0 : shape m n a) by (split; assumption).
  assert (B0 : forall k, (k < n)%nat -> inner m (nth k a []) (nth k a []) < giant m * giant m) by (intros k Hk; apply Sm; apply nth_In; lia).
  split; [exact (@qr_gram m (mp_enorm NumR) (giant m) (giant_pos Hm) (@enorm_small m) n a S0 B0 q ip rd ac E)|].
  intros k Hk. rewrite (Pac k 0 Hk). exact (@col_norm m (nth k a []) Hm (shape_col S0 Hk) (B0 k Hk)).
Qed.
Print Assumptions C44_qr.
(** ... and the vector stored by the next step is Q^T f: R^T (Q^T f) = P^T J^T f *)
Theorem C44_gradient : forall m n a f q pivot rdiag acnorm, (0 < m)%nat -> (n <= m)%nat -> length a = n -> Forall (fun c => length c = m) a -> length f = m ->
  (forall c, In c a -> inner m c c < (13040000000000000000 / INR m) * (13040000000000000000 / INR m)) ->
  qrfac NumR (mp_enorm NumR) m n a = Ok (q, pivot, rdiag, acnorm) ->
  exists r qtf, apply_qt NumR m n q rdiag f = Ok (r, qtf) /\
    (forall k i, (k < n)%nat -> (i <= k)%nat -> nth i (nth k r []) 0 = upper q rdiag i k) /\
    (forall k, (k < n)%nat -> rsum (S k) (fun i => nth i (nth k r []) 0 * nth i qtf 0) = inner m (nth (nth k pivot 0%nat) a []) f).
Proof.
  intros m n a f q pivot rdiag acnorm Hm Hn L F Lf Sm E.
  assert (S0 : shape m n a) by (split; assumption).
  assert (B0 : forall k, (k < n)%nat -> inner m (nth k a []) (nth k a []) < giant m * giant m) by (intros k Hk; apply Sm; apply nth_In; lia).
  destruct (@qt_gradient m (mp_enorm NumR) (giant m) (giant_pos Hm) (@enorm_small m) n a S0 B0 q pivot rdiag acnorm f Hn Lf E) as (r & qtf & E' & _ & _ & A & B).
  exists r, qtf. split; [exact E'|]. split; [exact A|exact B].
Qed.
Print Assumptions C44_gradient.
Example C44_case : let a := [[3; 4; 0]; [1; 2; 2]] in
  (forall c, In c a -> inner 3 c c < (13040000000000000000 / INR 3) * (13040000000000000000 / INR 3)).
Proof.
  intros a c [<-|[<-|[]]]; unfold inner; cbn [rsum nth]; cbn [INR]; nra.
Qed.
(** the same matrix in binary64: the longer column comes first *)
Example C44_float_case : forall m, match qrfac (NumF m) (mp_enorm (NumF m)) 3 2 [[f_ofZ 1; f_ofZ 2; f_ofZ 2]; [f_ofZ 3; f_ofZ 4; f_ofZ 0]] with
  | Ok (_, pivot, [d; _], _) => pivot = [1%nat; 0%nat] /\ f_eqb d (f_ofZ (-5)) = true | _ => False end.
Proof. intros m. vm_compute. split; reflexivity. Qed.
