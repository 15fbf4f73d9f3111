(** Model of core/statistics.cpp and core/mp_enorm.cpp. Definitions only. *)
From Coq Require Import ZArith List.
From Verif Require Export Base Num.

Section Stats.
Variable T : Type.
Variable N : Num T.
Notation "0" := (nofZ N 0).
Notation "1" := (nofZ N 1).
Notation "2" := (nofZ N 2).
Infix "+" := (nadd N). Infix "-" := (nsub N). Infix "*" := (nmul N). Infix "/" := (ndiv N).

(** core/statistics.cpp:38-47. [nVals] is the length of the array. *)
Definition Mean (v : list T) : T :=
  fold_left (fun sum x => sum + x) v 0 / nofZ N (Z.of_nat (length v)).

(** core/statistics.cpp:54-72 *)
Definition StandardDeviation (v : list T) : T :=
  let nVals := Z.of_nat (length v) in
  let mean := fold_left (fun mean x => mean + x) v 0 in
  let mean := mean / nofZ N nVals in
  let sum := fold_left (fun sum x => let diff := x - mean in sum + diff * diff) v 0 in
  if nleb N 0 sum then nsqrt N (sum / nofZ N (nVals - 1)%Z) else 0.

(** core/statistics.cpp:27-28 *)
Definition ONESIGMA_LOWER := ndec N 1585 4.
Definition ONESIGMA_UPPER := ndec N 8415 4.

(** core/statistics.cpp:86-95: the two indices. [round] of a NaN or infinity
    cannot be converted to int. *)
Definition ci_indices (nVals : Z) : res (Z * Z) :=
  match nround N (ONESIGMA_LOWER * nofZ N nVals), nround N (ONESIGMA_UPPER * nofZ N nVals) with
  | Some rl, Some ru =>
    let lower_ind := (rl - 1)%Z in
    let upper_ind := ru in
    let lower_ind := if (lower_ind <? 0)%Z then 0%Z else lower_ind in
    let upper_ind := if (nVals <=? upper_ind)%Z then (nVals - 1)%Z else upper_ind in
    Ok (lower_ind, upper_ind)
  | _, _ => Undef
  end.

(** core/statistics.cpp:84-100. [qsort] is the C library's sort with the
    comparison [SortComp]; the result also carries the array, now sorted. *)
Definition ConfidenceInterval (qsort : list T -> list T) (vector : list T) : res (T * T * list T) :=
  do ix <- ci_indices (Z.of_nat (length vector));
  let '(lower_ind, upper_ind) := ix in
  let vector := qsort vector in
  do l <- getZ vector lower_ind;
  do u <- getZ vector upper_ind;
  Ok (l, u, vector).

(** core/statistics.cpp:108-121 *)
Definition SortComp (x y : T) : Z :=
  if nltb N y x then 1%Z else if neqb N x y then 0%Z else (-1)%Z.

(** core/statistics.cpp:139-151 *)
Definition AIC_corrected (logLikelihood : T) (nParams nData : Z) (chiSquareUsed : bool) : T :=
  let twok := 2 * nofZ N nParams in
  let aic := if chiSquareUsed then logLikelihood + twok
             else nneg N 2 * logLikelihood + twok in
  let correctionTerm := 2 * nofZ N nParams * (nofZ N nParams + 1) / (nofZ N nData - nofZ N nParams - 1) in
  aic + correctionTerm.

(** core/statistics.cpp:163-175 *)
Definition BIC (logLikelihood : T) (nParams nData : Z) (chiSquareUsed : bool) : T :=
  let minustwo_logLikelihood := if chiSquareUsed then logLikelihood else nneg N 2 * logLikelihood in
  minustwo_logLikelihood + nofZ N nParams * nlog N (nofZ N nData).

(** core/mp_enorm.cpp:50-51 *)
Definition RDWARF := ndec N 3834 23.
Definition RGIANT := nofZ N 13040000000000000000.

Record enorm_st := mkEn { e_s1 : T; e_s2 : T; e_s3 : T; e_x1max : T; e_x3max : T }.

(** core/mp_enorm.cpp:68-102, one pass of the loop *)
Definition enorm_step (agiant : T) (st : enorm_st) (xi : T) : enorm_st :=
  let '(mkEn s1 s2 s3 x1max x3max) := st in
  let xabs := nabs N xi in
  if (nltb N RDWARF xabs && nltb N xabs agiant)%bool then mkEn s1 (s2 + xabs * xabs) s3 x1max x3max
  else if nltb N RDWARF xabs then
    if nltb N x1max xabs then
      let temp := x1max / xabs in
      mkEn (1 + s1 * temp * temp) s2 s3 xabs x3max
    else
      let temp := xabs / x1max in
      mkEn (s1 + temp * temp) s2 s3 x1max x3max
  else
    if nltb N x3max xabs then
      let temp := x3max / xabs in
      mkEn s1 s2 (1 + s3 * temp * temp) x1max xabs
    else if negb (neqb N xabs 0) then
      let temp := xabs / x3max in
      mkEn s1 s2 (s3 + temp * temp) x1max x3max
    else st.

(** core/mp_enorm.cpp:54-122. [n] is the length of x. *)
Definition mp_enorm (x : list T) : T :=
  let floatn := nofZ N (Z.of_nat (length x)) in
  let agiant := RGIANT / floatn in
  let '(mkEn s1 s2 s3 x1max x3max) := fold_left (enorm_step agiant) x (mkEn 0 0 0 0 0) in
  if negb (neqb N s1 0) then
    let temp := s1 + (s2 / x1max) / x1max in
    x1max * nsqrt N temp
  else if negb (neqb N s2 0) then
    let temp := if nleb N x3max s2 then s2 * (1 + (x3max / s2) * (x3max * s3))
                else x3max * ((s2 / x3max) + (x3max * s3)) in
    nsqrt N temp
  else x3max * nsqrt N s3.
End Stats.
Arguments Mean {T} N. Arguments StandardDeviation {T} N. Arguments ci_indices {T} N.
Arguments ConfidenceInterval {T} N. Arguments SortComp {T} N. Arguments AIC_corrected {T} N.
Arguments BIC {T} N. Arguments RDWARF {T} N. Arguments RGIANT {T} N. Arguments mkEn {T}.
Arguments e_s1 {T}. Arguments e_s2 {T}. Arguments e_s3 {T}. Arguments e_x1max {T}. Arguments e_x3max {T}.
Arguments enorm_step {T} N. Arguments mp_enorm {T} N.
