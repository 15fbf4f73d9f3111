(** C38-C40: the differential-evolution solver. [draw k] is the k-th random
    number, [energy n v] the objective's answer to its n-th call, [shuffled] the
    Latin-hypercube permutation: all arbitrary. [calls s] lists the objective's
    calls (parameter vector, value) so far, most recent first. *)
From Coq Require Import ZArith List Bool Lia Reals Lra.
From Flocq Require Import Core.Core IEEE754.BinarySingleNaN.
From Verif Require Import Base Num FloatFacts MT_Model MT_FloatProof DE_Model DE_Spec DE_Proof DE_RealProof DE_Safe DE_FloatProof.
Import ListNotations.
Local Open Scope R_scope.

(** ---- C38 ---- *)
(** Exact arithmetic: every vector passed to the objective function respects
    limits and fixed values; so does the returned vector, provided the objective
    was below 1e20 at least once. *)
Theorem C38_limits_partial : forall draw energy interrupted shuffled fuel params lims ftol useLHS maxGen k status out s,
  (forall k, 0 <= draw k <= 1) -> length lims = length params -> ordered Rle lims ->
  (forall i j, (i < 8 * nFree lims)%nat -> (j < length params)%nat -> (0 <= shuffled j i < Z.of_nat (8 * nFree lims))%Z) ->
  DiffEvolnFit NumR draw energy interrupted shuffled fuel params lims ftol useLHS maxGen k = Ok (status, out, Some s) ->
  (forall v e, In (v, e) (calls s) -> respects Rle eq params lims v) /\
  ((exists v e, In (v, e) (calls s) /\ e < IZR (10 ^ 20)) -> respects Rle eq params lims out).
Proof. intros draw energy interrupted shuffled fuel params lims ftol useLHS maxGen k status out s D L O S E. eapply fit_limits; eauto. Qed.
Print Assumptions C38_limits_partial.

(** The solver runs exactly when every free parameter has both limits; otherwise
    the answer is -2 and the parameters are unchanged. *)
Theorem C38_missing_limits : forall draw energy interrupted shuffled fuel params lims ftol useLHS maxGen k status out os,
  length lims = length params ->
  DiffEvolnFit NumR draw energy interrupted shuffled fuel params lims ftol useLHS maxGen k = Ok (status, out, os) ->
  match os with None => status = (-2)%Z /\ out = params /\ ~ all_limited lims | Some _ => all_limited lims end.
Proof. intros draw energy interrupted shuffled fuel params lims ftol useLHS maxGen k status out os L E. eapply fit_status; eauto. Qed.
Print Assumptions C38_missing_limits.

(** binary64, draws from the program's generator: fixed parameters compare equal
    to their given value in every call and in the result *)
Theorem C38_fixed : forall m w energy interrupted shuffled fuel params lims ftol useLHS maxGen k status out s,
  (forall k, 0 <= w k < 2 ^ 32)%Z -> length lims = length params -> (8 * Z.of_nat (length params) < 2 ^ 31)%Z ->
  (forall p, In p params -> is_finite p = true) ->
  (forall i j, (i < 8 * nFree lims)%nat -> (j < length params)%nat -> (0 <= shuffled j i < Z.of_nat (8 * nFree lims))%Z) ->
  DiffEvolnFit (NumF m) (fun k => real1 (NumF m) (w k)) energy interrupted shuffled fuel params lims ftol useLHS maxGen k = Ok (status, out, Some s) ->
  (forall v e, In (v, e) (calls s) -> keeps_fixed (fun x p => f_eqb x p = true) params lims v) /\
  ((exists v e, In (v, e) (calls s) /\ f_ltb e (f_ofZ (10 ^ 20)) = true) -> keeps_fixed (fun x p => f_eqb x p = true) params lims out).
Proof.
  intros m w energy interrupted shuffled fuel params lims ftol useLHS maxGen k status out s W L Sz Fi Sh E.
  refine (@fit_fixed m (fun k => real1 (NumF m) (w k)) energy interrupted shuffled fuel _ params lims L Sz Sh Fi ftol useLHS maxGen k status out s E).
  intros k0. apply real1_range. exact (W k0).
Qed.
Print Assumptions C38_fixed.

(** If the objective never falls below 1e20 the result is all zeros, whatever
    the limits and the fixed values: *)
Theorem C38_no_energy_refuted : forall draw energy interrupted shuffled fuel params lims ftol useLHS maxGen k status out s,
  DiffEvolnFit NumR draw energy interrupted shuffled fuel params lims ftol useLHS maxGen k = Ok (status, out, Some s) ->
  (forall v e, In (v, e) (calls s) -> IZR (10 ^ 20) <= e) -> out = repeat 0 (length params).
Proof.
  intros draw energy interrupted shuffled fuel params lims ftol useLHS maxGen k status out s E H.
  unfold DiffEvolnFit in E. apply bind_Ok in E. destruct E as (((los, his), ok) & Eb & E). destruct ok; cbn [negb] in E; [|discriminate].
  cbv zeta in E. set (c := mkCfg _ _ _ _ _ _ _ _ _) in E.
  apply bind_Ok in E. destruct E as (s0 & E0 & E). apply bind_Ok in E. destruct E as (((st, g), s1) & E1 & E). injection E as <- <- ->.
  exact (@no_energy draw energy interrupted shuffled fuel c useLHS k s0 maxGen (st, g, s) E0 E1 H).
Qed.
Print Assumptions C38_no_energy_refuted.
(** for example when every parameter is fixed: nothing is evaluated and the
    fixed value 5 comes back as 0 *)
Example C38_all_fixed : forall draw energy shuffled fuel ftol, exists s,
  DiffEvolnFit NumR draw energy (fun _ => false) shuffled fuel [5] [mkLim true true true 1 9] ftol false 1 0 = Ok (5%Z, [0], Some s).
Proof.
  intros. unfold DiffEvolnFit, bounds, Setup, Solve. cbn -[BIG NumR Z.pow IZR]. change (nofZ NumR 0) with 0. eexists; reflexivity.
Qed.

(** the hypotheses of C38_limits_partial are met: a run with one free parameter between
    1 and 9 in which the objective is evaluated *)
Example C38_real_case : exists status out s,
  (forall k, 0 <= demo_draw k <= 1) /\ ordered Rle [mkLim false true true 1 9] /\
  DiffEvolnFit NumR demo_draw (fun _ _ => 3) (fun _ => false) (fun _ i => Z.of_nat i) 1 [2] [mkLim false true true 1 9] 1 false 1 0
    = Ok (status, out, Some s) /\ (exists v, In (v, 3) (calls s)).
Proof. exact demo_real. Qed.

(** a run of the program in binary64: two parameters, one fixed *)
Definition demo_word (k : nat) : Z := ((1103515245 * Z.of_nat k + 12345) * (Z.of_nat k + 7) mod (2 ^ 32 - 1))%Z.
Definition demo_params : list F64 := [f_ofZ 5; f_ofZ 2].
Definition demo_lims : list (limits F64) := [mkLim true false false (f_ofZ 0) (f_ofZ 0); mkLim false true true (f_ofZ 1) (f_ofZ 9)].
Definition demo_energy (_ : nat) (v : list F64) : F64 := match v with [_; y] => f_mul (f_sub y (f_ofZ 3)) (f_sub y (f_ofZ 3)) | _ => f_nan end.
Definition demo_run (m : Libm) : res (Z * list F64 * option (dstate F64)) :=
  DiffEvolnFit (NumF m) (fun k => real1 (NumF m) (demo_word k)) demo_energy (fun _ => false) (fun _ i => Z.of_nat i) 20 demo_params demo_lims (f_dec 1 8) false 3 0.
Example C38_case : forall m, match demo_run m with
  | Ok (status, [x; y], Some s) => (status =? 5)%Z && (length (calls s) =? 24)%nat && f_eqb x (f_ofZ 5) && f_leb (f_ofZ 1) y && f_leb y (f_ofZ 9) && f_ltb (bestEnergy s) (f_ofZ 1)
  | _ => false
  end = true.
Proof. intros m. vm_compute. reflexivity. Qed.

(** In binary64 the limits of a free parameter can be exceeded: here -10^16 .. 3
    and the parameter comes back as 4. *)
Definition over_word (k : nat) : Z :=
  if (k <? 8)%nat then (2 ^ 32 - 1)%Z
  else let i := (k - 8)%nat in let cand := Z.of_nat (i / 5) in
       match (i mod 5)%nat with
       | 0%nat => ((cand + 1) mod 8 * 2 ^ 29 + 2 ^ 28)%Z
       | 1%nat => ((cand + 2) mod 8 * 2 ^ 29 + 2 ^ 28)%Z
       | 2%nat => 0%Z
       | _ => (2 ^ 32 - 1)%Z
       end.
Theorem C38_rounding_refuted : forall m, exists status out s,
  DiffEvolnFit (NumF m) (fun k => real1 (NumF m) (over_word k)) (fun _ _ => f_ofZ 1) (fun _ => false) (fun _ i => Z.of_nat i) 20
    [f_ofZ 0] [mkLim false true true (f_ofZ (- 10 ^ 16)) (f_ofZ 3)] (f_dec 1 8) false 1 0 = Ok (status, [out], Some s) /\
  f_eqb out (f_ofZ 4) = true /\ f_ltb (f_ofZ 3) out = true.
Proof.
  intros m. match goal with |- context [DiffEvolnFit ?a ?b ?c ?d ?e ?f ?g ?h ?i ?j ?k ?l] => set (r := DiffEvolnFit a b c d e f g h i j k l) end.
  assert (Q : match r with Ok (_, [x], Some _) => f_eqb x (f_ofZ 4) && f_ltb (f_ofZ 3) x | _ => false end = true) by (vm_compute; reflexivity).
  destruct r as [((st, out), os)| | |]; [|discriminate|discriminate|discriminate].
  destruct out as [|x [|? ?]]; [discriminate| |discriminate]. destruct os as [s|]; [|discriminate].
  apply andb_prop in Q. exists st, x, s. split; [reflexivity|exact Q].
Qed.
Print Assumptions C38_rounding_refuted.

(** ---- C39 ---- *)
(** All ten strategies, binary64 with any objective (NaN and infinities
    included): every logged value is the objective's answer; no value seen is
    below the reported best energy; the best solution with the best energy is
    one of the calls as soon as some value was below 1e20. *)
Theorem C39_best : forall m draw energy interrupted shuffled fuel c useLHS k s maxGen status g r,
  Setup (NumF m) draw shuffled c useLHS k = Ok s ->
  Solve (NumF m) draw energy interrupted fuel c maxGen s = Ok (status, g, r) ->
  (forall i v e, nth_error (rev (calls r)) i = Some (v, e) -> e = energy i v) /\
  (forall v e, In (v, e) (calls r) -> f_ltb e (bestEnergy r) = false) /\
  ((exists v e, In (v, e) (calls r) /\ f_ltb e (f_ofZ (10 ^ 20)) = true) -> In (bestSolution r, bestEnergy r) (calls r)).
Proof.
  intros m draw energy interrupted shuffled fuel c useLHS k s maxGen status g r Es E.
  pose proof (float_einv Es E) as J. cbn [snd] in J. split; [exact (e_vals J)|]. split; [exact (e_calls J)|].
  intros (v & e & Hv & He). destruct (e_sol J) as [(_ & Q)|Q]; [|exact Q].
  pose proof (e_calls J Hv) as C. rewrite Q in C. change (nltb (NumF m) e (BIG (NumF m))) with (f_ltb e (f_ofZ (10 ^ 20))) in C. rewrite He in C. discriminate.
Qed.
Print Assumptions C39_best.
Theorem C39_best_exact : forall draw energy interrupted shuffled fuel c useLHS k s maxGen status g r,
  Setup NumR draw shuffled c useLHS k = Ok s ->
  Solve NumR draw energy interrupted fuel c maxGen s = Ok (status, g, r) ->
  (forall i v e, nth_error (rev (calls r)) i = Some (v, e) -> e = energy i v) /\
  (forall v e, In (v, e) (calls r) -> bestEnergy r <= e) /\
  ((exists v e, In (v, e) (calls r) /\ e < IZR (10 ^ 20)) -> In (bestSolution r, bestEnergy r) (calls r)).
Proof.
  intros draw energy interrupted shuffled fuel c useLHS k s maxGen status g r Es E.
  pose proof (real_einv Es E) as J. cbn [snd] in J. split; [exact (e_vals J)|]. split.
  - intros v e Hv. pose proof (e_calls J Hv) as C. cbn [nltb NumR] in C. now apply Rltb_false.
  - intros (v & e & Hv & He). destruct (e_sol J) as [(_ & Q)|Q]; [|exact Q].
    pose proof (e_calls J Hv) as C. rewrite Q in C. cbn [nltb NumR] in C. apply Rltb_false in C. unfold BIG in C. cbn [nofZ NumR] in C. exfalso. exact (Rlt_not_le _ _ He C).
Qed.
Print Assumptions C39_best_exact.
(** One call of the objective per candidate, and the best energy never goes up. *)
Theorem C39_monotone : forall m draw energy fuel c cand s s',
  candidate_step (NumF m) draw energy fuel c cand s = Ok s' ->
  f_ltb (bestEnergy s) (bestEnergy s') = false /\ exists v e, calls s' = (v, e) :: calls s.
Proof. intros m draw energy fuel. exact (@float_step m draw energy (fun _ => false) (fun _ _ => 0%Z) fuel). Qed.
Print Assumptions C39_monotone.
(** the demo run above is such a run; its best energy is that of the last
    improvement, not the initial 1e20 *)
Example C39_case : forall m, match demo_run m with
  | Ok (_, out, Some s) => existsb (fun '(v, e) => f_eqb e (bestEnergy s)) (calls s) && forallb (fun '(v, e) => f_leb (bestEnergy s) e) (calls s)
  | _ => false
  end = true.
Proof. intros m. vm_compute. reflexivity. Qed.

(** ---- C40 ---- *)
(** The samples used to form a mutant are different members of the population,
    all different from the candidate. *)
Theorem C40_distinct : forall T (N : Num T) draw fuel count n cand k zs k',
  (forall k z k', rand_int N draw n k = Ok (z, k') -> (0 <= z)%Z) ->
  SelectSamples N draw fuel count n [Z.of_nat cand] k = Ok (zs, k') ->
  length zs = count /\ NoDup zs /\ ~ In (Z.of_nat cand) zs.
Proof. exact distinct_samples. Qed.
Print Assumptions C40_distinct.

(** Partial: as long as the generator never returns the word 2^32 - 1, every
    index is in range and no run of the solver reads or writes outside its
    arrays, whatever the objective, the limits and the number of generations
    ([Fuel]: the selection loop had not ended after [fuel] attempts). *)
Theorem C40_memory_safe_partial : forall m w energy interrupted shuffled fuel params lims ftol useLHS maxGen k,
  (forall k, 0 <= w k < 2 ^ 32 - 1)%Z -> length lims = length params -> (1 <= length params)%nat -> (8 * Z.of_nat (length params) < 2 ^ 31)%Z ->
  let r := DiffEvolnFit (NumF m) (fun k => real1 (NumF m) (w k)) energy interrupted shuffled fuel params lims ftol useLHS maxGen k in
  r <> Undef /\ r <> Abort.
Proof.
  intros m w energy interrupted shuffled fuel params lims ftol useLHS maxGen k W L L1 L2 r.
  assert (S : safe r).
  { apply fit_safe; auto. intros n k0 H1 H2. now apply index_draw. }
  destruct r; split; try discriminate; destruct S.
Qed.
Print Assumptions C40_memory_safe_partial.
(** an index is always within range for such words, for any array size *)
Theorem C40_index_partial : forall m w n k, (forall k, 0 <= w k < 2 ^ 32 - 1)%Z -> (1 <= n)%nat -> (Z.of_nat n < 2 ^ 31)%Z ->
  exists z, rand_int (NumF m) (fun k => real1 (NumF m) (w k)) n k = Ok (z, S k) /\ (0 <= z < Z.of_nat n)%Z.
Proof. exact index_draw. Qed.
Print Assumptions C40_index_partial.
Example C40_case : forall k, (0 <= demo_word k < 2 ^ 32 - 1)%Z.
Proof. intros k. unfold demo_word. apply Z.mod_pos_bound. reflexivity. Qed.

(** The full claim is false: the word 2^32 - 1 gives the draw 1.0, hence an index
    equal to the size; a run then reads past the population. *)
Theorem C40_index_refuted : forall m k, rand_int (NumF m) (fun k => real1 (NumF m) (2 ^ 32 - 1)) 8 k = Ok (8%Z, S k).
Proof.
  intros m k. unfold rand_int, RandomUniform. 
  assert (Q : ntrunc (NumF m) (nadd (NumF m) (nofZ (NumF m) 0) (nmul (NumF m) (real1 (NumF m) (2 ^ 32 - 1)) (nsub (NumF m) (nofZ (NumF m) (Z.of_nat 8)) (nofZ (NumF m) 0)))) = Some 8%Z) by (vm_compute; reflexivity).
  now rewrite Q.
Qed.
Print Assumptions C40_index_refuted.
Theorem C40_run_refuted : forall m, exists w, (forall k, 0 <= w k < 2 ^ 32)%Z /\
  DiffEvolnFit (NumF m) (fun k => real1 (NumF m) (w k)) (fun _ _ => f_ofZ 1) (fun _ => false) (fun _ i => Z.of_nat i) 20
    [f_ofZ 2] [mkLim false true true (f_ofZ 1) (f_ofZ 9)] (f_dec 1 8) false 1 0 = Undef.
Proof.
  intros m. exists (fun k => if (k =? 8)%nat then (2 ^ 32 - 1)%Z else if (k =? 9)%nat then (2 ^ 30)%Z else 0%Z). split.
  - intros k. destruct (k =? 8)%nat; [lia|]. destruct (k =? 9)%nat; lia.
  - vm_compute. reflexivity.
Qed.
Print Assumptions C40_run_refuted.
