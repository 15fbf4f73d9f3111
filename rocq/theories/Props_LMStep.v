(** C59-C63: what the Levenberg-Marquardt solver computes: the steps, the gradient test,
    the errors of the parameters, memory safety and termination. As in Props_LM.v, [deviates k v] is the
    vector written by the k-th call of the function, [stop k] whether the user has
    interrupted the program after [k] calls; [calls] is most recent first. *)
From Coq Require Import ZArith List Bool Lia Reals Lra.
From Flocq Require Import Core.Core IEEE754.BinarySingleNaN.
From Verif Require Import Base Num Sums FloatFacts Stats_Model Stats_Spec DE_Model LM_Model LM_Spec LM_StepSpec LM_Proof LM_RealProof LM_StepFinal LM_StepEnd.
Import ListNotations.
Local Open Scope R_scope.

Definition limits_given {T} (limitsExist : bool) (lims : list (limits T)) : option (list (limits T)) := if limitsExist then Some lims else None.
Lemma long_enough {T} limitsExist (lims : list (limits T)) n : (limitsExist = true -> (n <= length lims)%nat) ->
  forall ps, limits_given limitsExist lims = Some ps -> (Z.to_nat (Z.of_nat n) <= length ps)%nat.
Proof. intros H ps Q. rewrite Nat2Z.id. unfold limits_given in Q. destruct limitsExist; [injection Q as <-; auto|discriminate Q]. Qed.
Definition settings (ftol : R) : mp_config R := mkConf ftol 0 0 0 0 0 1000%Z 0%Z 0%Z.
Lemma settings_values ftol : gtol (merge_config NumR (settings ftol)) = 1 / IZR (10 ^ 10) /\ covtol (merge_config NumR (settings ftol)) = 1 / IZR (10 ^ 14).
Proof. unfold merge_config, settings. cbn [gtol covtol stepfactor epsfcn xtol nltb nofZ NumR]. destruct (Rltb 0 0) eqn:Q; [apply Rltb_true in Q; lra|]. split; reflexivity. Qed.

(** ---- C59 ---- *)
(** Exact arithmetic: every trial point is the minimum of the linearised sum of squares
    plus a non-negative multiple of a scaled squared step, cut short at the limits; the
    linearisation is the one at the current point, which was not stationary (1e-10 is
    the tolerance). *)
Theorem C59_step : forall deviates stop fuel nData params lims ftol limitsExist status out r calls,
  (forall k v, length (deviates k v) = Z.to_nat nData) -> (limitsExist = true -> (length params <= length lims)%nat) ->
  LevMarFit NumR deviates stop fuel nData (Z.of_nat (length params)) params lims ftol limitsExist = Ok (status, out, r, calls) ->
  let pars := limits_given limitsExist lims in
  forall k v d, nth_error (rev calls) k = Some (Trial, v, d) ->
    lm_step pars (free_parameters pars (length params)) (Z.to_nat nData) (1 / IZR (10 ^ 10)) (rev calls) k v.
Proof.
  intros deviates stop fuel nData params lims ftol limitsExist status out r calls Hd Hl E pars k v d Hk.
  pose proof (@mpfit_steps deviates stop fuel nData (Z.of_nat (length params)) params pars (settings ftol) (eq_sym (Nat2Z.id (length params))) Hd (long_enough _ _ _ Hl) eq_refl status out r calls E k v d Hk) as H.
  destruct (settings_values ftol) as (G & _). rewrite G, Nat2Z.id in H. exact H.
Qed.
Print Assumptions C59_step.

(** ---- C60 ---- *)
(** Exact arithmetic: status 4 is returned only when no free parameter can be changed with
    profit at the result, according to the differences taken there. *)
Theorem C60_gradient : forall deviates stop fuel nData params lims ftol limitsExist out r calls,
  (forall k v, length (deviates k v) = Z.to_nat nData) -> (limitsExist = true -> (length params <= length lims)%nat) ->
  LevMarFit NumR deviates stop fuel nData (Z.of_nat (length params)) params lims ftol limitsExist = Ok (4%Z, out, r, calls) ->
  let pars := limits_given limitsExist lims in let free := free_parameters pars (length params) in let m := Z.to_nat nData in
  exists b f J, around (rev calls) m free b (length calls) out f J /\
    (reasonable m (length free) J -> rsum m (fun i => nth i f 0 * nth i f 0) < (13040000000000000000 / INR m) ^ 2 ->
     stationary pars free m (1 / IZR (10 ^ 10)) out f J).
Proof.
  intros deviates stop fuel nData params lims ftol limitsExist out r calls Hd Hl E pars free m.
  pose proof (@mpfit_gradient deviates stop fuel nData (Z.of_nat (length params)) params pars (settings ftol) (eq_sym (Nat2Z.id (length params))) Hd (long_enough _ _ _ Hl) eq_refl out r calls E) as H.
  destruct (settings_values ftol) as (G & _). rewrite G, Nat2Z.id in H. exact H.
Qed.
Print Assumptions C60_gradient.

(** ---- C61 ---- *)
(** Exact arithmetic: the errors are the formal ones of the last Jacobian, which was taken
    at the result or, when the last trial was accepted, at the point before it. *)
Theorem C61_errors : forall deviates stop fuel nData params lims ftol limitsExist status out r calls,
  (forall k v, length (deviates k v) = Z.to_nat nData) -> (limitsExist = true -> (length params <= length lims)%nat) ->
  LevMarFit NumR deviates stop fuel nData (Z.of_nat (length params)) params lims ftol limitsExist = Ok (status, out, Some r, calls) ->
  let pars := limits_given limitsExist lims in let free := free_parameters pars (length params) in let m := Z.to_nat nData in
  exists b base f J J', around (rev calls) m free b (length calls) base f J /\ unblocked pars m free base f J J' /\
    (out = base \/ exists d before, calls = (Trial, out, d) :: before) /\
    (reasonable m (length free) J -> formal_errors free m (1 / IZR (10 ^ 14)) J' (xerror r)).
Proof.
  intros deviates stop fuel nData params lims ftol limitsExist status out r calls Hd Hl E pars free m.
  destruct (settings_values ftol) as (_ & G).
  assert (P : 0 <= covtol (merge_config NumR (settings ftol))). { rewrite G. apply Rmult_le_pos; [lra|]. left. apply Rinv_0_lt_compat. apply IZR_lt. reflexivity. }
  pose proof (@mpfit_errors deviates stop fuel nData (Z.of_nat (length params)) params pars (settings ftol) (eq_sym (Nat2Z.id (length params))) Hd (long_enough _ _ _ Hl) eq_refl status out r calls E P) as H.
  rewrite G, Nat2Z.id in H. exact H.
Qed.
Print Assumptions C61_errors.

(** ---- C62 ---- *)
(** binary64 and exact arithmetic, any deviates, limits and starting values: the solver
    never reads or writes outside its arrays: it returns, or needs more steps than [fuel]. *)
Theorem C62_safe : forall (T : Type) (N : Num T) deviates stop fuel nData (params : list T) lims ftol limitsExist,
  (forall k v, length (deviates k v) = Z.to_nat nData) -> (limitsExist = true -> (length params <= length lims)%nat) ->
  (exists status out r calls, LevMarFit N deviates stop fuel nData (Z.of_nat (length params)) params lims ftol limitsExist = Ok (status, out, r, calls)) \/
  LevMarFit N deviates stop fuel nData (Z.of_nat (length params)) params lims ftol limitsExist = Fuel.
Proof.
  intros T N deviates stop fuel nData params lims ftol limitsExist Hd Hl. unfold LevMarFit.
  set (conf := mkConf ftol (nofZ N 0) (nofZ N 0) (nofZ N 0) (nofZ N 0) (nofZ N 0) 1000%Z 0%Z 0%Z).
  destruct (@mpfit_cases T N (mp_enorm N) deviates stop fuel nData (Z.of_nat (length params)) params (limits_given limitsExist lims) conf (eq_sym (Nat2Z.id (length params))) Hd (long_enough _ _ _ Hl)) as [(e & H & _)|(ifree & lims' & x0 & _ & H)].
  - left. exists e, params, None, []. exact H.
  - cbv zeta in H. destruct (run _ _ _ _ _ _ _ _ _ _ _ _ _) as [[[s [|]] i]| | |]; try contradiction.
    + left. do 4 eexists. exact H.
    + destruct H as (v & peg & c & xe & _ & _ & _ & _ & H). left. do 4 eexists. exact H.
    + right. exact H.
Qed.
Print Assumptions C62_safe.

(** ---- C63 ---- *)
(** Exact arithmetic: the solver comes to an end, whatever the deviates, when the limits
    of some free parameter exclude 0. *)
Theorem C63_ends_partial : forall deviates stop nData params lims ftol,
  (forall k v, length (deviates k v) = Z.to_nat nData) -> (length params <= length lims)%nat ->
  (exists p l, (p < length params)%nat /\ nth_error lims p = Some l /\ fixed l = false /\ (limited0 l = true /\ 0 < lim0 l \/ limited1 l = true /\ lim1 l < 0)) ->
  exists fuel, forall more, exists status out r calls,
    LevMarFit NumR deviates stop (fuel + more) nData (Z.of_nat (length params)) params lims ftol true = Ok (status, out, r, calls).
Proof.
  intros deviates stop nData params lims ftol Hd Hl (p & l & Hp & Hpl & Hf & Hz).
  destruct (@mpfit_ends deviates stop nData (Z.of_nat (length params)) params (Some lims) (settings ftol) (eq_sym (Nat2Z.id (length params))) Hd (long_enough true lims _ (fun _ => Hl))) as (fuel & H).
  - exists p, l. split; [|split; [exact Hpl|exact Hz]]. apply filter_In. rewrite Nat2Z.id, Hpl, Hf. split; [apply in_seq; lia|reflexivity].
  - exists fuel. intros more. destruct (C62_safe R NumR deviates stop (fuel + more) nData params lims ftol true Hd (fun _ => Hl)) as [Q|Q]; [exact Q|]. exfalso. exact (H more Q).
Qed.
Print Assumptions C63_ends_partial.

(** ---- cases ---- *)
(** fitting a constant to the values 3 and 5, which lie at or above the limit 1/2 *)
Definition two_values (k : nat) (v : list R) : list R := match v with [a] => [a - 3; a - 5] | _ => [0; 0] end.
Definition half_limit : list (limits R) := [mkLim false true false (1 / 2) 0].
Lemma two_length k v : length (two_values k v) = Z.to_nat 2.
Proof. destruct v as [|a [|b v]]; reflexivity. Qed.
Lemma two_ends a : exists fuel status out r calls, LevMarFit NumR two_values (fun _ => false) fuel 2 1 [a] half_limit (1 / 100) true = Ok (status, out, r, calls).
Proof.
  destruct (C63_ends_partial two_values (fun _ => false) 2 [a] half_limit (1 / 100) two_length (le_n _)) as (fuel & H).
  - exists 0%nat, (mkLim false true false (1 / 2) 0). split; [apply le_n|]. split; [reflexivity|]. split; [reflexivity|]. left. split; [reflexivity|]. cbn [lim0]. lra.
  - exists (fuel + 0)%nat. exact (H 0%nat).
Qed.
Lemma two_calls a fuel status out r calls : 1 / 2 <= a -> LevMarFit NumR two_values (fun _ => false) fuel 2 1 [a] half_limit (1 / 100) true = Ok (status, out, r, calls) ->
  calls <> [] /\ (forall k w u d, nth_error (rev calls) k = Some (w, u, d) -> d = two_values k u /\ (w = Start -> u = [a])) /\
  r <> None /\ (status = 4%Z \/ exists k u d, nth_error (rev calls) k = Some (Trial, u, d)).
Proof.
  intros Ha E.
  pose proof (@mpfit_ok R NumR (mp_enorm NumR) two_values (fun _ => false) fuel R_up R_lo R_irr R_ord (fun x => 0 <= x) R_norm R_trans R_accept [a] (Some half_limit) 2 1 (settings (1 / 100)) status out r calls eq_refl E) as H.
  assert (N0 : calls <> []).
  { intros ->. pose proof (@mpfit_early two_values (fun _ => false) fuel 2 1 [a] (Some half_limit) (settings (1 / 100)) eq_refl two_length (long_enough true half_limit 1 (fun _ => le_n _)) eq_refl status out r E 0%nat) as Q.
    clear - Q Ha. unfold mpfit in Q. cbv zeta in Q. change (2 <=? 0)%Z with false in Q. change (1 <=? 0)%Z with false in Q. cbv iota in Q.
    change (Z.to_nat 2) with 2%nat in Q. change (Z.to_nat 1) with 1%nat in Q.
    change (free_indices (Some half_limit) 1) with (Ok [0%nat]) in Q. cbn [bind length Nat.eqb] in Q.
    assert (C : check_limits NumR 1 half_limit [a] = Ok None). { unfold check_limits, half_limit. cbn. destruct (Rltb a (1 / 2)) eqn:Z; [apply Rltb_true in Z; lra|]. reflexivity. }
    rewrite C in Q. cbn [bind] in Q. change (free_limits [0%nat] half_limit) with (Ok half_limit) in Q. cbn [bind] in Q.
    assert (P : forall p q : positive, Rleb (IZR (Zpos p) / IZR (Zpos q)) 0 = false). { intros p q. apply Rleb_false. apply Rdiv_lt_0_compat; apply IZR_lt; reflexivity. }
    assert (Z0 : Rltb 0 0 = false) by (apply Rltb_false; lra). assert (Z1 : Rltb 0 (1 / 100) = true) by (apply Rltb_true; lra).
    unfold merge_config, settings in Q. cbn [ftol xtol gtol stepfactor maxiter nltb nleb nofZ ndec NumR] in Q. rewrite Z0, Z1 in Q.
    assert (P1 : Rleb (1 / 100) 0 = false) by apply P. assert (P2 : Rleb (1 / IZR (10 ^ 10)) 0 = false) by apply P. assert (P3 : Rleb 100 0 = false) by (apply Rleb_false; lra).
    rewrite P1, P2, P3 in Q. cbn [orb] in Q. change (0 <? 1000)%Z with true in Q. cbv iota in Q. change (1000 <? 0)%Z with false in Q. cbn [orb Nat.ltb Nat.leb] in Q. cbv iota in Q.
    cbn in Q. discriminate Q. }
  split; [exact N0|]. destruct H as (_ & [(_ & Q & _)|(_ & _ & Fo & C & _)]); [contradiction|]. split.
  - intros k w u d Hk. split; [exact (C _ _ _ _ Hk)|]. intros ->. apply nth_error_In in Hk. apply in_rev in Hk. rewrite Forall_forall in Fo. exact (Fo _ Hk).
  - exact (@mpfit_trials two_values (fun _ => false) fuel 2 1 [a] (Some half_limit) (settings (1 / 100)) eq_refl two_length (long_enough true half_limit 1 (fun _ => le_n _)) eq_refl status out r calls E N0 ltac:(discriminate)).
Qed.
(** the differences give the Jacobian (1, 1) *)
Lemma two_jacobian L b x f J : (forall k w u d, nth_error L k = Some (w, u, d) -> d = two_values k u) -> f = two_values b [x] ->
  jacobian L (S b) 2 [0%nat] [x] f J -> J 0%nat 0%nat = 1 /\ J 1%nat 0%nat = 1.
Proof.
  intros C -> H. destruct (H 0%nat 0%nat eq_refl) as (h & g & Hh & Hg & HJ). apply C in Hg. subst g.
  split; rewrite HJ by lia; cbn; field; exact Hh.
Qed.
Lemma two_moderate : 2 < (13040000000000000000 / INR (Z.to_nat 2)) ^ 2.
Proof. change (INR (Z.to_nat 2)) with 2. replace (13040000000000000000 / 2) with 6520000000000000000 by field. cbn [pow]. lra. Qed.

(** started at 1, the solver makes trial steps *)
Example C59_case : exists fuel status out r calls k v d,
  LevMarFit NumR two_values (fun _ => false) fuel 2 (Z.of_nat (length [1])) [1] half_limit (1 / 100) true = Ok (status, out, r, calls) /\
  nth_error (rev calls) k = Some (Trial, v, d).
Proof.
  destruct (two_ends 1) as (fuel & status & out & r & cs & E). exists fuel, status, out, r, cs.
  destruct (@two_calls 1 fuel status out r cs ltac:(lra) E) as (_ & C & _ & [->|(k & v & d & H)]); [|exists k, v, d; split; [exact E|exact H]].
  destruct (C60_gradient two_values (fun _ => false) fuel 2 [1] half_limit (1 / 100) true out r cs two_length (fun _ => le_n _) E) as (b & f & J & ((w & Hb & [->| ->]) & Hj & _) & St).
  2:{ exists b, out, f. split; [exact E|exact Hb]. }
  exfalso. destruct (C _ _ _ _ Hb) as (-> & Q). rewrite (Q eq_refl) in *. clear Q.
  destruct (@two_jacobian (rev cs) b 1 (two_values b [1]) J (fun k w u d H => proj1 (C k w u d H)) eq_refl Hj) as (J0 & J1).
  change (Z.to_nat 2) with 2%nat in St. pose proof two_moderate as TM. change (Z.to_nat 2) with 2%nat in TM.
  assert (H : stationary (limits_given true half_limit) [0%nat] 2 (1 / IZR (10 ^ 10)) [1] (two_values b [1]) J).
  { apply St.
    - intros j Hj'. cbn in Hj'. assert (j = 0%nat) as -> by lia. cbn [rsum]. rewrite J0, J1. lra.
    - cbn [rsum two_values nth]. assert (T : 20 < (13040000000000000000 / INR 2) ^ 2). { change (INR 2) with 2. replace (13040000000000000000 / 2) with 6520000000000000000 by field. cbn [pow]. lra. } lra. }
  destruct (H 0%nat 0%nat eq_refl) as [(l & Hl & Hb')|Hs].
  - cbn in Hl. injection Hl as <-. cbn [limited0 limited1 lim0 lim1 nth] in Hb'. destruct Hb' as [(_ & Q & _)|(Q & _)]; [lra|discriminate Q].
  - unfold slope, norm in Hs. cbn [rsum two_values nth] in Hs. rewrite J0, J1 in Hs.
    replace (0 + (1 - 3) * 1 + (1 - 5) * 1) with (- (6)) in Hs by ring. rewrite Rabs_Ropp, Rabs_pos_eq in Hs by lra.
    replace (0 + (1 - 3) * (1 - 3) + (1 - 5) * (1 - 5)) with 20 in Hs by ring. replace (0 + 1 * 1 + 1 * 1) with 2 in Hs by ring.
    assert (S1 : sqrt 20 <= 5). { rewrite <- (sqrt_pow2 5) by lra. apply sqrt_le_1_alt. lra. }
    assert (S2 : sqrt 2 <= 2). { rewrite <- (sqrt_pow2 2) at 2 by lra. apply sqrt_le_1_alt. lra. }
    pose proof (sqrt_pos 20). pose proof (sqrt_pos 2).
    assert (P : sqrt 20 * sqrt 2 <= 10) by nra.
    assert (D : 0 < 1 / IZR (10 ^ 10) <= 1 / 10). { change (10 ^ 10)%Z with 10000000000%Z. lra. }
    assert (P0 : 0 <= sqrt 20 * sqrt 2) by nra. rewrite Rmult_assoc in Hs. nra.
Qed.

(** started at 4, the minimum, it returns with status 4 *)
Example C60_case : exists fuel out r calls,
  LevMarFit NumR two_values (fun _ => false) fuel 2 (Z.of_nat (length [4])) [4] half_limit (1 / 100) true = Ok (4%Z, out, r, calls).
Proof.
  destruct (two_ends 4) as (fuel & status & out & r & cs & E). exists fuel, out, r, cs.
  destruct (@two_calls 4 fuel status out r cs ltac:(lra) E) as (_ & C & _ & [->|(k & v & d & H)]); [exact E|]. exfalso.
  revert v d H. induction k as [k IH] using (well_founded_induction Nat.lt_wf_0). intros v d H.
  destruct (C59_step two_values (fun _ => false) fuel 2 [4] half_limit (1 / 100) true status out r cs two_length (fun _ => le_n _) E k v d H) as (b & base & f & J & J' & ((w & Hb & [->| ->]) & Hj & Hk & _) & Hu & _ & St).
  2:{ apply (IH b ltac:(lia) base f Hb). }
  destruct (C _ _ _ _ Hb) as (-> & Q). rewrite (Q eq_refl) in *. clear Q.
  destruct (@two_jacobian (rev cs) b 4 (two_values b [4]) J (fun k w u d H => proj1 (C k w u d H)) eq_refl Hj) as (J0 & J1).
  change (Z.to_nat 2) with 2%nat in St, Hu. pose proof two_moderate as TM. change (Z.to_nat 2) with 2%nat in TM.
  assert (NB : ~ blocked (limits_of (limits_given true half_limit) 0) (nth 0 [4] 0) (slope 2 (two_values b [4]) J 0)).
  { intros (l & Hl & Hb'). cbn in Hl. injection Hl as <-. cbn [limited0 limited1 lim0 lim1 nth] in Hb'. destruct Hb' as [(_ & Q & _)|(Q & _)]; [lra|discriminate Q]. }
  destruct (Hu 0%nat 0%nat eq_refl) as (_ & U). specialize (U NB).
  apply St.
  - intros j Hj'. cbn in Hj'. assert (j = 0%nat) as -> by lia. cbn [rsum]. rewrite !U by lia. rewrite J0, J1. lra.
  - cbn [rsum two_values nth]. lra.
  - intros j p Hp. destruct j as [|j]; [injection Hp as <-|destruct j; discriminate Hp]. right.
    unfold slope, norm. cbn [rsum two_values nth]. rewrite J0, J1. replace (0 + (4 - 3) * 1 + (4 - 5) * 1) with 0 by ring. rewrite Rabs_R0.
    apply Rmult_le_pos; [apply Rmult_le_pos; [|apply sqrt_pos]|apply sqrt_pos]. apply Rmult_le_pos; [lra|]. left. apply Rinv_0_lt_compat. apply IZR_lt. reflexivity.
Qed.

(** it returns errors *)
Example C61_case : exists fuel status out r calls,
  LevMarFit NumR two_values (fun _ => false) fuel 2 (Z.of_nat (length [1])) [1] half_limit (1 / 100) true = Ok (status, out, Some r, calls).
Proof.
  destruct (two_ends 1) as (fuel & status & out & r & cs & E). destruct (@two_calls 1 fuel status out r cs ltac:(lra) E) as (_ & _ & N & _).
  destruct r as [r|]; [|contradiction]. exists fuel, status, out, r, cs. exact E.
Qed.

(** the limits [1/2, oo) exclude 0 *)
Example C63_case : exists p l, (p < length [1])%nat /\ nth_error half_limit p = Some l /\ fixed l = false /\ (limited0 l = true /\ 0 < lim0 l \/ limited1 l = true /\ lim1 l < 0).
Proof. exists 0%nat, (mkLim false true false (1 / 2) 0). cbn. repeat split; try lia. left. split; [reflexivity|lra]. Qed.
