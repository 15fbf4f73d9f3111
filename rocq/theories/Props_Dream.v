(** C46-C51, C58: the DREAM Markov-chain sampler. *)
From Coq Require Import List Arith ZArith Bool Lia Reals Lra Permutation.
From Flocq Require Import IEEE754.BinarySingleNaN.
From Verif Require Import Base Num FloatFacts FloatOrder Params_Model Params_Spec Params_Proof Boot_Model Boot_Spec
  Dream_Model Dream_Spec Dream_Proof Dream_RunProof Dream_PairProof Dream_GRProof Dream_TotalProof Dream_RestoreProof
  Dream_MoreProof.
Import ListNotations.
Set Implicit Arguments.
Unset Strict Implicit.

(** ---- C46: limits ---- *)

(** Any arithmetic in which no number is less than itself, any generator, GSL, likelihood. Every state of
    every generation of a new run, and every line written, keeps to the limits. *)
Theorem C46_limits_partial : forall (T G : Type) (N : Num T) (rg : rng T G) (gs : gsl T) fn ninf fuel p g code s,
  neqb N ninf ninf = true -> (forall x, nltb N x x = false) -> sane_limits N p -> 0 < loopSteps p ->
  dream_new N rg gs fn ninf fuel p g = Ok (code, s) ->
  length (d_st s) >= 1 /\
  (forall k row, nth_error (d_st s) k = Some row -> length row = numChains p) /\
  (forall k i x, at_ (d_st s) k i = Some x -> respects N (varLock p) (varLo p) (varHi p) x) /\
  (forall lines o, In lines (d_out s) -> In o lines -> respects N (varLock p) (varLo p) (varHi p) (o_par o)).
Proof.
  intros T G N rg gs fn ninf fuel p g code s NI IR (V1 & V2 & V3 & OR) LS H.
  destruct (new_inv NI V1 V2 V3 LS IR OR H) as (t & c & Ht & I & _).
  split; [rewrite (i_st I); lia|]. split; [intros k row E; exact (i_rows I E)|]. split; [intros k i x E; exact (i_good I E)|].
  intros lines o H1 H2. destruct (i_out I H1) as (k & _ & _ & Q). apply In_nth_error in H2 as (i & Ei).
  destruct (Q i o Ei) as [Q1 _]. exact (i_good I Q1).
Qed.
Print Assumptions C46_limits_partial.

(** The same from any history that keeps to the limits (a resumed run, whatever likelihoods and
    probabilities were read). *)
Theorem C46_limits_resumed : forall (T G : Type) (N : Num T) (rg : rng T G) (gs : gsl T) fn ninf fuel p st lk pcr inb g s c m,
  neqb N ninf ninf = true -> sane_limits N p -> 1 <= length st -> length pcr = nCR p ->
  (forall k i x, at_ st k i = Some x -> respects N (varLock p) (varLo p) (varHi p) x) ->
  generations N rg gs fn ninf fuel p m (length st) (start N p st lk pcr inb [] g) = Ok (s, c) ->
  (forall k i x, at_ (d_st s) k i = Some x -> respects N (varLock p) (varLo p) (varHi p) x) /\
  (forall lines o, In lines (d_out s) -> In o lines -> respects N (varLock p) (varLo p) (varHi p) (o_par o)).
Proof.
  intros T G N rg gs fn ninf fuel p st lk pcr inb g s c m NI (V1 & V2 & V3 & OR) HL HP HG H.
  assert (A0 : Any N rg fuel p (length st) (length st) (start N p st lk pcr inb [] g)).
  { apply start_Any; auto. intros ls []. }
  destruct (generations_Any NI V1 V2 V3 A0 H) as (t & Ht & At).
  split; [intros k i x E; exact (a_good At E)|]. intros lines o H1 H2. apply In_nth_error in H2 as (i & Ei).
  destruct (a_out At H1) as [_ Q]. apply (Q i o Ei).
Qed.
Print Assumptions C46_limits_resumed.

(** In exact arithmetic: low <= x <= high, and locked parameters have their value. *)
Theorem C46_exact : forall (G : Type) (rg : rng R G) (gs : gsl R) fn ninf fuel p g code s,
  length (varLock p) = nvar p -> length (varLo p) = nvar p -> length (varHi p) = nvar p ->
  (forall j l h, nth_error (varLo p) j = Some l -> nth_error (varHi p) j = Some h -> (l <= h)%R) -> 0 < loopSteps p ->
  dream_new NumR rg gs fn ninf fuel p g = Ok (code, s) ->
  forall k i x j v l h, at_ (d_st s) k i = Some x -> nth_error x j = Some v ->
    nth_error (varLo p) j = Some l -> nth_error (varHi p) j = Some h ->
    (l <= v <= h)%R /\ (nth_error (varLock p) j = Some true -> v = l).
Proof.
  intros G rg gs fn ninf fuel p g code s V1 V2 V3 OR LS H k i x j v l h E1 E2 E3 E4.
  assert (irr : forall x, Rltb x x = false). { intros y. unfold Rltb. destruct (Rlt_dec y y); auto. exfalso. lra. }
  assert (NI : Reqb ninf ninf = true). { unfold Reqb. destruct (Req_EM_T ninf ninf); auto. }
  destruct (@C46_limits_partial R G NumR rg gs fn ninf fuel p g code s NI irr) as (_ & _ & Q & _); auto.
  { do 3 (split; [assumption|]). intros j' l' h' F1 F2. cbn. unfold Rltb. destruct (Rlt_dec h' l'); auto. specialize (OR _ _ _ F1 F2). exfalso. lra. }
  destruct (Q k i x E1) as [Lx Qx]. assert (Hj := nth_error_lt E2).
  destruct (@nth_error_ex _ (varLock p) j) as (b & Eb); [lia|]. specialize (Qx j b l h v Eb E3 E4 E2). specialize (OR _ _ _ E3 E4).
  rewrite Eb. destruct b.
  - subst v. split; [lra|auto].
  - destruct Qx as [Q1 Q2]. cbn in Q1, Q2. unfold Rltb in Q1, Q2. destruct (Rlt_dec v l); [discriminate|]. destruct (Rlt_dec h v); [discriminate|].
    split; [lra|discriminate].
Qed.
Print Assumptions C46_exact.

(** In binary64, with -infinity for impossible proposals: a state that is not NaN is within the limits. *)
Theorem C46_binary64 : forall (G : Type) (m : Libm) (rg : rng F64 G) (gs : gsl F64) fn fuel p g code s,
  length (varLock p) = nvar p -> length (varLo p) = nvar p -> length (varHi p) = nvar p ->
  (forall j l h, nth_error (varLo p) j = Some l -> nth_error (varHi p) j = Some h -> f_leb l h = true) -> 0 < loopSteps p ->
  dream_new (NumF m) rg gs fn (B754_infinity true : F64) fuel p g = Ok (code, s) ->
  forall k i x j v l h, at_ (d_st s) k i = Some x -> nth_error x j = Some v -> is_nan v = false ->
    nth_error (varLo p) j = Some l -> nth_error (varHi p) j = Some h ->
    f_leb l v = true /\ f_leb v h = true /\ (nth_error (varLock p) j = Some true -> v = l).
Proof.
  intros G m rg gs fn fuel p g code s V1 V2 V3 OR LS H k i x j v l h E1 E2 NV E3 E4.
  assert (irr : forall y : F64, f_ltb y y = false).
  { intros y. destruct (f_ltb y y) eqn:E; auto. apply ltb_key_true in E as (_ & _ & E). lra. }
  assert (nn : forall a b : F64, f_leb a b = true -> is_nan a = false /\ is_nan b = false).
  { intros a b Hab. destruct a, b; auto; discriminate. }
  destruct (@C46_limits_partial F64 G (NumF m) rg gs fn (B754_infinity true) fuel p g code s eq_refl irr) as (_ & _ & Q & _); auto.
  { do 3 (split; [assumption|]). intros j' l' h' F1 F2. specialize (OR _ _ _ F1 F2). destruct (nn _ _ OR) as [N1 N2].
    cbn. rewrite f_ltb_leb by auto. now rewrite OR. }
  destruct (Q k i x E1) as [Lx Qx]. assert (Hj := nth_error_lt E2).
  destruct (@nth_error_ex _ (varLock p) j) as (b & Eb); [lia|]. specialize (Qx j b l h v Eb E3 E4 E2). specialize (OR _ _ _ E3 E4).
  destruct (nn _ _ OR) as [N1 N2]. rewrite Eb. destruct b.
  - subst v. split; [|split; [auto|auto]]. specialize (irr l). rewrite f_ltb_leb in irr by auto. now apply negb_false_iff in irr.
  - destruct Qx as [Q1 Q2]. cbn in Q1, Q2. rewrite f_ltb_leb in Q1, Q2 by auto. apply negb_false_iff in Q1, Q2. split; auto. split; auto. discriminate.
Qed.
Print Assumptions C46_binary64.

(** ---- C47: likelihoods and transitions; C51: outliers ---- *)

(** The likelihood stored with a state is the likelihood function there, for every generation and
    chain, and for every line written; every generation after the first follows from the one before by
    Metropolis transitions of the chains and, at the generations where outliers are looked for, the
    moves of [outliers_moved]. With report_interval <= 1, line k of the files is generation k. *)
Theorem C47_metropolis : forall (T G : Type) (N : Num T) (rg : rng T G) (gs : gsl T) fn ninf fuel p g code s,
  neqb N ninf ninf = true -> (forall x, nltb N x x = false) -> sane_limits N p -> 0 < loopSteps p ->
  dream_new N rg gs fn ninf fuel p g = Ok (code, s) ->
  length (d_lk s) = length (d_st s) /\
  (forall k i x l, at_ (d_st s) k i = Some x -> at_ (d_lk s) k i = Some l -> l = fn x) /\
  (forall k, 1 <= k < length (d_st s) -> follows N gs p fn ninf 1 (d_st s) (d_lk s) (d_tr s) k) /\
  (forall lines o, In lines (d_out s) -> In o lines -> o_lik o = fn (o_par o)) /\
  ((report_interval p <= 1)%Z -> forall k lines i o, nth_error (d_out s) k = Some lines -> nth_error lines i = Some o ->
     at_ (d_st s) k i = Some (o_par o) /\ at_ (d_lk s) k i = Some (o_lik o)).
Proof.
  intros T G N rg gs fn ninf fuel p g code s NI IR (V1 & V2 & V3 & OR) LS H.
  destruct (new_inv NI V1 V2 V3 LS IR OR H) as (t & c & Ht & I & _).
  split; [rewrite (i_st I), (i_lk I); auto|]. split; [intros k i x l E1 E2; exact (i_lik I E1 E2)|].
  split; [intros k Hk; apply (i_rel I); rewrite (i_st I) in Hk; lia|]. split.
  - intros lines o H1 H2. destruct (i_out I H1) as (k & _ & _ & Q). apply In_nth_error in H2 as (i & Ei).
    destruct (Q i o Ei) as [Q1 Q2]. exact (i_lik I Q1 Q2).
  - intros HR k lines i o E1 E2. destruct (i_rep I HR) as (_ & _ & Q). specialize (Q k lines E1 i o E2).
    replace (1 + k - 1) with k in Q by lia. exact Q.
Qed.
Print Assumptions C47_metropolis.

(** Only outliers are moved, and they take state and likelihood of the chain that has the best mean
    likelihood: the row after the transitions of generation t is [y], [ly]. *)
Theorem C51_outliers : forall (T G : Type) (N : Num T) (rg : rng T G) (gs : gsl T) fn ninf fuel p g code s,
  neqb N ninf ninf = true -> (forall x, nltb N x x = false) -> sane_limits N p -> 0 < loopSteps p ->
  dream_new N rg gs fn ninf fuel p g = Ok (code, s) ->
  forall t, 1 <= t < length (d_st s) -> exists y ly row lrow,
    nth_error (d_st s) t = Some row /\ nth_error (d_lk s) t = Some lrow /\
    (forall i a, nth_error y i = Some a -> exists x q, at_ (d_st s) (t - 1) i = Some x /\ at_ (d_tr s) (t - 1) i = Some q /\
        a = if tr_acc q then tr_prop q else x) /\
    length y = numChains p /\ length ly = numChains p /\
    if (t mod loopSteps p =? 0) && collapseOutliers p &&
       nltb N (nofZ N (Z.of_nat t)) (nmul N (reenterBurnin p) (nofZ N (Z.of_nat (maxEvals p))))
    then exists means, mean_logliks gs (d_lk s) (numChains p) t means /\
      forall i m, nth_error means i = Some m ->
        let from := if is_outlier N gs means m then g_max_index gs means else i in
        nth_error row i = nth_error y from /\ nth_error lrow i = nth_error ly from
    else row = y /\ lrow = ly.
Proof.
  intros T G N rg gs fn ninf fuel p g code s NI IR SL LS H t Ht.
  destruct (C47_metropolis NI IR SL LS H) as (_ & _ & Q & _).
  destruct (Q t Ht) as (y & ly & row & lrow & E1 & E2 & L1 & L2 & HT & (_ & _ & HO)).
  exists y, ly, row, lrow. do 2 (split; [assumption|]). split.
  - intros i a Ea. destruct (HT i) as (x & l & q & a' & b & F1 & F2 & F3 & F4 & F5 & F6).
    { rewrite <- L1. apply nth_error_lt in Ea. auto. }
    exists x, q. split; auto. split; auto. rewrite Ea in F4. injection F4 as <-.
    destruct F6 as (_ & _ & _ & _ & F6). destruct (tr_acc q); tauto.
  - do 2 (split; [assumption|]). unfold collapse_due in HO. replace (t - 1 + 1) with t in HO by lia. exact HO.
Qed.
Print Assumptions C51_outliers.

(** ---- C48: proposals ---- *)

(** With three chains or more, choosing a pair terminates after at most two corrections and gives two
    different chains, both different from the chain updated. *)
Theorem C48_pair : forall (T G : Type) (rg : rng T G) fuel n i g,
  rng_ok rg -> 3 <= n -> i < n -> 2 <= fuel ->
  exists a b g', pick_pair rg fuel n i g = Ok (a, b, g') /\ good_pair n i (a, b).
Proof. intros. apply pick_pair_ok; auto. Qed.
Print Assumptions C48_pair.

(** Every proposal of a run (three chains or more) is made from the previous generation with such
    pairs: between 1 and max(1, deltaMax) of them; the parameters marked in [mask] move along the sum
    of the differences, the others and the locked ones stay. *)
Theorem C48_proposals : forall (T G : Type) (N : Num T) (rg : rng T G) (gs : gsl T) fn ninf fuel p g code s,
  rng_ok rg -> 3 <= numChains p -> 2 <= fuel -> free_counted p ->
  neqb N ninf ninf = true -> (forall x, nltb N x x = false) -> sane_limits N p -> 0 < loopSteps p ->
  dream_new N rg gs fn ninf fuel p g = Ok (code, s) ->
  forall k i q, 1 <= k < length (d_st s) -> at_ (d_tr s) (k - 1) i = Some q ->
  i < numChains p -> exists prev cur pairs mask,
    nth_error (d_st s) (k - 1) = Some prev /\ nth_error prev i = Some cur /\
    1 <= length pairs <= Nat.max 1 (Z.to_nat (deltaMax p)) /\ Forall (good_pair (numChains p) i) pairs /\
    tr_dim q = Z.of_nat (count_occ Bool.bool_dec mask true) /\
    made_from N k (varLock p) prev cur pairs mask (tr_prop q).
Proof.
  intros T G N rg gs fn ninf fuel p g code s RG HN HF FC NI IR (V1 & V2 & V3 & OR) LS H k i q Hk Eq Hi.
  destruct (new_Any NI V1 V2 V3 LS IR OR H) as (t & A & _). rewrite (a_st A) in Hk.
  destruct (@a_prop _ _ _ _ _ _ _ _ _ A k i q Eq Hk) as (prev & cur & crm & gen & gg & gg' & E1 & E2 & E3).
  destruct (propose_made RG HN Hi HF V1 FC E3 E2) as (pairs & mask & F1 & F2 & F3 & F4).
  exists prev, cur, pairs, mask. auto 8.
Qed.
Print Assumptions C48_proposals.

(** The crossover table: the numbers of entries drawn add up to its size, and it is a shuffle of that
    many 1s, 2s, ... *)
Theorem C48_crossover : forall (T G : Type) (rg : rng T G) (pCR : list T) crm L g,
  rng_ok rg -> length L = length pCR -> 0 < length pCR ->
  exists crm' L' g', gen_CR rg pCR crm L g = Ok (crm', L', g') /\
    length L' = length pCR /\ list_sum L' = length crm /\ Permutation crm' (crossover_entries 1 L').
Proof. intros. apply gen_CR_ok; auto. Qed.
Print Assumptions C48_crossover.

(** With two chains the second chain of a pair can be the chain updated; with one chain the
    random-number library stops the program. *)
Definition demo_rng {T} (u : nat -> T) (z : T) : rng T nat :=
  {| r_unif := fun k => (u k, S k); r_int := fun k n => ((Z.of_nat k mod n)%Z, S k); r_gauss := fun k _ => (z, S k);
     r_perm := fun k n => (rev (seq 0 n), S k);
     r_multi := fun k m n _ => (match m with O => [] | S m' => n :: repeat O m' end, S k) |}.
Example demo_rng_ok : forall T u (z : T), rng_ok (demo_rng u z).
Proof.
  intros. split; cbn.
  - intros g n Hn. apply Z.mod_pos_bound. lia.
  - intros g n. apply Permutation_rev.
  - intros g [|k] n q; cbn; [auto|]. now rewrite repeat_length.
  - intros g [|k] n q Hk; [lia|]. assert (E : forall m, list_sum (repeat 0 m) = 0) by (induction m; auto).
    change (n + list_sum (repeat 0 k) = n). rewrite E. lia.
Qed.
Theorem C48_two_chains_refuted : forall (T : Type) (u : nat -> T) z fuel,
  pick_pair (demo_rng u z) fuel 2 0 0 = Ok (1%Z, 0%Z, 2) /\ ~ good_pair 2 0 (1%Z, 0%Z).
Proof. intros. split; [reflexivity|]. cbn. intros (_ & _ & _ & _ & H). apply H. reflexivity. Qed.
Print Assumptions C48_two_chains_refuted.
Theorem C48_one_chain_refuted : forall (T G : Type) (rg : rng T G) fuel g, pick_pair rg fuel 1 0 g = Abort.
Proof. reflexivity. Qed.
Print Assumptions C48_one_chain_refuted.
(** ---- C49: convergence ---- *)

(** In exact arithmetic the diagnostic of a free parameter is Gelman and Rubin's factor for the
    values of that parameter in the generations t0 .. t0+n-1, t0 = (t + first) / 2 and
    n = t - t0 - 1, [first] being the end of burn-in: the second half since burn-in, less its last
    two generations. It is 1 when the within-chain variance is not positive (which for n >= 2 means
    zero). *)
Theorem C49_diagnostic_partial : forall (gs : gsl R) (p : pars R) st sr0 (first t : nat) sr,
  gsl_exact gs -> gelman_rubin NumR gs p st sr0 (Z.of_nat first) (Z.of_nat t) false = Ok sr -> 0 < t ->
  let t0 := (t + first) / 2 in let n := t - t0 - 1 in
  forall j, nth_error (varLock p) j = Some false -> j < nvar p ->
  exists chains, length chains = numChains p /\
    (forall i c, nth_error chains i = Some c -> param_values st t0 n i j c) /\
    nth_error sr j = Some (if Rlt_dec 0 (within chains) then scale_reduction n chains else 1%R) /\
    (2 <= n -> (0 <= within chains)%R).
Proof.
  intros gs p st sr0 first t sr GE H Ht t0 n j Hj Hn.
  destruct (gelman_real GE H Ht Hj Hn) as (chains & A1 & A2 & A3).
  exists chains. split; auto. split; auto. split; auto. intros H2. apply within_nonneg.
  intros c Hc. apply In_nth_error in Hc as (i & Ei). destruct (A2 i c Ei) as [L _]. fold t0 in L. fold n in L. lia.
Qed.
Print Assumptions C49_diagnostic_partial.

(** A run ends as converged only after the diagnostic, computed from the history it has, is below the
    threshold for every free parameter. *)
Theorem C49_converged : forall (T G : Type) (N : Num T) (rg : rng T G) (gs : gsl T) fn ninf fuel p g s,
  neqb N ninf ninf = true -> (forall x, nltb N x x = false) -> sane_limits N p -> 0 < loopSteps p ->
  dream_new N rg gs fn ninf fuel p g = Ok (0%Z, s) ->
  exists t sr0, length (d_st s) = S t /\
    gelman_rubin N gs p (d_st s) sr0 (burnInStart (d_burn s) + burnIn p)%Z (Z.of_nat t) false = Ok (d_sr s) /\
    length (d_sr s) = nvar p /\
    forall j r, nth_error (varLock p) j = Some false -> nth_error (d_sr s) j = Some r -> nltb N r (scaleReductionCrit p) = true.
Proof.
  intros T G N rg gs fn ninf fuel p g s NI IR (V1 & V2 & V3 & OR) LS H.
  destruct (new_Any NI V1 V2 V3 LS IR OR H) as (t & A & Hz). destruct (Hz eq_refl) as (s0 & g1 & n0 & Hg & L0 & _).
  destruct (generations_stop V1 Hg L0) as (t' & Lt & (sr0 & P1 & P2 & P3)). exists t', sr0. auto.
Qed.
Print Assumptions C49_converged.

(** The test is passed exactly when every free parameter is below the threshold. *)
Theorem C49_test : forall (T : Type) (N : Num T) p sr c,
  length (varLock p) = nvar p -> length sr = nvar p -> all_converged N p sr = Ok c ->
  (c = true <-> forall j r, nth_error (varLock p) j = Some false -> nth_error sr j = Some r -> nltb N r (scaleReductionCrit p) = true).
Proof. intros T N p sr c V1 Ls H. exact (all_converged_ok H V1 Ls). Qed.
Print Assumptions C49_test.

(** Both together in exact arithmetic. *)
Theorem C49_run : forall (G : Type) (rg : rng R G) (gs : gsl R) fn ninf fuel p g s,
  gsl_exact gs -> sane_limits NumR p -> 0 < loopSteps p -> (0 <= burnIn p)%Z ->
  dream_new NumR rg gs fn ninf fuel p g = Ok (0%Z, s) -> 1 < length (d_st s) ->
  exists t first, length (d_st s) = S t /\ Z.of_nat first = (burnInStart (d_burn s) + burnIn p)%Z /\
  let t0 := (t + first) / 2 in let n := t - t0 - 1 in
  forall j, nth_error (varLock p) j = Some false -> exists chains, length chains = numChains p /\
    (forall i c, nth_error chains i = Some c -> param_values (d_st s) t0 n i j c) /\
    ((if Rlt_dec 0 (within chains) then scale_reduction n chains else 1) < scaleReductionCrit p)%R.
Proof.
  intros G rg gs fn ninf fuel p g s GE SL LS HB H HL.
  assert (irr : forall x, nltb NumR x x = false). { intros y. cbn. unfold Rltb. destruct (Rlt_dec y y); auto. exfalso. lra. }
  assert (NI : neqb NumR ninf ninf = true). { cbn. unfold Reqb. destruct (Req_EM_T ninf ninf); auto. }
  destruct (C49_converged NI irr SL LS H) as (t & sr0 & Lt & Eg & Ls & Q).
  destruct SL as (V1 & V2 & V3 & OR).
  destruct (new_Any NI V1 V2 V3 LS irr OR H) as (t' & A & _). assert (B := a_burn A).
  exists t, (Z.to_nat (burnInStart (d_burn s) + burnIn p)). split; auto. split; [lia|]. intros t0 n j Hj.
  rewrite <- (Z2Nat.id (burnInStart (d_burn s) + burnIn p)) in Eg by lia.
  assert (Hjn : j < nvar p) by (apply nth_error_lt in Hj; lia).
  destruct (gelman_real GE Eg ltac:(lia) Hj Hjn) as (chains & A1 & A2 & A3).
  exists chains. split; auto. split; auto. specialize (Q j _ Hj A3). cbn in Q. apply Rltb_true in Q. exact Q.
Qed.
Print Assumptions C49_run.

(** The last two generations never matter (they belong to the second half as C49 is stated). *)
Theorem C49_last_two_ignored : forall (T : Type) (N : Num T) (gs : gsl T) p st st' sr first (t : nat) adj,
  0 < t -> (forall k, k < t - 1 -> nth_error st k = nth_error st' k) ->
  gelman_rubin N gs p st sr first (Z.of_nat t) adj = gelman_rubin N gs p st' sr first (Z.of_nat t) adj.
Proof.
  intros T N gs p st st' sr first t adj Ht HE. unfold gelman_rubin.
  destruct (Z.of_nat t <=? 0)%Z eqn:Et; [apply Z.leb_le in Et; lia|].
  set (t0 := Z.quot (Z.of_nat t + first) 2). destruct ((Z.of_nat t - t0 - 1 <? 0) || (t0 <? 0))%Z eqn:En; auto.
  apply orb_false_iff in En as [En1 En2]. apply Z.ltb_ge in En1, En2.
  apply each_ext. intros j _. destruct (get (varLock p) (0 + j)) as [b| | |]; auto. cbn [bind].
  destruct (get sr (0 + j)) as [old| | |]; auto. cbn [bind]. destruct b; auto.
  match goal with |- bind ?a _ = bind ?b _ => assert (E : a = b) end.
  { apply each_ext. intros i _. unfold window. apply each_ext. intros k Hk. unfold get. rewrite HE; [reflexivity|lia]. }
  rewrite E. reflexivity.
Qed.
Print Assumptions C49_last_two_ignored.

(** With the default 5 chains the test overflows an int from generation 41452 on (the default length
    is 100000), whatever the history: no diagnostic is defined. *)
Theorem C49_overflow_refuted : forall (T : Type) (N : Num T) (gs : gsl T) (p : pars T) st sr (t : nat) j r,
  numChains p = 5 -> (41452 <= Z.of_nat t)%Z -> nth_error (varLock p) j = Some false -> j < nvar p ->
  gelman_rubin N gs p st sr 0 (Z.of_nat t) false <> Ok r.
Proof.
  intros T N gs p st sr t j r H5 Ht Hj Hn H. unfold gelman_rubin in H.
  destruct (Z.of_nat t <=? 0)%Z eqn:Et; [apply Z.leb_le in Et; lia|].
  rewrite Z.add_0_r, Z.quot_div_nonneg in H by lia. set (t0 := (Z.of_nat t / 2)%Z) in *.
  assert (Hd : (2 * t0 <= Z.of_nat t)%Z) by (unfold t0; apply Z.mul_div_le; lia).
  destruct ((Z.of_nat t - t0 - 1 <? 0) || (t0 <? 0))%Z; [discriminate|].
  destruct (each_Ok H) as [_ Q]. destruct (Q j Hn) as (a & _ & E). cbn [Nat.add] in E.
  rewrite (proj2 (get_Ok_iff _ _ _) Hj) in E. cbn [bind] in E. apply bind_Ok in E as (old & _ & E). cbv iota in E.
  apply bind_Ok in E as (cols & _ & E). cbv zeta in E. rewrite H5 in E.
  change (Z.of_nat 5) with 5%Z in E. set (n := (Z.of_nat t - t0 - 1)%Z) in *.
  destruct (2147483647 <? 5 * n * n)%Z eqn:Eo; [discriminate|]. apply Z.ltb_ge in Eo.
  assert (20725 <= n)%Z by (unfold n; lia). nia.
Qed.
Print Assumptions C49_overflow_refuted.

(** ---- set-up: what mcmc makes of the parameter file ---- *)

(** Locks and limits passed to the sampler: a fixed parameter has its value (image offset taken off)
    as low and high limit, a free one its limits (likewise). The settings count the free parameters. *)
Theorem C46_setup : forall (T : Type) (N : Num T) (ps : list (mpar T)),
  let lims := map (mcmc_limit N) ps in
  (forall q, In q ps -> if (m_fixed q =? 1)%Z then nltb N (sub_off N (m_value q) (m_off q)) (sub_off N (m_value q) (m_off q)) = false
                        else nltb N (sub_off N (m_hi q) (m_off q)) (sub_off N (m_lo q) (m_off q)) = false) ->
  exists p, SetupDreamParams N (length ps) (map (fun x => fst (fst (fst x))) lims) (map (fun x => snd (fst (fst x))) lims)
              (map (fun x => snd (fst x)) lims) = Ok p /\
    sane_limits N p /\ free_counted p /\ nvar p = length ps /\ 0 < loopSteps p /\ numChains p = 5 /\
    forall j q, nth_error ps j = Some q ->
      nth_error (varLock p) j = Some (m_fixed q =? 1)%Z /\
      ((m_fixed q = 1)%Z -> nth_error (varLo p) j = Some (sub_off N (m_value q) (m_off q))) /\
      ((m_fixed q <> 1)%Z -> nth_error (varLo p) j = Some (sub_off N (m_lo q) (m_off q)) /\
                             nth_error (varHi p) j = Some (sub_off N (m_hi q) (m_off q))).
Proof.
  intros T N ps lims HS. unfold SetupDreamParams.
  set (lock := map (fun x => fst (fst (fst x))) lims).
  match goal with |- context [for_ (length ps) ?f ?z] => assert (EF : for_ (length ps) f z = Ok (Z.of_nat (count_occ Bool.bool_dec lock false))) end.
  { assert (Ll : length lock = length ps) by (unfold lock, lims; now rewrite !map_length).
    match goal with |- for_ _ ?f ?z = _ =>
      destruct (@for_inv _ (fun i nf => nf = (Z.of_nat (length ps) - Z.of_nat (count_occ Bool.bool_dec (firstn i lock) true))%Z) f (length ps) z) as (e & E & He) end.
    - cbn. lia.
    - intros i nf Hi ->. destruct (@nth_error_ex _ lock i) as (b & Eb); [lia|]. rewrite (proj2 (get_Ok_iff _ _ _) Eb). cbn [bind].
      eexists. split; [reflexivity|]. assert (F : firstn (S i) lock = firstn i lock ++ [b]).
      { clear -Eb. revert i Eb. induction lock as [|x l IH]; intros [|i] E; try discriminate; cbn in *; [congruence|]. now rewrite <- IH. }
      rewrite F, count_occ_app. cbn [count_occ]. destruct b; destruct (Bool.bool_dec _ _); try congruence; lia.
    - rewrite E, He. f_equal. rewrite <- Ll, firstn_all. clear. induction lock as [|b l IH]; [reflexivity|].
      cbn [length count_occ]. destruct b; destruct (Bool.bool_dec _ true), (Bool.bool_dec _ false); try congruence; lia. }
  rewrite EF. cbn [bind]. eexists. split; [reflexivity|]. unfold sane_limits, free_counted. cbn [varLock varLo varHi nvar nfree loopSteps numChains].
  assert (NE : forall A (f : bool * T * T * T -> A) j, nth_error (map f lims) j = option_map (fun q => f (mcmc_limit N q)) (nth_error ps j)).
  { intros A f j. unfold lims. rewrite nth_error_map, nth_error_map. destruct (nth_error ps j); reflexivity. }
  unfold lock, lims in *. rewrite !map_length. split.
  { do 3 (split; [reflexivity|]). intros j l h E1 E2. rewrite NE in E1, E2. destruct (nth_error ps j) as [q|] eqn:Eq; [|discriminate].
    cbn in E1, E2. specialize (HS q (nth_error_In _ _ Eq)). unfold mcmc_limit in E1, E2.
    destruct (m_fixed q =? 1)%Z; cbn in E1, E2; congruence. }
  do 2 (split; [reflexivity|]). split; [lia|]. split; [reflexivity|]. intros j q Eq. rewrite !NE, Eq. cbn. unfold mcmc_limit.
  destruct (m_fixed q =? 1)%Z eqn:Ef; cbn; [apply Z.eqb_eq in Ef|apply Z.eqb_neq in Ef]; split; auto; split; intros; try congruence; auto.
Qed.
Print Assumptions C46_setup.

(** ---- C50: resuming ---- *)

(** Any printing and reading with rd (pr10 v) = q10 v, rd (pr12 v) = q12 v for the values printed:
    reading the files of a run of 1 <= L < maxEvals lines restores, for every line, the parameters as
    printed -- positions with the image offset ADDED -- and the likelihood, and the run goes on at
    generation L with the flag and the crossover probabilities of the last line. *)
Theorem C50_files : forall (T G tok : Type) (N : Num T) (rg : rng T G) (gs : gsl T) fn ninf fuel (p : pars T)
    (rd : tok -> option T) (rd_int : tok -> option Z) (pr10 pr12 : T -> tok) (pr_int : Z -> tok) (q10 q12 : T -> T)
    (ok : T -> Prop) (bs : list (blk T)) flags ox oy header out files g,
  (forall v, ok v -> rd (pr10 v) = Some (q10 v)) -> (forall v, ok v -> rd (pr12 v) = Some (q12 v)) ->
  (forall z, rd_int (pr_int z) = Some z) ->
  blocks_ok bs -> DefineFunctionSets (length (sizes bs)) (starts 0 bs) = Ok flags -> nvar p = length (flat bs) ->
  Forall (fun l => l = @Skip tok) header -> 1 <= length out < maxEvals p -> 0 < numChains p ->
  (forall k row, nth_error out k = Some row -> length row = numChains p) ->
  (forall k i o, at_ out k i = Some o -> length (o_par o) = nvar p /\
      Forall ok (in_full_image_exactly N ox oy bs (o_par o)) /\ ok (o_lik o) /\
      Forall ok (o_pcr o) /\ length (o_pcr o) = nCR p) ->
  each 0 (numChains p) (chain_file N pr10 pr12 pr_int (mkMo (sizes bs) flags ox oy) header out) = Ok files ->
  exists st lk b q, length st = length out /\ length lk = length out /\
    (forall k i o, at_ out k i = Some o ->
       at_ st k i = Some (map q10 (in_full_image_exactly N ox oy bs (o_par o))) /\ at_ lk k i = Some (q12 (o_lik o))) /\
    (forall k row, nth_error st k = Some row -> length row = numChains p) /\
    (forall k row, nth_error lk k = Some row -> length row = numChains p) /\
    (forall o, at_ out (length out - 1) (numChains p - 1) = Some o -> b = o_burn o /\ q = map q12 (o_pcr o)) /\
    dream_resume N rg gs fn ninf fuel p rd rd_int (map Some files) g =
      do r <- generations N rg gs fn ninf fuel p (maxEvals p - length st) (length st) (start N p st lk q b [] g);
      let '(s, c) := r in Ok (exit_code c, s).
Proof.
  intros T G tok N rg gs fn ninf fuel p rd rd_int pr10 pr12 pr_int q10 q12 ok bs flags ox oy header out files g
    H10 H12 HI HB HFS HV HH HL HN HR HO HF.
  assert (EF : flags = flag_list bs) by (rewrite (defsets_ok HB) in HFS; apply Ok_inj in HFS; auto). subst flags.
  destruct (@resume_ok T N G rg gs fn ninf fuel p tok rd rd_int pr10 pr12 pr_int q10 q12 ok H10 H12 HI bs ox oy HB HV header out files g HH HL HN HR HO HF)
    as (st & lk & b & q & A1 & A2 & A3 & A4 & A5 & A6 & A7 & A8).
  exists st, lk, b, q. do 6 (split; [assumption|]). exact A8.
Qed.
Print Assumptions C50_files.

(** A run, its files, a resumed run (which may have any other settings, with the same chains,
    parameters and crossover values): the resumed history begins with the history of the first run,
    up to its last line (the generation at which convergence is found is not written). Partial: the
    image offset is 0, and the numbers survive printing (which the program's 10 digits do not
    guarantee). *)
Theorem C50_run_partial : forall (T G tok : Type) (N : Num T) (rg rg' : rng T G) (gs gs' : gsl T) fn fn' ninf fuel (p p' : pars T)
    (rd : tok -> option T) (rd_int : tok -> option Z) (pr10 pr12 : T -> tok) (pr_int : Z -> tok)
    (ok : T -> Prop) (bs : list (blk T)) flags header files g g' code code' s s',
  (forall x, nadd N x (nofZ N 0) = x) ->
  (forall v, ok v -> rd (pr10 v) = Some v) -> (forall v, ok v -> rd (pr12 v) = Some v) -> (forall z, rd_int (pr_int z) = Some z) ->
  neqb N ninf ninf = true -> (forall x, nltb N x x = false) -> sane_limits N p -> 0 < loopSteps p ->
  blocks_ok bs -> DefineFunctionSets (length (sizes bs)) (starts 0 bs) = Ok flags -> nvar p = length (flat bs) ->
  (report_interval p <= 1)%Z -> 0 < numChains p -> Forall (fun l => l = @Skip tok) header ->
  dream_new N rg gs fn ninf fuel p g = Ok (code, s) ->
  (forall lines o, In lines (d_out s) -> In o lines -> Forall ok (o_par o) /\ ok (o_lik o) /\ Forall ok (o_pcr o)) ->
  each 0 (numChains p) (chain_file N pr10 pr12 pr_int (mkMo (sizes bs) flags 0 0) header (d_out s)) = Ok files ->
  numChains p' = numChains p -> nvar p' = nvar p -> nCR p' = nCR p -> 1 <= length (d_out s) < maxEvals p' ->
  dream_resume N rg' gs' fn' ninf fuel p' rd rd_int (map Some files) g' = Ok (code', s') ->
  length (d_out s) = length (d_st s) - (if (code =? 0)%Z then 1 else 0) /\
  exists r, d_st s' = firstn (length (d_out s)) (d_st s) ++ r.
Proof.
  intros T G tok N rg rg' gs gs' fn fn' ninf fuel p p' rd rd_int pr10 pr12 pr_int ok bs flags header files g g' code code' s s'
    H0 H10 H12 HI NI IR (V1 & V2 & V3 & OR) LS HB HFS HV HR HN HH Hnew HO HF P1 P2 P3 HL Hres.
  destruct (new_inv NI V1 V2 V3 LS IR OR Hnew) as (t & c & Ht & I & Hcode & _).
  destruct (new_Any NI V1 V2 V3 LS IR OR Hnew) as (t2 & A & _).
  destruct (i_rep I HR) as (_ & Lo & Qo).
  assert (Lout : length (d_out s) = length (d_st s) - (if (code =? 0)%Z then 1 else 0)).
  { rewrite Lo, (i_st I), Hcode. destruct c; cbn; lia. }
  split; auto.
  assert (full_id : forall v, in_full_image_exactly N 0 0 bs v = v).
  { intros v. unfold in_full_image_exactly. apply on_centres_id; auto. }
  assert (Lrow : forall k row, nth_error (d_out s) k = Some row -> length row = numChains p).
  { intros k row E. apply (a_out A). eapply nth_error_In; eauto. }
  assert (Hok : forall k i o, at_ (d_out s) k i = Some o -> exists lines, nth_error (d_out s) k = Some lines /\ nth_error lines i = Some o).
  { intros k i o E. unfold at_ in E. destruct (nth_error (d_out s) k) as [lines|]; [|discriminate]. eauto. }
  destruct (@C50_files T G tok N rg' gs' fn' ninf fuel p' rd rd_int pr10 pr12 pr_int (fun v => v) (fun v => v) ok bs flags 0 0 header (d_out s) files g')
    as (st & lk & b & q & A1 & A2 & A3 & A4 & _ & _ & A5); auto; try congruence.
  { intros k row E. rewrite P1. eauto. }
  { intros k i o E. destruct (Hok k i o E) as (lines & E1 & E2). assert (I1 := nth_error_In _ _ E1). assert (I2 := nth_error_In _ _ E2).
    destruct (HO _ _ I1 I2) as (F1 & F2 & F3). destruct (a_out A I1) as [_ Q]. destruct (Q i o E2) as [[Lx _] Lq].
    rewrite full_id. split; [congruence|]. split; auto. split; auto. split; auto. congruence. }
  assert (Est : st = firstn (length (d_out s)) (d_st s)).
  { apply nth_error_eq. intros k. destruct (lt_dec k (length (d_out s))) as [Hk|Hk].
    - assert (Ef : nth_error (firstn (length (d_out s)) (d_st s)) k = nth_error (d_st s) k).
      { clear -Hk. revert k Hk. generalize (length (d_out s)) as m. generalize (d_st s) as l. induction l as [|x l IH]; intros m k Hk.
        - now rewrite firstn_nil.
        - destruct m; [lia|]. destruct k; cbn; auto. apply IH. lia. }
      rewrite Ef. destruct (@nth_error_ex _ st k) as (row & Er); [lia|]. rewrite Er.
      destruct (@nth_error_ex _ (d_out s) k) as (lines & El); [lia|].
      destruct (@nth_error_ex _ (d_st s) k) as (row' & Er'); [lia|]. rewrite Er'. f_equal.
      assert (L1 := A4 k row Er). assert (L2 := i_rows I Er'). assert (L3 := Lrow k lines El).
      apply nth_error_eq. intros i. destruct (lt_dec i (numChains p)) as [Hi|Hi].
      + destruct (@nth_error_ex _ lines i) as (o & Eo); [lia|]. destruct (Qo k lines El i o Eo) as [B1 _].
        replace (1 + k - 1) with k in B1 by lia. unfold at_ in B1. rewrite Er' in B1. rewrite B1.
        destruct (A3 k i o) as [B2 _]; [unfold at_; now rewrite El|]. unfold at_ in B2. rewrite Er in B2. rewrite B2.
        rewrite map_id, full_id. reflexivity.
      + assert (F1 : nth_error row i = None) by (apply nth_error_None; lia). assert (F2 : nth_error row' i = None) by (apply nth_error_None; lia).
        congruence.
    - assert (F1 : nth_error st k = None) by (apply nth_error_None; lia).
      assert (F2 : nth_error (firstn (length (d_out s)) (d_st s)) k = None) by (apply nth_error_None; rewrite firstn_length; lia). congruence. }
  rewrite A5 in Hres. destruct (@continues_prefix T N G rg' gs' fn' ninf fuel p' st lk q b g' code' s' Hres) as (r & Er).
  exists r. rewrite Er, Est. reflexivity.
Qed.
Print Assumptions C50_run_partial.

(** ---- C58: no undefined behaviour ---- *)

(** A new run ends with a result: no access outside an array or to an unwritten entry, no abort of the
    random-number library, and no endless loop once every allowed parameter vector has a likelihood. *)
Theorem C58_new : forall (T G : Type) (N : Num T) (rg : rng T G) (gs : gsl T) fn ninf fuel p g,
  rng_ok rg -> (forall l, l <> [] -> g_max_index gs l < length l) ->
  3 <= numChains p -> 2 <= fuel -> sane_limits N p -> 0 < loopSteps p -> 0 < nCR p -> (0 <= burnIn p)%Z ->
  (Z.of_nat (numChains p) * (Z.of_nat (maxEvals p) / 2) * (Z.of_nat (maxEvals p) / 2) <= 2147483647)%Z ->
  (forall x, nltb N x x = false) ->
  (forall x, respects N (varLock p) (varLo p) (varHi p) x -> neqb N (fn x) ninf = false /\ neqb N (fn x) (fn x) = true) ->
  exists r, dream_new N rg gs fn ninf fuel p g = Ok r.
Proof. intros T G N rg gs fn ninf fuel p g RG MX HN HF (V1 & V2 & V3 & OR) LS HC HB SZ irr PR. apply new_total_proper; auto. Qed.
Print Assumptions C58_new.

(** Without the last hypothesis the only other outcome is that the search for a start with a likelihood
    does not end within the fuel. *)
Theorem C58_new_start : forall (T G : Type) (N : Num T) (rg : rng T G) (gs : gsl T) fn ninf fuel p g,
  rng_ok rg -> (forall l, l <> [] -> g_max_index gs l < length l) ->
  3 <= numChains p -> 2 <= fuel -> length (varLock p) = nvar p -> length (varLo p) = nvar p -> length (varHi p) = nvar p ->
  0 < loopSteps p -> 0 < nCR p -> (0 <= burnIn p)%Z ->
  (Z.of_nat (numChains p) * (Z.of_nat (maxEvals p) / 2) * (Z.of_nat (maxEvals p) / 2) <= 2147483647)%Z ->
  dream_new N rg gs fn ninf fuel p g = Fuel \/ exists r, dream_new N rg gs fn ninf fuel p g = Ok r.
Proof.
  intros T G N rg gs fn ninf fuel p g RG MX HN HF V1 V2 V3 LS HC HB SZ.
  destruct (@new_total T N G rg gs fn ninf fuel p RG MX HN HF V1 V2 V3 LS HC HB SZ g) as [[E _]|E]; auto.
Qed.
Print Assumptions C58_new_start.

(** A resumed run, from any history of the right shape and length 1 <= L <= maxEvals; when the files
    say that burn-in is over, it must be over for the settings of this run as well. *)
Theorem C58_resumed : forall (T G : Type) (N : Num T) (rg : rng T G) (gs : gsl T) fn ninf fuel (p : pars T) st lk q b g,
  rng_ok rg -> (forall l, l <> [] -> g_max_index gs l < length l) ->
  3 <= numChains p -> 2 <= fuel -> length (varLock p) = nvar p -> length (varLo p) = nvar p -> length (varHi p) = nvar p ->
  0 < loopSteps p -> 0 < nCR p -> (0 <= burnIn p)%Z ->
  (Z.of_nat (numChains p) * (Z.of_nat (maxEvals p) / 2) * (Z.of_nat (maxEvals p) / 2) <= 2147483647)%Z ->
  1 <= length st <= maxEvals p -> length lk = length st -> length q = nCR p ->
  (forall k row, nth_error st k = Some row -> length row = numChains p /\ forall i x, nth_error row i = Some x -> length x = nvar p) ->
  (forall k row, nth_error lk k = Some row -> length row = numChains p) ->
  (b = 0 -> burnIn p < Z.of_nat (length st))%Z ->
  exists r, generations N rg gs fn ninf fuel p (maxEvals p - length st) (length st) (start N p st lk q b [] g) = Ok r.
Proof.
  intros T G N rg gs fn ninf fuel p st lk q b g RG MX HN HF V1 V2 V3 LS HC HB SZ HL Llk Lq HR HK Hb.
  destruct (@generations_total T N G rg gs fn ninf fuel p RG MX HN HF V1 V2 V3 LS HC HB SZ (maxEvals p - length st) (length st) (start N p st lk q b [] g))
    as (s & c & E); [|lia|eauto].
  eapply start_shape; eauto; lia.
Qed.
Print Assumptions C58_resumed.

(** The last hypothesis is needed: the burn-in flag is read from the file, so a run resumed with a
    burn-in longer than the files computes a negative count. *)
Theorem C58_burnin_refuted : forall (T : Type) (N : Num T) (gs : gsl T) (p : pars T) st sr first (t : nat) adj,
  0 < t -> (Z.of_nat t <= first)%Z -> gelman_rubin N gs p st sr first (Z.of_nat t) adj = Undef.
Proof.
  intros T N gs p st sr first t adj Ht Hf. unfold gelman_rubin.
  destruct (Z.of_nat t <=? 0)%Z eqn:Et; [apply Z.leb_le in Et; lia|]. rewrite Z.quot_div_nonneg by lia.
  assert (Z.of_nat t <= (Z.of_nat t + first) / 2)%Z by (apply Z.div_le_lower_bound; lia).
  destruct (Z.of_nat t - (Z.of_nat t + first) / 2 - 1 <? 0)%Z eqn:E; [reflexivity|apply Z.ltb_ge in E; lia].
Qed.
Print Assumptions C58_burnin_refuted.

(** ---- concrete runs, in binary64 ---- *)

Definition demo_libm : Libm :=
  let z := fun _ : F64 => f_ofZ 0 in
  {| m_exp := z; m_log := fun x => f_sub x (f_ofZ 1); m_pow := fun x _ => x; m_cos := z; m_sin := z; m_atan2 := fun x _ => x;
     m_cosh := z; m_tanh := z |}.
Definition D := NumF demo_libm.
Definition f_sum (l : list F64) : F64 := fold_right f_add (f_ofZ 0) l.
Definition f_mean (l : list F64) : F64 := f_div (f_sum l) (f_ofZ (Z.of_nat (length l))).
Definition f_var_m (l : list F64) (m : F64) : F64 :=
  f_div (f_sum (map (fun x => f_mul (f_sub x m) (f_sub x m)) l)) (f_ofZ (Z.of_nat (length l) - 1)).
Fixpoint f_insert (x : F64) (l : list F64) : list F64 :=
  match l with [] => [x] | y :: r => if f_ltb y x then y :: f_insert x r else x :: l end.
Definition f_sort (l : list F64) := fold_right f_insert [] l.
Fixpoint f_best (l : list F64) (k best : nat) (b : F64) : nat :=
  match l with [] => best | x :: r => if f_ltb b x then f_best r (S k) k x else f_best r (S k) best b end.
Definition demo_gsl : gsl F64 :=
  {| g_mean := f_mean; g_var_m := f_var_m; g_sd := fun l => f_sqrt (f_var_m l (f_mean l)); g_cov_m := fun _ _ _ _ => f_ofZ 0;
     g_quant := fun l q => nth (if f_ltb q (f_dec 5 1) then 1 else length l - 2) l (f_ofZ 0);
     g_max_index := fun l => f_best l 0 0 (nth 0 l (f_ofZ 0)); g_sort := f_sort |}.
(** numbers 0, 1/8, ..., 7/8 *)
Definition demo_u (k : nat) : F64 := f_div (f_ofZ (Z.of_nat (5 * k mod 8))) (f_ofZ 8).
Definition demo_rg := demo_rng demo_u (f_dec 1 2).
(** a Gaussian likelihood around 3 *)
Definition demo_fn (x : list F64) : F64 :=
  match x with a :: _ => f_neg (f_mul (f_sub a (f_ofZ 3)) (f_sub a (f_ofZ 3))) | [] => f_ofZ 0 end.
Definition demo_pars (maxE : nat) (burn gelman : Z) (crit lo hi : F64) : pars F64 :=
  {| maxEvals := maxE; numChains := 5; report_interval := 1; burnIn := burn; recalcLik := 0; collapseOutliers := true;
     gelmanEvals := gelman; loopSteps := 2; deltaMax := 1; pCR_update := true; nCR := 3; noise := f_dec 5 2; bstar_zero := f_dec 1 3;
     scaleReductionCrit := crit; reenterBurnin := f_dec 9 1; nfree := 1; nvar := 2; varLock := [false; true];
     varLo := [lo; f_ofZ 7]; varHi := [hi; f_ofZ 7] |}.
Lemma demo_sane m b ge crit lo hi : f_ltb hi lo = false -> sane_limits D (demo_pars m b ge crit lo hi).
Proof.
  intros H. do 3 (split; [reflexivity|]). intros [|[|j]] l h E1 E2.
  - change (Some lo = Some l) in E1. change (Some hi = Some h) in E2. injection E1 as <-. injection E2 as <-. exact H.
  - change (Some (f_ofZ 7) = Some l) in E1. change (Some (f_ofZ 7) = Some h) in E2. injection E1 as <-. injection E2 as <-. reflexivity.
  - destruct j; discriminate E1.
Qed.
Definition minf : F64 := B754_infinity true.
Definition demo_p := demo_pars 9 2 100 (f_dec 101 2) (f_ofZ 0) (f_ofZ 10).
Definition demo_run := dream_new D demo_rg demo_gsl demo_fn minf 10 demo_p 0.

(** The hypotheses of C46-C48, C51 and C58 hold of this run, and in it proposals are accepted, rejected
    and out of the limits. *)
Example demo_limits : sane_limits D demo_p /\ free_counted demo_p /\ 3 <= numChains demo_p /\
  neqb D minf minf = true /\ (forall x, nltb D x x = false) /\
  (Z.of_nat (numChains demo_p) * (Z.of_nat (maxEvals demo_p) / 2) * (Z.of_nat (maxEvals demo_p) / 2) <= 2147483647)%Z.
Proof.
  split.
  { apply demo_sane. vm_compute. reflexivity. }
  split; [reflexivity|]. split; [cbn; lia|]. split; [reflexivity|]. split; [|cbn; lia].
  intros x. destruct (nltb D x x) eqn:E; auto. cbn in E. apply ltb_key_true in E as (_ & _ & E). lra.
Qed.
Lemma f_best_lt l : forall k best x, best < k + length l -> f_best l k best x < k + length l.
Proof.
  induction l as [|y l IH]; intros k best x H; cbn in *; [lia|]. destruct (f_ltb x y).
  - assert (A := IH (S k) k y ltac:(lia)). lia.
  - specialize (IH (S k) best x ltac:(lia)). lia.
Qed.
Example demo_gsl_index : forall l, l <> [] -> g_max_index demo_gsl l < length l.
Proof. intros [|x l] H; [congruence|]. cbn -[f_best]. apply (@f_best_lt (x :: l) 0 0 x). cbn. lia. Qed.
Example demo_run_works : match demo_run with
  | Ok (code, s) => (code =? 1)%Z && (length (d_st s) =? 9) &&
      existsb (fun q => tr_acc q) (concat (d_tr s)) && existsb (fun q => negb (tr_acc q)) (concat (d_tr s)) &&
      existsb (fun q => f_eqb (tr_new q) minf) (concat (d_tr s))
  | _ => false
  end = true.
Proof. vm_compute. reflexivity. Qed.

(** A run that converges (C49; the threshold is wide because the run is short): the within-chain variance
    is positive. *)
Definition demo_conv := demo_pars 20 2 4 (f_ofZ 2) (f_ofZ 0) (f_ofZ 10).
Example demo_converges : match dream_new D demo_rg demo_gsl (fun x => f_div (demo_fn x) (f_ofZ 100)) minf 10 demo_conv 0 with
  | Ok (code, s) => (code =? 0)%Z && (5 <? length (d_st s)) && f_ltb (f_ofZ 1) (nth 0 (d_sr s) (f_ofZ 0))
  | _ => false end = true.
Proof. vm_compute. reflexivity. Qed.

(** Limits so wide that their difference overflows: the initial states are NaN, and the test for the
    limits lets them pass. *)
Definition wide := demo_pars 12 0 4 (f_dec 101 2) (f_mul (f_ofZ (-15)) (f_ofZ (10 ^ 307))) (f_mul (f_ofZ 15) (f_ofZ (10 ^ 307))).
Definition zero_rg : rng F64 nat := demo_rng (fun _ => f_ofZ 0) (f_dec 1 2).
Theorem C46_nan_refuted : exists code s x v,
  dream_new D zero_rg demo_gsl (fun _ => f_ofZ 0) minf 10 wide 0 = Ok (code, s) /\
  sane_limits D wide /\ at_ (d_st s) 0 0 = Some x /\ nth_error x 0 = Some v /\ is_nan v = true.
Proof.
  remember (dream_new D zero_rg demo_gsl (fun _ => f_ofZ 0) minf 10 wide 0) as r eqn:E.
  assert (B : match r with Ok (_, s) => match at_ (d_st s) 0 0 with Some (v :: _) => is_nan (v : F64) | _ => false end | _ => false end = true)
    by (subst r; vm_compute; reflexivity).
  destruct r as [[code s]| | |]; try discriminate B. exists code, s.
  destruct (at_ (d_st s) 0 0) as [[|v x]|]; try discriminate B. exists (v :: x), v. split; [reflexivity|].
  split; [|split; [reflexivity|split; [reflexivity|exact B]]].
  apply demo_sane. vm_compute. reflexivity.
Qed.
Print Assumptions C46_nan_refuted.

(** NaN values count as converged: such a run ends with the code for convergence although no
    within-chain variance is a number. (So does any run in which the window has one generation.) *)
Theorem C49_nan_refuted : exists s,
  dream_new D zero_rg demo_gsl (fun _ => f_ofZ 0) minf 10 wide 0 = Ok (0%Z, s) /\
  forall k i x v, at_ (d_st s) k i = Some x -> nth_error x 0 = Some v -> is_nan v = true.
Proof.
  remember (dream_new D zero_rg demo_gsl (fun _ => f_ofZ 0) minf 10 wide 0) as r eqn:E.
  assert (B : match r with Ok (0%Z, s) => forallb (forallb (fun x => match x with v :: _ => is_nan (v : F64) | [] => true end)) (d_st s) | _ => false end = true)
    by (subst r; vm_compute; reflexivity).
  destruct r as [[[| |] s]| | |]; try discriminate B. exists s. split; [reflexivity|]. intros k i x v Ea Ev.
  unfold at_ in Ea. destruct (nth_error (d_st s) k) as [row|] eqn:Er; [|discriminate Ea].
  rewrite forallb_forall in B. specialize (B row (nth_error_In _ _ Er)). rewrite forallb_forall in B.
  specialize (B x (nth_error_In _ _ Ea)). destruct x; [discriminate Ev|]. cbn in Ev. injection Ev as <-. exact B.
Qed.
Print Assumptions C49_nan_refuted.

(** Words that are numbers or integers, printed and read exactly. *)
Definition word := (F64 + Z)%type.
Definition w_rd (w : word) : option F64 := match w with inl x => Some x | inr z => Some (f_ofZ z) end.
Definition w_int (w : word) : option Z := match w with inr z => Some z | inl _ => None end.
(** one function with no parameters besides its centre *)
Definition demo_bs : list (blk F64) := [mkBlk (f_ofZ 4) (f_ofZ 7) [[]]].
Definition demo_files (ox : Z) (out : list (list (oline F64))) :=
  each 0 5 (chain_file D (fun v : F64 => inl v : word) (fun v => inl v) (fun z => inr z) (mkMo (sizes demo_bs) (flag_list demo_bs) ox 0) [Skip word] out).
Definition demo_again (files : list (list (fline word))) :=
  dream_resume D demo_rg demo_gsl demo_fn minf 10 (demo_pars 12 2 100 (f_dec 101 2) (f_ofZ 0) (f_ofZ 10)) w_rd w_int (map Some files) 3.
Definition same_states (a b : list (list (list F64))) : bool :=
  forallb (fun q => forallb (fun r => forallb (fun v => f_eqb (fst v) (snd v)) (combine (fst r) (snd r))) (combine (fst q) (snd q))) (combine a b).

(** A run, its files, the resumed run; offset 0: the histories agree. *)
Example demo_resumes : match demo_run with
  | Ok (_, s) => match demo_files 0 (d_out s) with
    | Ok files => match demo_again files with
      | Ok (code, s') => (code =? 1)%Z && (length (d_st s') =? 12) && (length (d_st s) =? 9) && same_states (d_st s) (d_st s')
      | _ => false end
    | _ => false end
  | _ => false end = true.
Proof. vm_compute. reflexivity. Qed.

(** With an image offset the resumed run starts elsewhere: the first chain's X0 is 5 larger. *)
Theorem C50_offset_refuted : exists s files s' x x' a a',
  demo_run = Ok (1%Z, s) /\ demo_files 5 (d_out s) = Ok files /\ demo_again files = Ok (1%Z, s') /\
  at_ (d_st s) 8 0 = Some x /\ at_ (d_st s') 8 0 = Some x' /\ nth_error x 0 = Some a /\ nth_error x' 0 = Some a' /\
  f_eqb a' (f_add a (f_ofZ 5)) = true /\ f_eqb a a' = false.
Proof.
  remember demo_run as r eqn:Er.
  remember (match r with Ok (_, s) => demo_files 5 (d_out s) | _ => Undef end) as f eqn:Ef.
  remember (match f with Ok files => demo_again files | _ => Undef end) as r' eqn:Er'.
  assert (B : match r, f, r' with
              | Ok (1%Z, s), Ok files, Ok (1%Z, s') =>
                match at_ (d_st s) 8 0, at_ (d_st s') 8 0 with
                | Some (a :: _), Some (a' :: _) => f_eqb a' (f_add a (f_ofZ 5)) && negb (f_eqb a a')
                | _, _ => false
                end
              | _, _, _ => false
              end = true) by (subst r' f r; vm_compute; reflexivity).
  destruct r as [[[|[| |]|] s]| | |]; try discriminate B. destruct f as [files| | |]; try discriminate B.
  destruct r' as [[[|[| |]|] s']| | |]; try discriminate B.
  exists s, files, s'. destruct (at_ (d_st s) 8 0) as [[|a x]|]; try discriminate B. destruct (at_ (d_st s') 8 0) as [[|a' x']|]; try discriminate B.
  apply andb_true_iff in B as [B1 B2]. apply negb_true_iff in B2.
  exists (a :: x), (a' :: x'), a, a'. cbn [nth_error].
  split; [reflexivity|]. split; [symmetry; exact Ef|]. split; [symmetry; exact Er'|]. do 4 (split; [reflexivity|]). split; assumption.
Qed.
Print Assumptions C50_offset_refuted.

(** The chain files are written one after the other. If the program is stopped in between, so that the
    first file has one line more than the others, the resumed run reads unwritten memory. *)
Theorem C50_crash_refuted : exists s files,
  demo_run = Ok (1%Z, s) /\ demo_files 0 (d_out s) = Ok files /\
  demo_again (match files with f :: fs => f :: map (@removelast _) fs | [] => [] end) = Undef.
Proof.
  remember demo_run as r eqn:Er.
  remember (match r with Ok (_, s) => demo_files 0 (d_out s) | _ => Undef end) as f eqn:Ef.
  assert (B : match r, f with
              | Ok (1%Z, s), Ok files =>
                match demo_again (match files with f :: fs => f :: map (@removelast _) fs | [] => [] end) with Undef => true | _ => false end
              | _, _ => false
              end = true) by (subst f r; vm_compute; reflexivity).
  destruct r as [[[|[| |]|] s]| | |]; try discriminate B. destruct f as [files| | |]; try discriminate B.
  exists s, files. split; [reflexivity|]. split; [symmetry; exact Ef|]. clear Ef Er. destruct (demo_again _); try discriminate B; reflexivity.
Qed.
Print Assumptions C50_crash_refuted.

(** C51: in this run a chain was an outlier at generation 4, and moving it restarted the burn-in. *)
Example demo_outlier : match dream_new D demo_rg demo_gsl demo_fn minf 10 (demo_pars 9 2 100 (f_dec 101 2) (f_ofZ 2) (f_ofZ 4)) 0 with
  | Ok (_, s) => (burnInStart (d_burn s) =? 4)%Z
  | _ => false end = true.
Proof. vm_compute. reflexivity. Qed.

(** The exact statistics assumed by C49 exist. *)
Example demo_gsl_exact : exists gs : gsl R, gsl_exact gs.
Proof.
  exists {| g_mean := Rmean; g_var_m := fun l m => Rvar_about m l; g_sd := fun l => sqrt (Rvar l); g_cov_m := fun _ _ _ _ => 0%R;
            g_quant := fun _ _ => 0%R; g_max_index := fun _ => 0; g_sort := fun l => l |}.
  split; reflexivity.
Qed.

(** C58: the hypotheses hold for a constant likelihood. *)
Example demo_total : exists r, dream_new D demo_rg demo_gsl (fun _ => f_ofZ 0) minf 2 demo_p 0 = Ok r.
Proof.
  destruct demo_limits as (A1 & A2 & A3 & A4 & A5 & A6).
  apply C58_new; auto; try (cbn; lia).
  - apply demo_rng_ok.
  - apply demo_gsl_index.
Qed.
