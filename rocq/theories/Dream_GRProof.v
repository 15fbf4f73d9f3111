(** The convergence test. *)
From Coq Require Import List Arith ZArith Bool Lia Reals Lra.
From Verif Require Import Base Num Dream_Model Dream_Spec Dream_Proof Dream_RunProof.
Import ListNotations.
Set Implicit Arguments.
Unset Strict Implicit.

Section GR.
Variables (T : Type) (N : Num T).

Lemma window_ok (st : list (list (list T))) a len i j vals :
  window st a len i j = Ok vals -> param_values st a len i j vals.
Proof.
  intros H. destruct (each_Ok H) as [L1 L2]. split; auto. intros k Hk.
  destruct (L2 k Hk) as (v & E1 & E2). cbn in E2. apply bind_Ok in E2 as (row & Er & E2).
  unfold cell, getZ in E2. destruct (Z.of_nat i <? 0)%Z; [discriminate|].
  apply bind_Ok in E2 as (x & Ex & E2). apply get_Ok_iff in Er, Ex, E2. rewrite Nat2Z.id in Ex.
  exists x. unfold at_. rewrite Er, Ex, E1. auto.
Qed.

Variable gs : gsl T.
Variable p : pars T.

(** every free parameter below the threshold *)
Definition all_below (sr : list T) : Prop :=
  forall j r, nth_error (varLock p) j = Some false -> nth_error sr j = Some r -> nltb N r (scaleReductionCrit p) = true.

Lemma all_converged_ok sr c : all_converged N p sr = Ok c -> length (varLock p) = nvar p -> length sr = nvar p ->
  (c = true <-> all_below sr).
Proof.
  unfold all_converged. intros H L1 L2. apply bind_Ok in H as (e & He & H). apply Ok_inj in H. subst c.
  assert (HI := fun A B => @for_ok Z (fun j e =>
     (e >= Z.of_nat (nvar p) - Z.of_nat j)%Z /\
     ((e = Z.of_nat (nvar p) - Z.of_nat j)%Z <->
      forall k r, k < j -> nth_error (varLock p) k = Some false -> nth_error sr k = Some r -> nltb N r (scaleReductionCrit p) = true)) _ _ _ _ A B He).
  cbv beta in HI. destruct HI as [H1 H2].
  - split; [lia|]. split; [intros; lia|lia].
  - intros j a b Hj [A1 A2] E. apply bind_Ok in E as (lk & El & E). apply get_Ok_iff in El.
    destruct lk.
    + apply Ok_inj in E. subst b. split; [lia|]. split.
      * intros Ea k r Hk F1 F2. destruct (Nat.eq_dec k j) as [->|]; [congruence|]. apply A2 with (k := k); auto; lia.
      * intros F. assert (a = Z.of_nat (nvar p) - Z.of_nat j)%Z; [|lia]. apply A2. intros k r Hk. apply F. lia.
    + apply bind_Ok in E as (r & Er & E). apply get_Ok_iff in Er. apply Ok_inj in E. subst b.
      destruct (nltb N r (scaleReductionCrit p)) eqn:Ec.
      * split; [lia|]. split.
        -- intros Ea k r' Hk F1 F2. destruct (Nat.eq_dec k j) as [->|]; [congruence|]. apply A2 with (k := k); auto; lia.
        -- intros F. assert (a = Z.of_nat (nvar p) - Z.of_nat j)%Z; [|lia]. apply A2. intros k r' Hk. apply F. lia.
      * split; [lia|]. split; [intros; lia|]. intros F. specialize (F j r ltac:(lia) El Er). congruence.
  - rewrite Z.leb_le. split.
    + intros Hle j r E1 E2. assert (Hj : j < nvar p) by (apply nth_error_lt in E2; lia).
      apply (proj1 H2 ltac:(lia) j r Hj E1 E2).
    + intros F. assert (e = Z.of_nat (nvar p) - Z.of_nat (nvar p))%Z; [|lia]. apply H2. intros k r _. apply F.
Qed.

(** the whole run ends as converged only at a generation where the test was made and passed *)
Variables (G : Type) (rg : rng T G) (fn : list T -> T) (ninf : T) (fuel : nat).
Hypothesis V1 : length (varLock p) = nvar p.

Definition passed (t : nat) (s : ds T G) : Prop :=
  exists sr0, gelman_rubin N gs p (d_st s) sr0 (burnInStart (d_burn s) + burnIn p)%Z (Z.of_nat t) false = Ok (d_sr s) /\
    all_below (d_sr s) /\ length (d_sr s) = nvar p.

Lemma gelman_length st sr0 first t adj sr : gelman_rubin N gs p st sr0 first t adj = Ok sr -> length sr = nvar p.
Proof.
  unfold gelman_rubin. destruct (_ || _)%bool; [discriminate|]. intros H. destruct (each_Ok H) as [L _]. exact L.
Qed.

Lemma step_stop t s s' : step N rg gs fn ninf fuel p t s = Ok (s', true) -> passed t s'.
Proof.
  unfold step. intros H.
  apply bind_Ok in H as (((crm & L) & g1) & _ & H).
  apply bind_Ok in H as (prev & Hp & H). apply bind_Ok in H as (lprev & Hlp & H).
  apply bind_Ok in H as (((((lprev' & row) & lrow) & trs) & g2) & Hg & H).
  apply bind_Ok in H as (dtot & _ & H).
  apply bind_Ok in H as ((((((((gen' & steps) & pcr) & row') & lrow') & b') & sr) & stop') & Hz & H).
  apply bind_Ok in H as (lines & Hlines & H). apply Ok_inj in H. injection H as <- ->.
  unfold passed; cbn [d_st d_burn d_sr].
  destruct (loopSteps p <=? d_gen s + 1); [|discriminate].
  apply bind_Ok in Hz as ((st0 & pc0) & _ & Hz).
  apply bind_Ok in Hz as (((rw & lw) & b1) & Hc & Hz).
  apply bind_Ok in Hz as (((b2 & sr2) & stop2) & He & Hz). apply Ok_inj in Hz. injection Hz as <- <- <- <- <- <- <- ->.
  unfold end_of_loop in He. destruct (inBurnIn b1 =? 0)%Z; [|destruct (_ <=? _)%Z; discriminate].
  destruct (gelmanEvals p <=? curRun b1 + 1)%Z; [|discriminate].
  apply bind_Ok in He as (sr' & Hsr & He). apply bind_Ok in He as (c & Hc' & He).
  destruct c; [|discriminate]. apply Ok_inj in He. injection He as <- <-. cbn [burnInStart].
  exists (d_sr s). split; [exact Hsr|]. assert (Ls := gelman_length Hsr). split; auto.
  apply (all_converged_ok Hc' V1 Ls). reflexivity.
Qed.

Lemma generations_stop m : forall t s s', generations N rg gs fn ninf fuel p m t s = Ok (s', true) ->
  length (d_st s) = t -> exists t', length (d_st s') = S t' /\ passed t' s'.
Proof.
  assert (HL : forall t s s' c, step N rg gs fn ninf fuel p t s = Ok (s', c) -> length (d_st s') = S (length (d_st s))).
  { intros t s s' c H. unfold step in H.
    apply bind_Ok in H as (((crm & L) & g1) & _ & H).
    apply bind_Ok in H as (prev & Hp & H). apply bind_Ok in H as (lprev & Hlp & H).
    apply bind_Ok in H as (((((lprev' & row) & lrow) & trs) & g2) & Hg & H).
    apply bind_Ok in H as (dtot & _ & H).
    apply bind_Ok in H as ((((((((gen' & steps) & pcr) & row') & lrow') & b') & sr) & stop') & Hz & H).
    apply bind_Ok in H as (lines & Hlines & H). apply Ok_inj in H. injection H as <- <-.
    cbn [d_st]. rewrite app_length. cbn. lia. }
  induction m as [|m IH]; intros t s s' H Lt; simpl in H; [discriminate|].
  apply bind_Ok in H as ((s1 & stop) & Hs & H). assert (L1 := HL _ _ _ _ Hs).
  destruct stop.
  - apply Ok_inj in H. injection H as <-. exists t. split; [lia|]. exact (step_stop Hs).
  - apply (IH (S t) s1 s' H). lia.
Qed.
End GR.

(** ---- in exact arithmetic ---- *)
Local Open Scope R_scope.
Lemma Rltb_true x y : Rltb x y = true <-> x < y.
Proof. unfold Rltb. destruct (Rlt_dec x y); split; congruence || auto. Qed.

Lemma gelman_real (gs : gsl R) (p : pars R) st sr0 (first t : nat) sr :
  gsl_exact gs -> gelman_rubin NumR gs p st sr0 (Z.of_nat first) (Z.of_nat t) false = Ok sr -> (0 < t)%nat ->
  let t0 := ((t + first) / 2)%nat in let n := (t - t0 - 1)%nat in
  forall j, nth_error (varLock p) j = Some false -> (j < nvar p)%nat ->
  exists chains, length chains = numChains p /\
    (forall i c, nth_error chains i = Some c -> param_values st t0 n i j c) /\
    nth_error sr j = Some (if Rlt_dec 0 (within chains) then scale_reduction n chains else 1).
Proof.
  intros GE H Ht t0 n j Hj Hjn. unfold gelman_rubin in H.
  destruct (Z.of_nat t <=? 0)%Z eqn:Et; [apply Z.leb_le in Et; lia|].
  replace (Z.quot (Z.of_nat t + Z.of_nat first) 2) with (Z.of_nat t0) in H.
  2:{ unfold t0. rewrite Nat2Z.inj_div, Nat2Z.inj_add. symmetry. apply Z.quot_div_nonneg; lia. }
  destruct ((Z.of_nat t - Z.of_nat t0 - 1 <? 0) || (Z.of_nat t0 <? 0))%Z eqn:En; [discriminate|].
  apply orb_false_iff in En as [En _]. apply Z.ltb_ge in En.
  replace (Z.of_nat t - Z.of_nat t0 - 1)%Z with (Z.of_nat n) in H by (unfold n; lia).
  destruct (each_Ok H) as [L1 L2]. destruct (L2 j Hjn) as (v & E1 & E2). rewrite E1. clear H L1 L2.
  cbn [Nat.add] in E2.
  apply bind_Ok in E2 as (lk & El & E2). apply get_Ok_iff in El. rewrite Hj in El. injection El as <-.
  apply bind_Ok in E2 as (old & _ & E2). apply bind_Ok in E2 as (cols & Hc & E2).
  destruct (each_Ok Hc) as [Lc Qc].
  exists cols. split; [auto|]. split.
  { intros i c Ec. assert (F := each_nth Hc Ec). cbn [Nat.add] in F. rewrite !Nat2Z.id in F. apply window_ok; auto. }
  f_equal. cbv zeta in E2. destruct (2147483647 <? _)%Z; [discriminate|]. apply Ok_inj in E2. rewrite <- E2. clear E2 E1.
  cbn [nltb NumR nofZ nsqrt nadd nmul nsub ndiv].
  assert (EM : map (g_mean gs) cols = map Rmean cols) by (apply map_ext; intros; apply (ex_mean GE)).
  assert (EV : map (fun c => g_var_m gs c (g_mean gs c)) cols = map Rvar cols).
  { apply map_ext. intros c. rewrite (ex_var_m GE), (ex_mean GE). reflexivity. }
  rewrite EM, EV, !(ex_mean GE), !(ex_var_m GE).
  fold (Rvar (map Rmean cols)). fold (between cols). fold (within cols).
  change (IZR 0) with 0. unfold Rltb. destruct (Rlt_dec 0 (within cols)) as [HW|HW]; [|reflexivity].
  unfold scale_reduction. rewrite Lc, !INR_IZR_INZ. reflexivity.
Qed.

Lemma Rsum_nonneg l : (forall x, In x l -> 0 <= x) -> 0 <= Rsum l.
Proof.
  induction l as [|a l IH]; intros H; [cbn; lra|]. change (0 <= a + Rsum l).
  assert (0 <= a) by (apply H; left; auto). assert (0 <= Rsum l) by (apply IH; intros; apply H; right; auto). lra.
Qed.
Lemma Rvar_nonneg l : (2 <= length l)%nat -> 0 <= Rvar l.
Proof.
  intros H. unfold Rvar, Rvar_about. apply Rmult_le_pos.
  - apply Rsum_nonneg. intros x Hx. apply in_map_iff in Hx as (y & <- & _). apply Rle_0_sqr.
  - left. apply Rinv_0_lt_compat. apply le_INR in H. change (INR 2) with (1 + 1) in H. lra.
Qed.
Lemma within_nonneg chains : (forall c, In c chains -> (2 <= length c)%nat) -> 0 <= within chains.
Proof.
  intros H. unfold within, Rmean. destruct chains as [|c cs] eqn:E.
  - cbn. unfold Rdiv. rewrite Rmult_0_l. lra.
  - rewrite <- E in *. apply Rmult_le_pos.
    + apply Rsum_nonneg. intros x Hx. apply in_map_iff in Hx as (y & <- & Hy). apply Rvar_nonneg. auto.
    + left. apply Rinv_0_lt_compat. apply lt_0_INR. rewrite map_length, E. cbn. lia.
Qed.
