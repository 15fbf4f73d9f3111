(** Invariants of the differential-evolution solver, in any arithmetic. *)
From Coq Require Import ZArith List Bool Lia.
From Verif Require Import Base Num DE_Model.
Import ListNotations.
Set Implicit Arguments. Unset Strict Implicit.

Lemma get_some {A} (l : list A) i x : get l i = Ok x -> nth_error l i = Some x.
Proof. apply get_Ok_iff. Qed.
Lemma getZ_some {A} (l : list A) i x : getZ l i = Ok x -> (0 <= i)%Z /\ nth_error l (Z.to_nat i) = Some x.
Proof. unfold getZ. destruct (Z.ltb_spec i 0); intros E; [discriminate|]. split; [auto|]. now apply get_some. Qed.
Lemma set_some {A} (l l' : list A) i x : set l i x = Ok l' -> i < length l /\ l' = upd l i x.
Proof. unfold set. destruct (Nat.ltb_spec i (length l)); intros E; [|discriminate]. injection E as <-. auto. Qed.
Lemma setZ_some {A} (l l' : list A) i x : setZ l i x = Ok l' -> (0 <= i < Z.of_nat (length l))%Z /\ l' = upd l (Z.to_nat i) x.
Proof. unfold setZ. destruct (Z.ltb_spec i 0); intros E; [discriminate|]. apply set_some in E. destruct E. split; [lia|auto]. Qed.
Lemma nth_error_firstn {A} (l : list A) n i : i < n -> nth_error (firstn n l) i = nth_error l i.
Proof. revert n i. induction l as [|a l IH]; intros [|n] [|i] H; try lia; try reflexivity. cbn. apply IH. lia. Qed.
Lemma nth_error_skipn {A} (l : list A) n i : nth_error (skipn n l) i = nth_error l (n + i).
Proof. revert n. induction l as [|a l IH]; intros [|n]; cbn [skipn Nat.add]; try reflexivity; [now destruct i|apply IH]. Qed.

Ltac inv H := apply bind_Ok in H; destruct H as (? & ? & H).
Ltac inv2 H a b := apply bind_Ok in H; destruct H as ([a b] & ? & H).

Section Inv.
Variable T : Type.
Variable N : Num T.
Variables (draw : nat -> T) (energy : nat -> list T -> T) (interrupted : nat -> bool) (shuffled : nat -> nat -> Z) (fuel : nat).
Variable c : config T.
Notation D := (nDim c).
Notation P := (nPop c).

(** [Good j x]: x is admissible for parameter j; [Trial j x]: before the limits
    are enforced; [Best j x]: in the best-solution vector *)
Variables (Good Trial Best : nat -> T -> Prop).
Hypothesis good_trial : forall j x, j < D -> Good j x -> Trial j x.
Hypothesis best_zero : forall j, j < D -> Best j (nofZ N 0).
Hypothesis good_best : forall j x, j < D -> Good j x -> Best j x.

Definition cols (Q : nat -> T -> Prop) (v : list T) : Prop := length v = D /\ forall j x, nth_error v j = Some x -> Q j x.
Definition pop_ok (p : list T) : Prop := length p = P * D /\ forall i j x, i < P -> j < D -> nth_error p (i * D + j) = Some x -> Good j x.

Hypothesis mutant_trial : forall pop best trial rs n v, pop_ok pop -> cols Best best -> length trial = D ->
  (0 <= n < Z.of_nat D)%Z -> (forall x, nth_error trial (Z.to_nat n) = Some x -> Good (Z.to_nat n) x) ->
  Forall (fun r => 0 <= r)%Z rs ->
  mutant N c pop best trial rs n = Ok v -> Trial (Z.to_nat n) v.
Hypothesis back_good : forall j lo hi old t k, j < D -> nth_error (minBounds c) j = Some lo -> nth_error (maxBounds c) j = Some hi ->
  Good j old -> Trial j t -> Good j (fst (bring_back N draw lo hi old t k)).
Hypothesis uniform_good : forall j lo hi k, j < D -> nth_error (minBounds c) j = Some lo -> nth_error (maxBounds c) j = Some hi ->
  Good j (fst (RandomUniform N draw lo hi k)).
Hypothesis lhs_good : forall i j lo hi k, i < P -> j < D -> nth_error (minBounds c) j = Some lo -> nth_error (maxBounds c) j = Some hi ->
  Good j (nadd N lo (nmul N (nadd N (nofZ N (shuffled j i)) (draw k)) (ndiv N (nsub N hi lo) (nofZ N (Z.of_nat P))))).
(** the draws used as indices are in range, or the run has no [Ok] result *)
Hypothesis draw_index : forall n k z k', n = D \/ n = P -> rand_int N draw n k = Ok (z, k') -> (0 <= z)%Z.

Lemma pop_row p i j x : i < P -> pop_ok p -> nth_error (row c p i) j = Some x -> j < D /\ Good j x.
Proof.
  intros Hi (L & H) E. unfold row in E.
  assert (Hj : j < D).
  { assert (nth_error (firstn D (skipn (i * D) p)) j <> None) by congruence. apply nth_error_Some in H0. rewrite firstn_length in H0. lia. }
  split; [exact Hj|]. rewrite nth_error_firstn, nth_error_skipn in E by auto. eapply H; eauto.
Qed.
Lemma row_len p i : i < P -> pop_ok p -> length (row c p i) = D.
Proof. intros Hi (L & _). unfold row. rewrite firstn_length, skipn_length, L. assert (i * D + D <= P * D) by nia. lia. Qed.
Lemma write_ok p v i : i < P -> pop_ok p -> cols Good v -> pop_ok (write_row c p v i).
Proof.
  intros Hi (L & H) (Lv & Hv). unfold write_row. assert (i * D + D <= P * D) by nia.
  split.
  - rewrite !app_length, firstn_length, skipn_length, L, Lv. lia.
  - intros i' j x Hi' Hj E.
    assert (L1 : length (firstn (i * D) p) = i * D) by (rewrite firstn_length, L; lia).
    destruct (Nat.lt_trichotomy i' i) as [C|[C|C]].
    + assert (i' * D + j < i * D) by nia. rewrite nth_error_app1 in E by lia. rewrite nth_error_firstn in E by lia. eauto.
    + subst. rewrite nth_error_app2 in E by lia. rewrite L1 in E. replace (i * D + j - i * D) with j in E by lia.
      rewrite nth_error_app1 in E by lia. eauto.
    + assert (i * D + D <= i' * D) by nia. rewrite nth_error_app2 in E by lia. rewrite L1 in E. rewrite nth_error_app2 in E by lia.
      rewrite nth_error_skipn, Lv in E. replace (i * D + D + (i' * D + j - i * D - D)) with (i' * D + j) in E by lia. eauto.
Qed.

Definition pending (left : nat) (n : Z) (j : nat) : Prop := exists i, (0 <= i < Z.of_nat left)%Z /\ Z.of_nat j = ((n + i) mod Z.of_nat D)%Z.
Lemma pending_step left n j : (0 <= n < Z.of_nat D)%Z -> S left <= D -> pending left (next_dim c n) j -> pending (S left) n j /\ j <> Z.to_nat n.
Proof.
  intros Hn HL (i & Hi & E). unfold next_dim in E. rewrite Z.add_mod_idemp_l in E by lia. replace (n + 1 + i)%Z with (n + (i + 1))%Z in E by lia. split.
  - exists (i + 1)%Z. split; [lia|exact E].
  - intros ->. rewrite Z2Nat.id in E by lia.
    assert (X : exists q, (n + (i + 1) = Z.of_nat D * q + n)%Z).
    { exists ((n + (i + 1)) / Z.of_nat D)%Z. pose proof (Z.div_mod (n + (i + 1)) (Z.of_nat D) ltac:(lia)). lia. }
    destruct X as (q & X). assert (i + 1 = Z.of_nat D * q)%Z by lia. assert (q = 0 \/ q >= 1 \/ q < 0)%Z by lia. nia.
Qed.

Lemma next_in n : (0 < Z.of_nat D)%Z -> (0 <= next_dim c n < Z.of_nat D)%Z.
Proof. intros. unfold next_dim. apply Z.mod_pos_bound. lia. Qed.

(** one assignment of the crossover loops *)
Lemma cross_step left pop best rs n trial v trial' : pop_ok pop -> cols Best best -> Forall (fun r => 0 <= r)%Z rs ->
  S left <= D -> cols Trial trial -> (forall j x, pending (S left) n j -> nth_error trial j = Some x -> Good j x) ->
  mutant N c pop best trial rs n = Ok v -> setZ trial n v = Ok trial' ->
  cols Trial trial' /\ (forall j x, pending left (next_dim c n) j -> nth_error trial' j = Some x -> Good j x).
Proof.
  intros PO BO RO HL (Lt & Ht) HG E1 E2. apply setZ_some in E2. destruct E2 as (Hn & ->). rewrite Lt in Hn.
  assert (TV : Trial (Z.to_nat n) v).
  { eapply mutant_trial; eauto. intros x Ex. apply HG; auto. exists 0%Z. split; [lia|]. rewrite Z.add_0_r, Z.mod_small, Z2Nat.id by lia. lia. }
  split.
  - split; [now rewrite upd_length|]. intros j x Ex. rewrite nth_error_upd in Ex.
    destruct (Z.to_nat n =? j) eqn:Ej; cbn [andb] in Ex.
    + apply Nat.eqb_eq in Ej. subst j. destruct (Z.to_nat n <? length trial) eqn:El; [injection Ex as <-; exact TV|eauto].
    + eauto.
  - intros j x Pj Ex. destruct (pending_step Hn HL Pj) as (Pj' & Nj). rewrite nth_error_upd in Ex.
    destruct (Z.to_nat n =? j) eqn:Ej; [apply Nat.eqb_eq in Ej; congruence|]. cbn [andb] in Ex. eauto.
Qed.

Lemma exp_ok left pop best rs : pop_ok pop -> cols Best best -> Forall (fun r => 0 <= r)%Z rs -> forall n trial k trial' k',
  left <= D -> cols Trial trial -> (forall j x, pending left n j -> nth_error trial j = Some x -> Good j x) ->
  exp_loop N draw c left pop best rs n trial k = Ok (trial', k') -> cols Trial trial'.
Proof.
  intros PO BO RO. induction left as [|left IH]; intros n trial k trial' k' HL CT HG E; cbn [exp_loop] in E;
    destruct (RandomUniform N draw (nofZ N 0) (nofZ N 1) k) as (u, k1); destruct (nltb N u (probability c)).
  - injection E as <- <-. exact CT.
  - injection E as <- <-. exact CT.
  - inv E. inv E. destruct (cross_step PO BO RO HL CT HG H H0) as (CT' & HG'). eapply IH; [| | |exact E]; auto. lia.
  - injection E as <- <-. exact CT.
Qed.
Lemma bin_ok left pop best rs : pop_ok pop -> cols Best best -> Forall (fun r => 0 <= r)%Z rs -> forall n trial k trial' k',
  left <= D -> cols Trial trial -> (forall j x, pending left n j -> nth_error trial j = Some x -> Good j x) -> (0 <= n)%Z ->
  bin_loop N draw c left pop best rs n trial k = Ok (trial', k') -> cols Trial trial'.
Proof.
  intros PO BO RO. induction left as [|left IH]; intros n trial k trial' k' HL CT HG Hn E; cbn [bin_loop] in E.
  - injection E as <- <-. exact CT.
  - destruct (RandomUniform N draw (nofZ N 0) (nofZ N 1) k) as (u, k1).
    destruct (_ || _).
    + inv E. inv E. destruct (cross_step PO BO RO HL CT HG H H0) as (CT' & HG'). eapply IH; [| | | |exact E]; auto; [lia|]. apply next_in. lia.
    + eapply IH; [| | | |exact E]; auto; [lia| |apply next_in; lia].
      intros j x (i & Hi & Ei) Ex. apply HG; auto. exists (i + 1)%Z. split; [lia|]. unfold next_dim in Ei.
      rewrite Z.add_mod_idemp_l in Ei by lia. rewrite Ei. f_equal. lia.
Qed.

Lemma select_one_ok f n avoid : n = P -> forall k z k', select_one N draw f n avoid k = Ok (z, k') -> (0 <= z)%Z /\ ~ In z avoid.
Proof.
  intros En. induction f as [|f IH]; intros k z k' E; cbn [select_one] in E; [discriminate|].
  inv2 E z0 k0. destruct (existsb (Z.eqb z0) avoid) eqn:Ex; [eauto|]. injection E as <- <-. split; [eauto|].
  intros I. assert (existsb (Z.eqb z0) avoid = true); [|congruence]. apply existsb_exists. exists z0. split; [auto|apply Z.eqb_refl].
Qed.
Lemma select_ok count n : n = P -> forall avoid k zs k', SelectSamples N draw fuel count n avoid k = Ok (zs, k') ->
  length zs = count /\ Forall (fun z => 0 <= z)%Z zs /\ (forall z, In z zs -> ~ In z avoid) /\ NoDup zs.
Proof.
  intros En. induction count as [|count IH]; intros avoid k zs k' E; cbn [SelectSamples] in E.
  - injection E as <- <-. repeat split; auto using NoDup_nil.
  - inv2 E z k1. inv2 E zs' k2. injection E as <- <-.
    destruct (select_one_ok En H) as (Hz & Hn). destruct (IH _ _ _ _ H0) as (A & B & Cc & Dd). cbn [length]. split; [lia|]. split; [auto|]. split.
    + intros z' [<-|I]; [auto|]. intros J. apply (Cc z' I). apply in_or_app. now left.
    + constructor; [|auto]. intros I. apply (Cc z I). apply in_or_app. right. now left.
Qed.

Lemma calc_ok s cand trial k : cand < P -> pop_ok (population s) -> cols Best (bestSolution s) ->
  CalcTrialSolution N draw fuel c s cand = Ok (trial, k) -> cols Trial trial.
Proof.
  intros Hc PO BO E. unfold CalcTrialSolution in E. inv2 E rs k1. inv2 E n k2.
  destruct (select_ok eq_refl H) as (_ & R0 & _). pose proof (draw_index (or_introl eq_refl) H0) as Hn.
  assert (CT : cols Trial (row c (population s) cand)).
  { split; [now apply row_len|]. intros j x Ex. destruct (pop_row Hc PO Ex). auto. }
  assert (HG : forall j x, pending D n j -> nth_error (row c (population s) cand) j = Some x -> Good j x).
  { intros j x _ Ex. now apply (pop_row Hc PO Ex). }
  destruct (cross c).
  - eapply exp_ok; [exact PO|exact BO|exact R0| | | |exact E]; auto.
  - eapply bin_ok; [exact PO|exact BO|exact R0| | | | |exact E]; auto.
Qed.

Lemma enforce_ok old trial k trial' k' : cols Good old -> cols Trial trial ->
  enforce_bounds N draw c old trial k = Ok (trial', k') -> cols Good trial'.
Proof.
  intros (Lo & Ho) (Lt & Ht) E. unfold enforce_bounds in E.
  pose (Q := fun i (a : list T * nat) => length (fst a) = D /\ (forall j x, j < i -> nth_error (fst a) j = Some x -> Good j x) /\
                                     (forall j x, i <= j -> nth_error (fst a) j = Some x -> Trial j x)).
  assert (X : Q D (trial', k')).
  { refine (@for_ok _ Q _ D _ _ _ _ E).
    - split; [exact Lt|]. split; [intros; lia|]. intros. now apply Ht.
    - intros i (a, ka) (b, kb) Hi (La & A1 & A2) Es. cbn [fst] in *.
      inv Es. rename x into t. inv Es. rename x into lo. inv Es. rename x into hi. inv Es. rename x into o.
      destruct (bring_back N draw lo hi o t ka) as (t', k1) eqn:Eb. inv Es. injection Es as <- <-.
      apply get_some in H, H0, H1, H2. apply set_some in H3. destruct H3 as (_ & ->).
      assert (G : Good i t').
      { change t' with (fst (t', k1)). rewrite <- Eb. eapply back_good; eauto. }
      split; [cbn [fst]; now rewrite upd_length|]. cbn [fst]. split; intros j x Hj Ex; rewrite nth_error_upd in Ex; destruct (i =? j) eqn:Ej; cbn [andb] in Ex.
      + apply Nat.eqb_eq in Ej. subst j. destruct (i <? length a) eqn:El; [injection Ex as <-; exact G|]. apply Nat.ltb_ge in El. lia.
      + apply Nat.eqb_neq in Ej. apply A1; [lia|auto].
      + apply Nat.eqb_eq in Ej. lia.
      + apply A2; [lia|auto]. }
  destruct X as (L & A & _). split; [exact L|]. intros j x Ex. apply A; auto.
  assert (nth_error (fst (trial', k')) j <> None) by (cbn [fst]; congruence). apply nth_error_Some in H. lia.
Qed.

(** ---- the whole run ---- *)
Definition sol_ok (s : dstate T) : Prop :=
  (bestSolution s = repeat (nofZ N 0) D /\ bestEnergy s = BIG N) \/ In (bestSolution s, bestEnergy s) (calls s).
Record inv (s : dstate T) : Prop := {
  i_pop : pop_ok (population s);
  i_pe : length (popEnergy s) = P;
  i_best : cols Best (bestSolution s);
  i_calls : forall v e, In (v, e) (calls s) -> cols Good v;
  i_sol : sol_ok s }.

Lemma step_ok cand s s' : cand < P -> inv s -> candidate_step N draw energy fuel c cand s = Ok s' ->
  inv s' /\ exists v, cols Good v /\ calls s' = (v, energy (length (calls s)) v) :: calls s.
Proof.
  intros Hc I E. destruct I as [IP IE IB IC IS]. unfold candidate_step in E.
  inv2 E trial k. pose proof (calc_ok Hc IP IB H) as CT. inv2 E trial' k'.
  assert (OG : cols Good (row c (population s) cand)).
  { split; [now apply row_len|]. intros j x Ex. now apply (pop_row Hc IP Ex). }
  pose proof (enforce_ok OG CT H0) as CG. cbv zeta in E. set (e := energy (length (calls s)) trial') in *.
  assert (IC' : forall v e0, In (v, e0) ((trial', e) :: calls s) -> cols Good v).
  { intros v e0 [Q|Q]; [injection Q as <- _; exact CG|eauto]. }
  inv E. destruct (nltb N e x).
  - inv E. apply set_some in H2. destruct H2 as (_ & ->).
    destruct (nltb N e (bestEnergy s)); injection E as <-.
    + split; [|exists trial'; auto]. constructor; cbn [population popEnergy bestSolution bestEnergy calls]; auto.
      * now apply write_ok.
      * now rewrite upd_length.
      * destruct CG as (L & G). split; [exact L|]. intros j y Ey. apply good_best; [|auto].
        assert (nth_error trial' j <> None) by congruence. apply nth_error_Some in H2. lia.
      * right. now left.
    + split; [|exists trial'; auto]. constructor; cbn [population popEnergy bestSolution bestEnergy calls]; auto.
      * now apply write_ok.
      * now rewrite upd_length.
      * destruct IS as [IS|IS]; [now left|right; now right].
  - injection E as <-. split; [|exists trial'; auto]. constructor; cbn [population popEnergy bestSolution bestEnergy calls]; auto.
    destruct IS as [IS|IS]; [now left|right; now right].
Qed.

Lemma gen_ok left : forall g deltas last s r, inv s ->
  generations_loop N draw energy interrupted fuel c left g deltas last s = Ok r -> inv (snd r).
Proof.
  induction left as [|left IH]; intros g deltas last s r I E; cbn [generations_loop] in E.
  - injection E as <-. exact I.
  - inv E. rename x into s1.
    assert (I1 : inv s1).
    { refine (@for_ok _ (fun _ => inv) _ P s s1 I _ H). intros i a b Hi Ia Eb. now destruct (step_ok Hi Ia Eb). }
    destruct (interrupted g); [injection E as <-; exact I1|].
    destruct (convergence N c g deltas last (bestEnergy s1)) as ((d, l), stop).
    destruct stop; [injection E as <-; exact I1|]. eauto.
Qed.

Lemma setup_state useLHS k s : Setup N draw shuffled c useLHS k = Ok s ->
  pop_ok (population s) /\ popEnergy s = repeat (BIG N) P /\ bestSolution s = repeat (nofZ N 0) D /\ calls s = [].
Proof.
  intros E. unfold Setup in E. inv2 E pop k1. injection E as <-. cbn [population popEnergy bestSolution calls].
  split; [|auto].
  pose (Q := fun i (a : list T * nat) => length (fst a) = i * D /\
     forall i' j x, j < D -> nth_error (fst a) (i' * D + j) = Some x -> Good j x).
  assert (X : Q P (pop, k1)).
  { refine (@for_ok _ Q _ P _ _ _ _ H).
    - split; [reflexivity|]. intros i' j x _ Ex. destruct (i' * D + j); discriminate.
    - intros i (a, ka) (b, kb) Hi (La & A) Eb. cbn [fst] in *.
      pose (Q2 := fun j (a : list T * nat) => length (fst a) = i * D + j /\
         forall i' j' x, j' < D -> nth_error (fst a) (i' * D + j') = Some x -> Good j' x).
      assert (X2 : Q2 D (b, kb)).
      { refine (@for_ok _ Q2 _ D _ _ _ _ Eb).
        - split; [cbn [fst]; lia|exact A].
        - intros j (a1, ka1) (b1, kb1) Hj (L1 & A1) E1. cbn [fst] in *.
          inv E1. rename x into lo. inv E1. rename x into hi. apply get_some in H0, H1.
          assert (Y : forall v, Good j v -> Q2 (S j) (a1 ++ [v], kb1)).
          { intros v Gv. split; cbn [fst]; [rewrite app_length; cbn [length]; lia|].
            intros i' j' x Hj' Ex. destruct (Nat.lt_ge_cases (i' * D + j') (length a1)).
            - rewrite nth_error_app1 in Ex by auto. eauto.
            - rewrite nth_error_app2 in Ex by auto. destruct (i' * D + j' - length a1) eqn:Ed; cbn in Ex; [|now destruct n].
              injection Ex as <-. assert (i' * D + j' = i * D + j) by lia.
              assert (j' = j); [|subst; auto].
              assert (i' = i) by nia. lia. }
          destruct useLHS.
          + cbv zeta in E1. injection E1 as <- <-. apply Y. now apply lhs_good.
          + destruct (RandomUniform N draw lo hi ka1) as (v, k2) eqn:Ev. injection E1 as <- <-. apply Y.
            change v with (fst (v, k2)). rewrite <- Ev. now apply uniform_good. }
      destruct X2 as (L2 & A2). split; cbn [fst] in *; [lia|exact A2]. }
  destruct X as (L & A). split; [exact L|]. intros i j x _ Hj. now apply A.
Qed.

Lemma solve_ok useLHS k s m r : Setup N draw shuffled c useLHS k = Ok s ->
  Solve N draw energy interrupted fuel c m s = Ok r -> inv (snd r).
Proof.
  intros Es E. destruct (setup_state Es) as (A & B & Cc & Dd). unfold Solve in E. eapply gen_ok; [|exact E].
  constructor; cbn [population popEnergy bestSolution bestEnergy calls].
  - exact A.
  - now rewrite B, repeat_length.
  - rewrite Cc. split; [apply repeat_length|]. intros j x Ex.
    assert (Hj : j < D). { assert (nth_error (repeat (nofZ N 0) D) j <> None) by congruence. apply nth_error_Some in H. now rewrite repeat_length in H. }
    apply nth_error_In in Ex. apply repeat_spec in Ex. subst. now apply best_zero.
  - rewrite Dd. intros v e [].
  - left. split; [exact Cc|reflexivity].
Qed.
End Inv.

(** ---- energies ---- *)
Section Energy.
Variable T : Type.
Variable N : Num T.
Variables (draw : nat -> T) (energy : nat -> list T -> T) (interrupted : nat -> bool) (shuffled : nat -> nat -> Z) (fuel : nat).
Variable c : config T.
Variable ord : T -> Prop.
Notation lt a b := (nltb N a b = true).
Hypothesis lt_trans : forall a b d, lt a b -> lt b d -> lt a d.
Hypothesis lt_cotrans : forall a b d, lt a b -> ord d -> lt a d \/ lt d b.
Hypothesis lt_irrefl : forall a, nltb N a a = false.
Hypothesis lt_ord : forall a b, lt a b -> ord a.
Hypothesis big_ord : ord (BIG N).

Lemma not_lt a b : (lt a b -> False) -> nltb N a b = false.
Proof. destruct (nltb N a b); auto. intros H. exfalso. auto. Qed.

Record einv (s : dstate T) : Prop := {
  e_pop : forall i x, nth_error (popEnergy s) i = Some x -> ord x /\ nltb N x (bestEnergy s) = false;
  e_calls : forall v e, In (v, e) (calls s) -> nltb N e (bestEnergy s) = false;
  e_vals : forall i v e, nth_error (rev (calls s)) i = Some (v, e) -> e = energy i v;
  e_sol : (bestSolution s = repeat (nofZ N 0) (nDim c) /\ bestEnergy s = BIG N) \/ In (bestSolution s, bestEnergy s) (calls s) }.

Lemma estep cand s s' : candidate_step N draw energy fuel c cand s = Ok s' ->
  nltb N (bestEnergy s) (bestEnergy s') = false /\ (exists v e, calls s' = (v, e) :: calls s) /\ (einv s -> einv s').
Proof.
  intros E. unfold candidate_step in E. inv2 E trial k. inv2 E trial' k'. cbv zeta in E.
  set (e := energy (length (calls s)) trial') in *. inv E. rename x into pe. apply get_some in H1.
  assert (VAL : einv s -> forall i v e0, nth_error (rev ((trial', e) :: calls s)) i = Some (v, e0) -> e0 = energy i v).
  { intros I i v e0 En. cbn [rev] in En. destruct (Nat.lt_ge_cases i (length (rev (calls s)))) as [L|L].
    - rewrite nth_error_app1 in En by auto. now apply (e_vals I).
    - rewrite nth_error_app2 in En by auto. rewrite rev_length in *. destruct (i - length (calls s)) eqn:Ed; cbn in En; [|now destruct n].
      injection En as <- <-. replace i with (length (calls s)) by lia. reflexivity. }
  destruct (nltb N e pe) eqn:Lp.
  - inv E. apply set_some in H2. destruct H2 as (_ & ->).
    destruct (nltb N e (bestEnergy s)) eqn:Lb; injection E as <-; cbn [bestEnergy calls].
    + split; [|split; [eauto|]].
      { apply not_lt. intros Q. pose proof (lt_trans Lb Q) as C. rewrite lt_irrefl in C. discriminate. }
      intros I. constructor; cbn [popEnergy bestSolution bestEnergy calls].
      * intros i x Ex. rewrite nth_error_upd in Ex. destruct (_ && _).
        -- injection Ex as <-. split; [eauto|apply lt_irrefl].
        -- destruct (e_pop I Ex) as (O1 & O2). split; [exact O1|]. apply not_lt. intros Q. pose proof (lt_trans Q Lb). congruence.
      * intros v e0 [Q|Q]; [injection Q as _ <-; apply lt_irrefl|]. apply not_lt. intros R. pose proof (lt_trans R Lb). pose proof (e_calls I Q). congruence.
      * exact (VAL I).
      * right. now left.
    + split; [apply lt_irrefl|]. split; [eauto|].
      intros I. constructor; cbn [popEnergy bestSolution bestEnergy calls].
      * intros i x Ex. rewrite nth_error_upd in Ex. destruct (_ && _); [injection Ex as <-; eauto|exact (e_pop I Ex)].
      * intros v e0 [Q|Q]; [injection Q as _ <-; exact Lb|now apply (e_calls I Q)].
      * exact (VAL I).
      * destruct (e_sol I); [now left|right; now right].
  - injection E as <-. cbn [bestEnergy calls]. split; [apply lt_irrefl|]. split; [eauto|].
    intros I. constructor; cbn [popEnergy bestSolution bestEnergy calls].
    + apply (e_pop I).
    + intros v e0 [Q|Q]; [injection Q as _ <-|now apply (e_calls I Q)].
      apply not_lt. intros R. destruct (e_pop I H1) as (O1 & O2). destruct (lt_cotrans R O1); congruence.
    + exact (VAL I).
    + destruct (e_sol I); [now left|right; now right].
Qed.

Lemma egen left : forall g deltas last s r, einv s ->
  generations_loop N draw energy interrupted fuel c left g deltas last s = Ok r -> einv (snd r).
Proof.
  induction left as [|left IH]; intros g deltas last s r I E; cbn [generations_loop] in E.
  - injection E as <-. exact I.
  - inv E. rename x into s1.
    assert (I1 : einv s1).
    { refine (@for_ok _ (fun _ => einv) _ (nPop c) s s1 I _ H). intros i a b Hi Ia Eb. now apply (estep Eb). }
    destruct (interrupted g); [injection E as <-; exact I1|].
    destruct (convergence N c g deltas last (bestEnergy s1)) as ((d, l), stop).
    destruct stop; [injection E as <-; exact I1|]. eauto.
Qed.

Lemma esolve useLHS k s m r : Setup N draw shuffled c useLHS k = Ok s ->
  Solve N draw energy interrupted fuel c m s = Ok r -> einv (snd r).
Proof.
  intros Es E.
  assert (X : popEnergy s = repeat (BIG N) (nPop c) /\ bestSolution s = repeat (nofZ N 0) (nDim c) /\ calls s = []).
  { unfold Setup in Es. inv2 Es pop k1. injection Es as <-. auto. }
  destruct X as (B & Cc & Dd). unfold Solve in E. eapply egen; [|exact E].
  constructor; cbn [population popEnergy bestSolution bestEnergy calls].
  - rewrite B. intros i x Ex. apply nth_error_In in Ex. apply repeat_spec in Ex. subst. auto.
  - rewrite Dd. intros v e [].
  - rewrite Dd. intros [|i]; discriminate.
  - left. auto.
Qed.
End Energy.

Lemma distinct_samples T (N : Num T) draw fuel count n cand k zs k' :
  (forall k z k', rand_int N draw n k = Ok (z, k') -> (0 <= z)%Z) ->
  SelectSamples N draw fuel count n [Z.of_nat cand] k = Ok (zs, k') ->
  length zs = count /\ NoDup zs /\ ~ In (Z.of_nat cand) zs.
Proof.
  intros H E.
  destruct (@select_ok T N draw fuel (mkCfg n n Best1 Exp (nofZ N 0) (nofZ N 0) (nofZ N 0) [] [])) with (count := count) (n := n) (avoid := [Z.of_nat cand]) (k := k) (zs := zs) (k' := k') as (A & _ & B & C); auto.
  - cbn [nDim nPop]. intros n' k0 z k1 [-> | ->]; apply H.
  - repeat split; auto. intros I. apply (B _ I). now left.
Qed.
