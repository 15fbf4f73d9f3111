(** Differential evolution in exact arithmetic: limits and fixed parameters. *)
From Coq Require Import ZArith List Bool Lia Reals Lra.
From Flocq Require Import Core.Core.
From Verif Require Import Base Num DE_Model DE_Spec DE_Proof.
Import ListNotations.
Set Implicit Arguments. Unset Strict Implicit.

Section B.
Variable T : Type.
Variable N : Num T.
Lemma bounds_ok (params : list T) lims los his ok : bounds N params lims = Ok (los, his, ok) ->
  length los = length params /\ length his = length params /\ length params <= length lims /\
  (ok = true -> forall j p l, nth_error params j = Some p -> nth_error lims j = Some l ->
     nth_error los j = Some (if fixed l then p else lim0 l) /\ nth_error his j = Some (if fixed l then p else lim1 l) /\
     (fixed l = false -> limited0 l = true /\ limited1 l = true)) /\
  (ok = false -> exists j l, nth_error lims j = Some l /\ fixed l = false /\ (limited0 l && limited1 l)%bool = false).
Proof.
  intros E. unfold bounds in E.
  pose (Q := fun i (a : list T * list T * bool) =>
    length (fst (fst a)) = i /\ length (snd (fst a)) = i /\ i <= length lims /\
    (snd a = true -> forall j p l, j < i -> nth_error params j = Some p -> nth_error lims j = Some l ->
     nth_error (fst (fst a)) j = Some (if fixed l then p else lim0 l) /\ nth_error (snd (fst a)) j = Some (if fixed l then p else lim1 l) /\
     (fixed l = false -> limited0 l = true /\ limited1 l = true)) /\
    (snd a = false -> exists j l, nth_error lims j = Some l /\ fixed l = false /\ (limited0 l && limited1 l)%bool = false)).
  assert (X : Q (length params) (los, his, ok)).
  { refine (@for_ok _ Q _ _ _ _ _ _ E).
    - repeat split; try (cbn; lia); intros; cbn in *; try discriminate; lia.
    - intros i ((a1, a2), a3) b Hi (L1 & L2 & L3 & A & B) Es. cbn [fst snd] in *. inv Es. inv Es. rename x into p, x0 into l.
      apply get_some in H, H0. assert (Hl : i < length lims) by (apply nth_error_Some; congruence).
      assert (Y : forall u v, u = (if fixed l then p else lim0 l) -> v = (if fixed l then p else lim1 l) ->
        (fixed l = false -> limited0 l = true /\ limited1 l = true) -> Q (S i) (a1 ++ [u], a2 ++ [v], a3)).
      { intros u v Eu Ev Hf. unfold Q. cbn [fst snd]. rewrite !app_length. cbn [length]. split; [lia|]. split; [lia|]. split; [lia|]. split; [|exact B].
        intros Ea j p' l' Hj Ep El. destruct (Nat.eq_dec j i) as [->|Nj].
        - rewrite Ep in H. rewrite El in H0. injection H as ->. injection H0 as ->.
          rewrite !nth_error_app2 by lia. rewrite L1, L2, Nat.sub_diag. cbn. subst. auto.
        - rewrite !nth_error_app1 by lia. apply A; auto. lia. }
      destruct (fixed l) eqn:Ef; [|destruct (limited0 l && limited1 l)%bool eqn:El].
      + injection Es as <-. apply Y; auto. discriminate.
      + injection Es as <-. apply Y; auto. intros _. now apply andb_prop.
      + injection Es as <-. unfold Q. cbn [fst snd]. rewrite !app_length. cbn [length]. split; [lia|]. split; [lia|]. split; [lia|]. split; [discriminate|].
        intros _. exists i, l. auto. }
  destruct X as (L1 & L2 & L3 & A & B). cbn [fst snd] in *. split; [auto|]. split; [auto|]. split; [auto|]. split; [|auto].
  intros Eo j p l Ep El. apply A; auto. apply nth_error_Some. congruence.
Qed.
End B.

Local Open Scope R_scope.
Section RealDE.
Variables (draw : nat -> R) (energy : nat -> list R -> R) (interrupted : nat -> bool) (shuffled : nat -> nat -> Z) (fuel : nat).
Hypothesis draw01 : forall k, 0 <= draw k <= 1.

Lemma between a b u : a <= b -> 0 <= u <= 1 -> a <= a + u * (b - a) <= b.
Proof. intros H U. assert (0 <= u * (b - a)) by (apply Rmult_le_pos; lra). assert (u * (b - a) <= 1 * (b - a)) by (apply Rmult_le_compat_r; lra). lra. Qed.
Lemma between' a b u : a <= b -> 0 <= u <= 1 -> a <= b - u * (b - a) <= b.
Proof. intros H U. assert (0 <= u * (b - a)) by (apply Rmult_le_pos; lra). assert (u * (b - a) <= 1 * (b - a)) by (apply Rmult_le_compat_r; lra). lra. Qed.
Lemma u01 k : 0 <= 0 + draw k * (1 - 0) <= 1.
Proof. specialize (draw01 k). lra. Qed.

Lemma back_in lo hi old t k : lo <= old <= hi -> lo <= fst (bring_back NumR draw lo hi old t k) <= hi.
Proof.
  intros H. unfold bring_back, RandomUniform. cbn [nltb nadd nsub nmul nofZ NumR].
  destruct (Rltb t lo) eqn:E1.
  - pose proof (between (proj1 H) (u01 k)). 
    destruct (Rltb hi _) eqn:E2; cbn [fst].
    + pose proof (between' (proj2 H) (u01 (S k))). lra.
    + apply Rltb_false in E2. lra.
  - apply Rltb_false in E1. destruct (Rltb hi t) eqn:E2; cbn [fst].
    + pose proof (between' (proj2 H) (u01 k)). lra.
    + apply Rltb_false in E2. lra.
Qed.

Variable c : config R.
Hypothesis bounds_in : forall j lo hi, nth_error (minBounds c) j = Some lo -> nth_error (maxBounds c) j = Some hi -> lo <= hi.
Hypothesis shuffled_in : forall i j, (i < nPop c)%nat -> (j < nDim c)%nat -> (0 <= shuffled j i < Z.of_nat (nPop c))%Z.

Definition inside (j : nat) (x : R) : Prop := forall lo hi, nth_error (minBounds c) j = Some lo -> nth_error (maxBounds c) j = Some hi -> lo <= x <= hi.

Lemma rand_int_nonneg n k z k' : rand_int NumR draw n k = Ok (z, k') -> (0 <= z)%Z.
Proof.
  unfold rand_int, RandomUniform. cbn [nadd nsub nmul nofZ ntrunc NumR]. intros E. injection E as <- _.
  match goal with |- (_ <= Ztrunc ?y)%Z => assert (X : 0 <= y) end; [|apply Ztrunc_le in X; change 0 with (IZR 0) in X at 1; rewrite Ztrunc_IZR in X; exact X].
  specialize (draw01 k). assert (0 <= IZR (Z.of_nat n)) by (apply IZR_le; lia).
  assert (0 <= draw k * (IZR (Z.of_nat n) - 0)) by (apply Rmult_le_pos; lra). lra.
Qed.

Lemma real_inv useLHS k s m r : Setup NumR draw shuffled c useLHS k = Ok s ->
  Solve NumR draw energy interrupted fuel c m s = Ok r -> inv NumR c inside (fun _ _ => True) (snd r).
Proof.
  intros Es E. refine (@solve_ok R NumR draw energy interrupted shuffled fuel c inside (fun _ _ => True) (fun _ _ => True) _ _ _ _ _ _ _ _ useLHS k s m r Es E); auto.
  - intros j lo hi old t k0 Hj El Eh G _ lo' hi' El' Eh'. rewrite El in El'. rewrite Eh in Eh'. injection El' as <-. injection Eh' as <-.
    apply back_in. now apply G.
  - intros j lo hi k0 Hj El Eh lo' hi' El' Eh'. rewrite El in El'. rewrite Eh in Eh'. injection El' as <-. injection Eh' as <-.
    unfold RandomUniform. cbn [fst nadd nmul nsub NumR]. apply between; auto. eauto.
  - intros i j lo hi k0 Hi Hj El Eh lo' hi' El' Eh'. rewrite El in El'. rewrite Eh in Eh'. injection El' as <-. injection Eh' as <-.
    cbn [fst nadd nmul nsub ndiv nofZ NumR]. pose proof (bounds_in El Eh) as B. pose proof (shuffled_in Hi Hj) as S. specialize (draw01 k0).
    assert (P : 0 < IZR (Z.of_nat (nPop c))) by (apply IZR_lt; lia).
    replace ((IZR (shuffled j i) + draw k0) * ((hi - lo) / IZR (Z.of_nat (nPop c)))) with
      ((IZR (shuffled j i) + draw k0) / IZR (Z.of_nat (nPop c)) * (hi - lo)) by (field; lra).
    apply between; auto. assert (0 <= IZR (shuffled j i)) by (apply IZR_le; lia).
    assert (IZR (shuffled j i) + 1 <= IZR (Z.of_nat (nPop c))) by (rewrite <- plus_IZR; apply IZR_le; lia). split.
    + apply Rmult_le_pos; [lra|]. left. now apply Rinv_0_lt_compat.
    + apply Rmult_le_reg_r with (IZR (Z.of_nat (nPop c))); auto. unfold Rdiv. rewrite Rmult_assoc, Rinv_l by lra. lra.
  - intros n k0 z k' _ Ez. eapply rand_int_nonneg; eauto.
Qed.
End RealDE.

Section RealEnergy.
Variables (draw : nat -> R) (energy : nat -> list R -> R) (interrupted : nat -> bool) (shuffled : nat -> nat -> Z) (fuel : nat).
Variable c : config R.
Lemma real_step cand s s' : candidate_step NumR draw energy fuel c cand s = Ok s' ->
  bestEnergy s' <= bestEnergy s /\ exists v e, calls s' = (v, e) :: calls s.
Proof.
  intros E. destruct (@estep R NumR draw energy fuel c (fun _ => True)) with (cand := cand) (s := s) (s' := s') as (A & B & _); auto.
  - intros a b d. cbn [nltb NumR]. rewrite !Rltb_true. lra.
  - intros a b d. cbn [nltb NumR]. rewrite !Rltb_true. lra.
  - intros a. cbn [nltb NumR]. apply Rltb_false. lra.
  - split; auto. now apply Rltb_false.
Qed.
Lemma real_einv useLHS k s m r : Setup NumR draw shuffled c useLHS k = Ok s ->
  Solve NumR draw energy interrupted fuel c m s = Ok r -> einv NumR energy c (fun _ => True) (snd r).
Proof.
  intros Es E. refine (@esolve R NumR draw energy interrupted shuffled fuel c (fun _ => True) _ _ _ _ I useLHS k s m r Es E).
  - intros a b d. cbn [nltb NumR]. rewrite !Rltb_true. lra.
  - intros a b d. cbn [nltb NumR]. rewrite !Rltb_true. lra.
  - intros a. cbn [nltb NumR]. apply Rltb_false. lra.
  - auto.
Qed.
End RealEnergy.

Section Fit.
Variables (draw : nat -> R) (energy : nat -> list R -> R) (interrupted : nat -> bool) (shuffled : nat -> nat -> Z) (fuel : nat).
Hypothesis draw01 : forall k, 0 <= draw k <= 1.
Variables (params : list R) (lims : list (limits R)).
Hypothesis same_len : length lims = length params.
Hypothesis ord : ordered Rle lims.
Hypothesis shuffled_in : forall i j, (i < 8 * nFree lims)%nat -> (j < length params)%nat -> (0 <= shuffled j i < Z.of_nat (8 * nFree lims))%Z.

Lemma fit_limits ftol useLHS mg k status out s :
  DiffEvolnFit NumR draw energy interrupted shuffled fuel params lims ftol useLHS mg k = Ok (status, out, Some s) ->
  (forall v e, In (v, e) (calls s) -> respects Rle eq params lims v) /\
  ((exists v e, In (v, e) (calls s) /\ e < IZR (10 ^ 20)) -> respects Rle eq params lims out).
Proof.
  intros E. unfold DiffEvolnFit in E. apply bind_Ok in E. destruct E as (((los, his), ok) & Eb & E).
  destruct (bounds_ok Eb) as (L1 & L2 & L3 & B & _). destruct ok; cbn [negb] in E; [|discriminate]. specialize (B eq_refl).
  cbv zeta in E. set (c := mkCfg _ _ _ _ _ _ _ _ _) in E.
  apply bind_Ok in E. destruct E as (s0 & E0 & E). apply bind_Ok in E. destruct E as (((st, g), s1) & E1 & E). injection E as -> <- ->.
  assert (BI : forall j lo hi, nth_error los j = Some lo -> nth_error his j = Some hi -> exists p l,
            nth_error params j = Some p /\ nth_error lims j = Some l /\ lo = (if fixed l then p else lim0 l) /\ hi = (if fixed l then p else lim1 l)).
  { intros j lo hi Elo Ehi. assert (Hj : (j < length los)%nat) by (apply nth_error_Some; congruence).
    destruct (nth_error params j) as [p|] eqn:Ep; [|apply nth_error_None in Ep; lia].
    destruct (nth_error lims j) as [l|] eqn:El; [|apply nth_error_None in El; lia].
    destruct (B j p l Ep El) as (A1 & A2 & _). exists p, l. repeat split; auto; congruence. }
  assert (I : inv NumR c (inside c) (fun _ _ => True) (snd (status, g, s))).
  { eapply real_inv; [exact draw01| | |exact E0|exact E1].
    - intros j lo hi Elo Ehi. cbn [minBounds maxBounds c] in *. destruct (BI j lo hi Elo Ehi) as (p & l & Ep & El & -> & ->).
      destruct (fixed l) eqn:Ef; [lra|]. now apply (ord El).
    - intros i j Hi Hj. now apply shuffled_in. }
  assert (J : einv NumR energy c (fun _ => True) (snd (status, g, s))) by (eapply real_einv; [exact E0|exact E1]).
  cbn [snd] in I, J.
  assert (G : forall v, cols c (inside c) v -> respects Rle eq params lims v).
  { intros v (Lv & Hv). split; [exact Lv|]. intros j p l x Ep El Ex. destruct (B j p l Ep El) as (A1 & A2 & _).
    specialize (Hv j x Ex _ _ A1 A2). destruct (fixed l); lra. }
  split.
  - intros v e Hv. apply G. exact (i_calls I Hv).
  - intros (v & e & Hv & He). apply G.
    destruct (e_sol J) as [(_ & Q)|Q]; [|exact (i_calls I Q)].
    pose proof (e_calls J Hv) as C. rewrite Q in C. cbn [nltb NumR] in C. apply Rltb_false in C. unfold BIG in C. cbn [nofZ NumR] in C. exfalso. exact (Rlt_not_le _ _ He C).
Qed.

Lemma fit_status ftol useLHS mg k status out os :
  DiffEvolnFit NumR draw energy interrupted shuffled fuel params lims ftol useLHS mg k = Ok (status, out, os) ->
  match os with
  | None => status = (-2)%Z /\ out = params /\ ~ all_limited lims
  | Some _ => all_limited lims
  end.
Proof.
  intros E. unfold DiffEvolnFit in E. apply bind_Ok in E. destruct E as (((los, his), ok) & Eb & E).
  destruct (bounds_ok Eb) as (L1 & L2 & L3 & B & B'). destruct ok; cbn [negb] in E.
  - specialize (B eq_refl). apply bind_Ok in E. destruct E as (s0 & E0 & E). apply bind_Ok in E. destruct E as (((st, g), s1) & E1 & E). injection E as -> <- <-.
    intros j l El Ef. assert (Hj : (j < length lims)%nat) by (apply nth_error_Some; congruence).
    destruct (nth_error params j) as [p|] eqn:Ep; [|apply nth_error_None in Ep; lia]. destruct (B j p l Ep El) as (_ & _ & Q). auto.
  - injection E as <- <- <-. repeat split; auto. destruct (B' eq_refl) as (j & l & El & Ef & Q). intros A. destruct (A j l El Ef) as (Q1 & Q2). rewrite Q1, Q2 in Q. discriminate.
Qed.
End Fit.

Lemma no_energy (draw : nat -> R) energy interrupted shuffled fuel (c : config R) useLHS k s m r :
  Setup NumR draw shuffled c useLHS k = Ok s -> Solve NumR draw energy interrupted fuel c m s = Ok r ->
  (forall v e, In (v, e) (calls (snd r)) -> IZR (10 ^ 20) <= e) -> bestSolution (snd r) = repeat 0 (nDim c).
Proof.
  intros Es E.
  assert (X : popEnergy s = repeat (BIG NumR) (nPop c) /\ bestSolution s = repeat 0 (nDim c) /\ calls s = []).
  { unfold Setup in Es. inv2 Es pop k1. injection Es as <-. auto. }
  destruct X as (B & Cc & Dd). unfold Solve in E.
  (* the energies stay at 1e20 as long as nothing below was seen *)
  pose (Q := fun s : dstate R => (forall v e, In (v, e) (calls s) -> IZR (10 ^ 20) <= e) ->
     bestSolution s = repeat 0 (nDim c) /\ bestEnergy s = IZR (10 ^ 20)).
  assert (ST : forall cand a b, Q a -> candidate_step NumR draw energy fuel c cand a = Ok b -> Q b).
  { intros cand a b Qa Ea H. unfold candidate_step in Ea. inv2 Ea trial k0. inv2 Ea trial' k'. cbv zeta in Ea.
    set (e := energy (length (calls a)) trial') in *. inv Ea. rename x into pe.
    assert (SUB : forall v e0, In (v, e0) (calls a) -> In (v, e0) (calls b)).
    { intros v e0 Iv. destruct (nltb NumR e pe); [inv Ea; destruct (nltb NumR e (bestEnergy a))|]; injection Ea as <-; right; exact Iv. }
    assert (IE : In (trial', e) (calls b)).
    { destruct (nltb NumR e pe); [inv Ea; destruct (nltb NumR e (bestEnergy a))|]; injection Ea as <-; now left. }
    assert (Qa' := Qa (fun v e0 Iv => H v e0 (SUB v e0 Iv))). destruct Qa' as (Q1 & Q2). specialize (H _ _ IE).
    assert (NL : nltb NumR e (bestEnergy a) = false) by (apply Rltb_false; rewrite Q2; exact H).
    rewrite NL in Ea. destruct (nltb NumR e pe); [inv Ea|]; injection Ea as <-; auto. }
  assert (G : forall left g deltas last s r, Q s -> generations_loop NumR draw energy interrupted fuel c left g deltas last s = Ok r -> Q (snd r)).
  { clear E. induction left as [|left IH]; intros g deltas last s1 r1 I E; cbn [generations_loop] in E.
    - injection E as <-. exact I.
    - inv E. rename x into s2.
      assert (I1 : Q s2) by (refine (@for_ok _ (fun _ => Q) _ (nPop c) s1 s2 I _ H); intros i a b Hi; apply ST).
      destruct (interrupted g); [injection E as <-; exact I1|].
      destruct (convergence NumR c g deltas last (bestEnergy s2)) as ((d, l), stop).
      destruct stop; [injection E as <-; exact I1|]. eapply IH; eauto. }
  intros H. refine (proj1 (G _ _ _ _ _ r _ E H)). intros _. cbn [bestSolution bestEnergy]. split; [exact Cc|reflexivity].
Qed.

(** ---- a concrete run over the reals ---- *)
Definition demo_draw (k : nat) : R :=
  if (k <? 8)%nat then 1 / 2
  else let i := (k - 8)%nat in
       match (i mod 4)%nat with
       | 0%nat => (INR ((i / 4 + 1) mod 8) + 1 / 2) / 8
       | 1%nat => (INR ((i / 4 + 2) mod 8) + 1 / 2) / 8
       | 2%nat => 0
       | _ => 1
       end.
Lemma demo_draw01 k : 0 <= demo_draw k <= 1.
Proof.
  unfold demo_draw. destruct (k <? 8)%nat; [lra|]. cbv zeta.
  assert (B : forall n, 0 <= INR (n mod 8) <= 7).
  { intros n. split; [apply pos_INR|]. change 7 with (IZR (Z.of_nat 7)). rewrite <- INR_IZR_INZ. apply le_INR. pose proof (Nat.mod_upper_bound n 8). lia. }
  destruct ((k - 8) mod 4)%nat as [|[|[|n]]]; [pose proof (B ((k - 8) / 4 + 1)%nat)|pose proof (B ((k - 8) / 4 + 2)%nat)| |]; lra.
Qed.
Lemma trunc_is x z : (0 <= z)%Z -> IZR z <= x < IZR z + 1 -> Ztrunc x = z.
Proof. intros Hz H. rewrite Ztrunc_floor by (apply IZR_le in Hz; lra). apply Zfloor_imp. rewrite plus_IZR. lra. Qed.
Lemma demo_index a : (a < 8)%nat -> Ztrunc (0 + (INR a + 1 / 2) / 8 * (IZR (Z.of_nat 8) - 0)) = Z.of_nat a.
Proof.
  intros H. apply trunc_is; [lia|]. rewrite <- INR_IZR_INZ. change (IZR (Z.of_nat 8)) with 8. lra.
Qed.

Lemma demo_real : exists status out s,
  (forall k, 0 <= demo_draw k <= 1) /\ ordered Rle [mkLim false true true 1 9] /\
  DiffEvolnFit NumR demo_draw (fun _ _ => 3) (fun _ => false) (fun _ i => Z.of_nat i) 1 [2] [mkLim false true true 1 9] 1 false 1 0
    = Ok (status, out, Some s) /\ (exists v, In (v, 3) (calls s)).
Proof.
  set (c := mkCfg 1 8 RandToBest1 Exp (ndec NumR 7 1) (nofZ NumR 1) 1 [1] [9]).
  assert (SE : exists pop, Setup NumR demo_draw (fun _ i => Z.of_nat i) c false 0 = Ok (mkDS pop (repeat (BIG NumR) 8) (repeat 0 1) 0 8 []) /\
     length pop = 8%nat /\ Forall (fun x => 1 <= x <= 9) pop).
  { unfold Setup. cbn [nPop c].
    match goal with |- context [for_ 8 ?f ?s] => destruct (@for_inv _ (fun i (a : list R * nat) => length (fst a) = i /\ snd a = i /\ Forall (fun x => 1 <= x <= 9) (fst a)) f 8 s) as ((pop & k) & E & L & K & F) end.
    - cbn [fst snd length]. auto.
    - intros i (a, ka) Hi (La & Ka & Fa). cbn [fst snd] in *. unfold for_. cbn [nDim c for_from get nth_error minBounds maxBounds bind RandomUniform].
      eexists. split; [reflexivity|]. cbn [fst snd]. rewrite app_length. cbn [length]. split; [lia|]. split; [lia|].
      apply Forall_app. split; [exact Fa|]. constructor; [|constructor]. cbn [nadd nmul nsub NumR]. pose proof (demo_draw01 ka). lra.
    - cbn [fst snd] in *. rewrite E. cbn [bind]. exists pop. subst k. auto. }
  destruct SE as (pop0 & SE & L0 & F0).
  assert (ST : forall cand s, (cand < 8)%nat -> rng s = (8 + 4 * cand)%nat -> length (population s) = 8%nat -> Forall (fun x => 1 <= x <= 9) (population s) ->
     length (popEnergy s) = 8%nat -> exists s' v, candidate_step NumR demo_draw (fun _ _ => 3) 1 c cand s = Ok s' /\ rng s' = (8 + 4 * S cand)%nat /\
       length (population s') = 8%nat /\ Forall (fun x => 1 <= x <= 9) (population s') /\ length (popEnergy s') = 8%nat /\ calls s' = (v, 3) :: calls s).
  { intros cand s Hc Hr Lp Fp Le.
    assert (DR : forall j, (j < 4)%nat -> demo_draw (8 + 4 * cand + j) = match j with 0%nat => (INR ((cand + 1) mod 8) + 1 / 2) / 8
       | 1%nat => (INR ((cand + 2) mod 8) + 1 / 2) / 8 | 2%nat => 0 | _ => 1 end).
    { intros j Hj. unfold demo_draw. destruct (Nat.ltb_spec (8 + 4 * cand + j) 8); [lia|]. cbv zeta.
      replace (8 + 4 * cand + j - 8)%nat with (j + cand * 4)%nat by lia. rewrite Nat.mod_add, Nat.div_add by lia.
      rewrite Nat.mod_small, Nat.div_small by lia. rewrite Nat.add_0_l. reflexivity. }
    assert (RI : forall a j, (a < 8)%nat -> demo_draw (8 + 4 * cand + j) = (INR a + 1 / 2) / 8 -> rand_int NumR demo_draw 8 (8 + 4 * cand + j) = Ok (Z.of_nat a, S (8 + 4 * cand + j))).
    { intros a j Ha Ea. unfold rand_int, RandomUniform. cbn [ntrunc nadd nmul nsub nofZ NumR]. rewrite Ea, demo_index by auto. reflexivity. }
    assert (A1 : ((cand + 1) mod 8 < 8)%nat) by (apply Nat.mod_upper_bound; lia).
    assert (A2 : ((cand + 2) mod 8 < 8)%nat) by (apply Nat.mod_upper_bound; lia).
    assert (NE : (cand + 1) mod 8 <> cand /\ (cand + 2) mod 8 <> cand /\ (cand + 2) mod 8 <> (cand + 1) mod 8).
    { do 8 (destruct cand as [|cand]; [cbn; lia|]). lia. }
    assert (CT : CalcTrialSolution NumR demo_draw 1 c s cand = Ok (row c (population s) cand, (8 + 4 * S cand)%nat)).
    { unfold CalcTrialSolution. change (nSamples c) with 2%nat. change (nPop c) with 8%nat. change (nDim c) with 1%nat. change (cross c) with Exp. rewrite Hr.
      assert (S1 : SelectSamples NumR demo_draw 1 2 8 [Z.of_nat cand] (8 + 4 * cand) = Ok ([Z.of_nat ((cand + 1) mod 8); Z.of_nat ((cand + 2) mod 8)], S (S (8 + 4 * cand)))).
      { cbn [SelectSamples select_one]. rewrite <- (Nat.add_0_r (8 + 4 * cand)). rewrite (RI _ _ A1 (DR 0%nat ltac:(lia))). cbn [bind].
        cbn [existsb]. destruct (Z.eqb_spec (Z.of_nat ((cand + 1) mod 8)) (Z.of_nat cand)); [lia|]. cbn [orb bind].
        pose proof (RI _ _ A2 (DR 1%nat ltac:(lia))) as R2. replace (8 + 4 * cand + 1)%nat with (S (8 + 4 * cand + 0)) in R2 by lia. rewrite R2. cbn [bind existsb app].
        destruct (Z.eqb_spec (Z.of_nat ((cand + 2) mod 8)) (Z.of_nat cand)); [lia|].
        destruct (Z.eqb_spec (Z.of_nat ((cand + 2) mod 8)) (Z.of_nat ((cand + 1) mod 8))); [lia|]. cbn [orb bind]. repeat f_equal; lia. }
      rewrite S1. cbn [bind].
      assert (R1 : rand_int NumR demo_draw 1 (S (S (8 + 4 * cand))) = Ok (0%Z, S (S (S (8 + 4 * cand))))).
      { unfold rand_int, RandomUniform. cbn [ntrunc nadd nmul nsub nofZ NumR]. replace (S (S (8 + 4 * cand))) with (8 + 4 * cand + 2)%nat by lia. rewrite (DR 2%nat) by lia.
        rewrite (@trunc_is _ 0%Z); [reflexivity|lia|]. lra. }
      rewrite R1. cbn [bind exp_loop RandomUniform]. replace (S (S (S (8 + 4 * cand)))) with (8 + 4 * cand + 3)%nat by lia. rewrite (DR 3%nat) by lia.
      change (probability c) with 1. cbn [nltb nadd nmul nsub nofZ NumR]. destruct (Rltb (0 + 1 * (1 - 0)) 1) eqn:EL; [apply Rltb_true in EL; lra|].
      do 2 f_equal. lia. }
    assert (RW : exists x, row c (population s) cand = [x] /\ 1 <= x <= 9).
    { unfold row. change (nDim c) with 1%nat. rewrite Nat.mul_1_r. destruct (nth_error (population s) cand) as [x|] eqn:Ex; [|apply nth_error_None in Ex; lia].
      exists x. split; [|rewrite Forall_forall in Fp; apply Fp; eapply nth_error_In; eauto].
      clear - Ex. revert cand Ex. induction (population s) as [|a l IH]; intros [|n] E; try discriminate; cbn [skipn].
      - injection E as ->. reflexivity.
      - apply IH. exact E. }
    destruct RW as (x & RW & Bx). unfold candidate_step. rewrite CT. cbn [bind]. rewrite RW.
    assert (EB : enforce_bounds NumR demo_draw c [x] [x] (8 + 4 * S cand) = Ok ([x], (8 + 4 * S cand)%nat)).
    { unfold enforce_bounds, for_. cbn [nDim c for_from get nth_error minBounds maxBounds bind]. unfold bring_back. cbn [nltb NumR].
      destruct (Rltb x 1) eqn:E1; [apply Rltb_true in E1; lra|]. destruct (Rltb 9 x) eqn:E2; [apply Rltb_true in E2; lra|]. reflexivity. }
    rewrite EB. cbn [bind]. destruct (@get_lt _ (popEnergy s) cand ltac:(lia)) as (pe & ->). cbn [bind].
    assert (WR : length (write_row c (population s) [x] cand) = 8%nat /\ Forall (fun x => 1 <= x <= 9) (write_row c (population s) [x] cand)).
    { unfold write_row. change (nDim c) with 1%nat. split.
      - rewrite !app_length, firstn_length, skipn_length, Lp. cbn [length]. lia.
      - rewrite Forall_forall in Fp |- *. intros y Iy. apply in_app_or in Iy. destruct Iy as [Iy|Iy]; [|apply in_app_or in Iy; destruct Iy as [Iy|Iy]].
        + apply Fp. rewrite <- (firstn_skipn (cand * 1) (population s)). apply in_or_app. now left.
        + destruct Iy as [<-|[]]. exact Bx.
        + apply Fp. rewrite <- (firstn_skipn (cand * 1 + 1) (population s)). apply in_or_app. now right. }
    destruct WR as (WL & WF).
    destruct (nltb NumR 3 pe).
    - rewrite set_lt by lia. cbn [bind]. destruct (nltb NumR 3 (bestEnergy s)); eexists; eexists; (split; [reflexivity|]); cbn [rng population popEnergy calls]; rewrite upd_length; auto 10.
    - eexists; eexists; (split; [reflexivity|]); cbn [rng population popEnergy calls]; auto 10. }
  destruct (@for_inv _ (fun i (s : dstate R) => rng s = (8 + 4 * i)%nat /\ length (population s) = 8%nat /\ Forall (fun x => 1 <= x <= 9) (population s) /\
     length (popEnergy s) = 8%nat /\ (0 < i -> exists v, In (v, 3%R) (calls s))%nat) (candidate_step NumR demo_draw (fun _ _ => 3) 1 c) 8
     (mkDS pop0 (repeat (BIG NumR) 8) (repeat 0 1) (BIG NumR) 8 [])) as (s1 & E1 & R1 & _ & _ & _ & C1).
  - cbn [rng population popEnergy]. rewrite repeat_length. split; [reflexivity|]. split; [exact L0|]. split; [exact F0|]. split; [reflexivity|]. lia.
  - intros i s Hi (I1 & I2 & I3 & I4 & I5). destruct (ST i s Hi I1 I2 I3 I4) as (s' & v & J1 & J2 & J3 & J4 & J5 & J6).
    exists s'. split; [exact J1|]. split; [exact J2|]. split; [exact J3|]. split; [exact J4|]. split; [exact J5|].
    intros _. exists v. rewrite J6. now left.
  - exists 5%Z, (bestSolution s1), s1. split; [exact demo_draw01|]. split.
    { intros [|j] l El Ef; [|destruct j; discriminate]. injection El as <-. cbn [lim0 lim1]. lra. }
    split; [|apply C1; lia].
    unfold DiffEvolnFit. assert (BE : bounds NumR [2] [mkLim false true true 1 9] = Ok ([1], [9], true)) by reflexivity.
    rewrite BE. cbn [bind negb]. cbv zeta. change (mkCfg (length [2]) _ _ _ _ _ _ _ _) with c. rewrite SE. cbn [bind].
    unfold Solve. cbn [generations_loop]. cbn [population popEnergy bestSolution rng calls]. change (nPop c) with 8%nat. rewrite E1. reflexivity.
Qed.
