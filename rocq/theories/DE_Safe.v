(** Differential evolution: when every index draw is in range, no array access
    is out of range. *)
From Coq Require Import ZArith List Bool Lia.
From Verif Require Import Base Num DE_Model DE_Proof DE_RealProof.
Import ListNotations.
Set Implicit Arguments. Unset Strict Implicit.

Definition safe {A} (r : res A) : Prop := match r with Undef => False | Abort => False | _ => True end.
Lemma safe_bind {A B} (x : res A) (f : A -> res B) : safe x -> (forall a, x = Ok a -> safe (f a)) -> safe (bind x f).
Proof. destruct x; cbn [bind safe]; auto. Qed.
Lemma safe_for {S} (P : nat -> S -> Prop) (f : nat -> S -> res S) n : forall s, P 0 s ->
  (forall i a, i < n -> P i a -> safe (f i a) /\ forall b, f i a = Ok b -> P (Datatypes.S i) b) -> safe (for_ n f s).
Proof.
  intros s H0 Hs. induction n as [|n IH]; [exact I|]. rewrite for_S.
  apply safe_bind. { apply IH. intros i a Hi. apply Hs. lia. }
  intros a Ea. apply Hs; [lia|]. refine (@for_ok _ P f n s a H0 _ Ea).
  intros i x y Hi Hx. apply Hs; [lia|auto].
Qed.
Lemma get_safe {A} (l : list A) i : i < length l -> safe (get l i).
Proof. intros H. destruct (@get_lt _ l i H) as (x & ->). exact I. Qed.
Lemma getZ_safe {A} (l : list A) i : (0 <= i < Z.of_nat (length l))%Z -> safe (getZ l i).
Proof. intros H. unfold getZ. destruct (Z.ltb_spec i 0); [lia|]. apply get_safe. lia. Qed.

Section Safe.
Variable T : Type.
Variable N : Num T.
Variables (draw : nat -> T) (energy : nat -> list T -> T) (interrupted : nat -> bool) (shuffled : nat -> nat -> Z) (fuel : nat).
Hypothesis index_ok : forall n k, 1 <= n -> (Z.of_nat n < 2 ^ 31)%Z ->
  exists z, rand_int N draw n k = Ok (z, S k) /\ (0 <= z < Z.of_nat n)%Z.

Section Cfg.
Variable c : config T.
Notation D := (nDim c).
Notation P := (nPop c).
Hypothesis Dsize : 1 <= D /\ (Z.of_nat D < 2 ^ 31)%Z.
Hypothesis Psize : (Z.of_nat P < 2 ^ 31)%Z.
Hypothesis lo_len : length (minBounds c) = D.
Hypothesis hi_len : length (maxBounds c) = D.

Definition shape (s : dstate T) : Prop := length (population s) = P * D /\ length (popEnergy s) = P /\ length (bestSolution s) = D.

Lemma one_safe f n avoid : 1 <= n -> (Z.of_nat n < 2 ^ 31)%Z -> forall k,
  safe (select_one N draw f n avoid k) /\ forall z k', select_one N draw f n avoid k = Ok (z, k') -> (0 <= z < Z.of_nat n)%Z.
Proof.
  intros H1 H2. induction f as [|f IH]; intros k; cbn [select_one]; [split; [exact I|discriminate]|].
  destruct (index_ok k H1 H2) as (z & -> & B). cbn [bind]. destruct (existsb (Z.eqb z) avoid); [apply IH|].
  split; [exact I|]. intros z' k' E. injection E as <- <-. exact B.
Qed.
Lemma samples_safe n : 1 <= n -> (Z.of_nat n < 2 ^ 31)%Z -> forall count avoid k,
  safe (SelectSamples N draw fuel count n avoid k) /\
  forall zs k', SelectSamples N draw fuel count n avoid k = Ok (zs, k') -> length zs = count /\ Forall (fun z => 0 <= z < Z.of_nat n)%Z zs.
Proof.
  intros H1 H2. induction count as [|count IH]; intros avoid k; cbn [SelectSamples].
  - split; [exact I|]. intros zs k' E. injection E as <- <-. auto.
  - destruct (one_safe fuel avoid H1 H2 k) as (S1 & S2). split.
    + apply safe_bind; [exact S1|]. intros (z, k1) _. apply safe_bind; [apply IH|]. intros (zs, k2) _. exact I.
    + intros zs k' E. inv2 E z k1. inv2 E zs' k2. injection E as <- <-. destruct (proj2 (IH _ _) _ _ H0) as (A & B).
      cbn [length]. split; [lia|]. constructor; eauto.
Qed.

Lemma mutant_safe pop best trial rs n : length pop = P * D -> length best = D -> length trial = D ->
  length rs = nSamples c -> Forall (fun z => 0 <= z < Z.of_nat P)%Z rs -> (0 <= n < Z.of_nat D)%Z -> safe (mutant N c pop best trial rs n).
Proof.
  intros Lp Lb Lt Lr Fr Hn.
  assert (EL : forall i, i < nSamples c -> safe (do r <- get rs i; Element c pop r n)).
  { intros i Hi. apply safe_bind; [apply get_safe; lia|]. intros r Er. apply get_some, nth_error_In in Er.
    rewrite Forall_forall in Fr. specialize (Fr r Er). unfold Element. apply getZ_safe. rewrite Lp. nia. }
  assert (GB : safe (getZ best n)) by (apply getZ_safe; lia). assert (GT : safe (getZ trial n)) by (apply getZ_safe; lia).
  unfold mutant. unfold nSamples in EL. destruct (mut c);
    repeat (apply safe_bind; [first [exact GB|exact GT|apply EL; lia]|intros ? _]); exact I.
Qed.

Lemma set_safe trial n (v : T) : length trial = D -> (0 <= n < Z.of_nat D)%Z -> exists t', setZ trial n v = Ok t' /\ length t' = D.
Proof.
  intros L H. unfold setZ. destruct (Z.ltb_spec n 0); [lia|]. rewrite set_lt by lia. eexists. split; [reflexivity|]. now rewrite upd_length.
Qed.

Lemma exp_safe pop best rs : length pop = P * D -> length best = D -> length rs = nSamples c ->
  Forall (fun z => 0 <= z < Z.of_nat P)%Z rs -> forall left n trial k, length trial = D -> (0 <= n < Z.of_nat D)%Z ->
  safe (exp_loop N draw c left pop best rs n trial k) /\
  forall t' k', exp_loop N draw c left pop best rs n trial k = Ok (t', k') -> length t' = D.
Proof.
  intros Lp Lb Lr Fr. induction left as [|left IH]; intros n trial k Lt Hn; cbn [exp_loop];
    destruct (RandomUniform N draw (nofZ N 0) (nofZ N 1) k) as (u, k1); destruct (nltb N u (probability c));
    try (split; [exact I|intros t' k' E; injection E as <- <-; exact Lt]).
  pose proof (mutant_safe Lp Lb Lt Lr Fr Hn) as MS.
  destruct (mutant N c pop best trial rs n) as [v| | |]; cbn [bind]; try (split; [exact MS|discriminate]).
  destruct (set_safe v Lt Hn) as (t1 & -> & L1). cbn [bind]. apply IH; auto. apply next_in. lia.
Qed.
Lemma bin_safe pop best rs : length pop = P * D -> length best = D -> length rs = nSamples c ->
  Forall (fun z => 0 <= z < Z.of_nat P)%Z rs -> forall left n trial k, length trial = D -> (0 <= n < Z.of_nat D)%Z ->
  safe (bin_loop N draw c left pop best rs n trial k) /\
  forall t' k', bin_loop N draw c left pop best rs n trial k = Ok (t', k') -> length t' = D.
Proof.
  intros Lp Lb Lr Fr. induction left as [|left IH]; intros n trial k Lt Hn; cbn [bin_loop].
  { split; [exact I|intros t' k' E; injection E as <- <-; exact Lt]. }
  destruct (RandomUniform N draw (nofZ N 0) (nofZ N 1) k) as (u, k1). destruct (_ || _).
  - pose proof (mutant_safe Lp Lb Lt Lr Fr Hn) as MS.
    destruct (mutant N c pop best trial rs n) as [v| | |]; cbn [bind]; try (split; [exact MS|discriminate]).
    destruct (set_safe v Lt Hn) as (t1 & -> & L1). cbn [bind]. apply IH; auto. apply next_in. lia.
  - apply IH; auto. apply next_in. lia.
Qed.

Lemma row_len' pop i : i < P -> length pop = P * D -> length (row c pop i) = D.
Proof. intros Hi L. unfold row. rewrite firstn_length, skipn_length, L. assert (i * D + D <= P * D) by nia. lia. Qed.

Lemma calc_safe s cand : shape s -> cand < P ->
  safe (CalcTrialSolution N draw fuel c s cand) /\ forall t k, CalcTrialSolution N draw fuel c s cand = Ok (t, k) -> length t = D.
Proof.
  intros (L1 & L2 & L3) Hc. unfold CalcTrialSolution.
  destruct (@samples_safe P ltac:(lia) Psize (nSamples c) [Z.of_nat cand] (rng s)) as (S1 & S2).
  destruct (SelectSamples _ _ _ _ _ _ _) as [(rs, k)| | |]; cbn [bind]; try (split; [exact S1|discriminate]).
  destruct (S2 rs k eq_refl) as (Lr & Fr).
  destruct (index_ok k (proj1 Dsize) (proj2 Dsize)) as (n & -> & B). cbn [bind].
  destruct (cross c); [apply exp_safe|apply bin_safe]; auto using row_len'.
Qed.

Lemma enforce_safe old trial k : length old = D -> length trial = D ->
  safe (enforce_bounds N draw c old trial k) /\ forall t k', enforce_bounds N draw c old trial k = Ok (t, k') -> length t = D.
Proof.
  intros Lo Lt. unfold enforce_bounds. pose (Q := fun (_ : nat) (a : list T * nat) => length (fst a) = D).
  match goal with |- context [for_ D ?f _] => assert (ST : forall i a, i < D -> Q i a -> safe (f i a) /\ forall b, f i a = Ok b -> Q (S i) b) end.
  { intros i (a, ka) Hi La. unfold Q in La. cbn [fst] in La.
    destruct (@get_lt _ a i ltac:(lia)) as (t & ->). destruct (@get_lt _ (minBounds c) i ltac:(lia)) as (lo & ->).
    destruct (@get_lt _ (maxBounds c) i ltac:(lia)) as (hi & ->). destruct (@get_lt _ old i ltac:(lia)) as (o & ->). cbn [bind].
    destruct (bring_back N draw lo hi o t ka) as (t', k1). rewrite set_lt by lia. cbn [bind]. split; [exact I|].
    intros b E. injection E as <-. unfold Q. cbn [fst]. now rewrite upd_length. }
  split.
  - refine (@safe_for _ Q _ D _ _ ST). exact Lt.
  - intros t k' E. change (Q D (t, k')). refine (@for_ok _ Q _ D (trial, k) _ Lt _ E). intros i a b Hi Qa. now apply ST.
Qed.

Lemma step_safe cand s : shape s -> cand < P ->
  safe (candidate_step N draw energy fuel c cand s) /\ forall s', candidate_step N draw energy fuel c cand s = Ok s' -> shape s'.
Proof.
  intros Sh Hc. pose proof Sh as (L1 & L2 & L3). unfold candidate_step.
  destruct (calc_safe Sh Hc) as (S1 & S2). destruct (CalcTrialSolution _ _ _ _ _ _) as [(tr, k)| | |]; cbn [bind]; try (split; [exact S1|discriminate]).
  specialize (S2 tr k eq_refl).
  destruct (@enforce_safe (row c (population s) cand) tr k (row_len' Hc L1) S2) as (S3 & S4).
  destruct (enforce_bounds _ _ _ _ _ _) as [(tr', k')| | |]; cbn [bind]; try (split; [exact S3|discriminate]).
  specialize (S4 tr' k' eq_refl). destruct (@get_lt _ (popEnergy s) cand ltac:(lia)) as (pe & ->). cbn [bind].
  destruct (nltb N _ pe).
  - rewrite set_lt by lia. cbn [bind]. destruct (nltb N _ (bestEnergy s)); (split; [exact I|]; intros s' E; injection E as <-; unfold shape; cbn [population popEnergy bestSolution];
      rewrite upd_length; repeat split; auto; unfold write_row; rewrite !app_length, firstn_length, skipn_length, L1, S4; assert (cand * D + D <= P * D) by nia; lia).
  - split; [exact I|]. intros s' E. injection E as <-. exact Sh.
Qed.

Lemma gens_safe left : forall g deltas last s, shape s -> safe (generations_loop N draw energy interrupted fuel c left g deltas last s).
Proof.
  induction left as [|left IH]; intros g deltas last s Sh; cbn [generations_loop]; [exact I|].
  apply safe_bind.
  - refine (@safe_for _ (fun _ => shape) _ P s Sh _). intros i a Hi Sa. now apply step_safe.
  - intros s1 E1. assert (S1 : shape s1).
    { refine (@for_ok _ (fun _ => shape) _ P s s1 Sh _ E1). intros i a b Hi Sa. now apply step_safe. }
    destruct (interrupted g); [exact I|]. destruct (convergence N c g deltas last (bestEnergy s1)) as ((d, l), []); [exact I|]. now apply IH.
Qed.

Lemma setup_safe useLHS k : safe (Setup N draw shuffled c useLHS k) /\ forall s, Setup N draw shuffled c useLHS k = Ok s -> shape s.
Proof.
  unfold Setup.
  match goal with |- context [for_ P ?f _] => set (F := f) end.
  pose (Q := fun i (a : list T * nat) => length (fst a) = i * D).
  assert (ST : forall i a, i < P -> Q i a -> safe (F i a) /\ forall b, F i a = Ok b -> Q (S i) b).
  { intros i (a, ka) Hi La. unfold F. unfold Q in La. cbn [fst] in La.
    pose (Q2 := fun j (a : list T * nat) => length (fst a) = i * D + j).
    match goal with |- context [for_ D ?f _] => assert (ST : forall j a, j < D -> Q2 j a -> safe (f j a) /\ forall b, f j a = Ok b -> Q2 (S j) b) end.
    { intros j (a1, k1) Hj L1. unfold Q2 in L1. cbn [fst] in L1.
      destruct (@get_lt _ (minBounds c) j ltac:(lia)) as (lo & ->). destruct (@get_lt _ (maxBounds c) j ltac:(lia)) as (hi & ->). cbn [bind].
      destruct useLHS.
      - split; [exact I|]. intros b E. injection E as <-. unfold Q2. cbn [fst]. rewrite app_length. cbn [length]. lia.
      - destruct (RandomUniform N draw lo hi k1) as (v, k2). split; [exact I|]. intros b E. injection E as <-. unfold Q2. cbn [fst]. rewrite app_length. cbn [length]. lia. }
    assert (Q0 : Q2 0 (a, ka)) by (unfold Q2; cbn [fst]; lia).
    split.
    - exact (@safe_for _ Q2 _ D _ Q0 ST).
    - intros b E. assert (X : Q2 D b) by (refine (@for_ok _ Q2 _ D _ _ Q0 _ E); intros j x y Hj Hx; now apply ST).
      unfold Q2 in X. unfold Q. lia. }
  assert (Q0 : Q 0 (@nil T, k)) by reflexivity.
  split.
  - apply safe_bind; [exact (@safe_for _ Q _ P _ Q0 ST)|]. intros (pop, k1) _. exact I.
  - intros s E. inv2 E pop k1. injection E as <-. unfold shape. cbn [population popEnergy bestSolution]. rewrite !repeat_length.
    assert (X : Q P (pop, k1)) by (refine (@for_ok _ Q _ P _ _ Q0 _ H); intros j x y Hj Hx; now apply ST). auto.
Qed.

Lemma solve_safe useLHS k s mg : Setup N draw shuffled c useLHS k = Ok s -> safe (Solve N draw energy interrupted fuel c mg s).
Proof. intros E. unfold Solve. apply gens_safe. now apply (proj2 (setup_safe useLHS k)) in E. Qed.
End Cfg.

Lemma fit_safe params lims ftol useLHS mg k : length lims = length params -> 1 <= length params -> (8 * Z.of_nat (length params) < 2 ^ 31)%Z ->
  safe (DiffEvolnFit N draw energy interrupted shuffled fuel params lims ftol useLHS mg k).
Proof.
  intros LL L1 L2. unfold DiffEvolnFit. apply safe_bind.
  - unfold bounds. pose (Q := fun (_ : nat) (_ : list T * list T * bool) => True). refine (@safe_for _ Q _ _ _ I _).
    intros i ((a, b), ok) Hi _. split; [|intros; exact I].
    destruct (@get_lt _ params i ltac:(lia)) as (p & ->). destruct (@get_lt _ lims i ltac:(lia)) as (l & ->). cbn [bind].
    destruct (fixed l); [exact I|]. destruct (_ && _)%bool; exact I.
  - intros ((los, his), ok) Eb. destruct (bounds_ok Eb) as (A1 & A2 & _). destruct ok; cbn [negb]; [|exact I]. cbv zeta.
    set (c := mkCfg _ _ _ _ _ _ _ _ _).
    assert (NF : nFree lims <= length lims). { unfold nFree. rewrite filter_length_le || (clear; induction lims as [|l ls IH]; cbn [filter length]; [lia|]; destruct (negb (fixed l)); cbn [length]; lia). }
    assert (C1 : 1 <= nDim c /\ (Z.of_nat (nDim c) < 2 ^ 31)%Z) by (cbn [nDim c]; lia).
    assert (C2 : (Z.of_nat (nPop c) < 2 ^ 31)%Z) by (unfold POP_SIZE_PER_PARAMETER in *; cbn [nPop c]; unfold POP_SIZE_PER_PARAMETER; lia).
    apply safe_bind.
    + now apply (@setup_safe c).
    + intros s Es. apply safe_bind.
      * eapply (@solve_safe c); eauto.
      * intros ((st, g), s') _. exact I.
Qed.
End Safe.
