(** Whole runs: the invariant of the loop over generations. *)
From Coq Require Import List Arith ZArith Bool Lia Permutation.
From Verif Require Import Base Num Dream_Model Dream_Spec Dream_Proof.
Import ListNotations.
Set Implicit Arguments.
Unset Strict Implicit.

Lemma at_app A (h : list (list A)) r k i : k < length h -> at_ (h ++ [r]) k i = at_ h k i.
Proof. intros H. unfold at_. now rewrite nth_error_app1. Qed.
Lemma at_last A (h : list (list A)) r i : at_ (h ++ [r]) (length h) i = nth_error r i.
Proof. unfold at_. rewrite nth_error_app2 by lia. now rewrite Nat.sub_diag. Qed.
Lemma at_ge A (h : list (list A)) k i : length h <= k -> at_ h k i = None.
Proof. intros H. unfold at_. apply nth_error_None in H. now rewrite H. Qed.
Lemma upd_same A (l : list A) : forall k x, nth_error l k = Some x -> upd l k x = l.
Proof. induction l as [|a l IH]; intros [|k] x H; simpl in *; try discriminate; [congruence|]. f_equal. auto. Qed.

Section Run.
Variables (T : Type) (N : Num T) (G : Type).
Variables (rg : rng T G) (gs : gsl T) (fn : list T -> T) (ninf : T) (fuel : nat).
Variable p : pars T.
Hypothesis ninf_eq : neqb N ninf ninf = true.
Hypothesis V1 : length (varLock p) = nvar p.
Hypothesis V2 : length (varLo p) = nvar p.
Hypothesis V3 : length (varHi p) = nvar p.
Hypothesis LS : 0 < loopSteps p.
Let n := numChains p.
Let good := respects N (varLock p) (varLo p) (varHi p).

Lemma follows_app base st lk tr row lrow trs k :
  follows N gs p fn ninf base st lk tr k -> k < length st -> k < length lk -> k - base < length tr ->
  follows N gs p fn ninf base (st ++ [row]) (lk ++ [lrow]) (tr ++ [trs]) k.
Proof.
  intros (y & ly & r & lr & E1 & E2 & L1 & L2 & HT & HO) H1 H2 H3.
  exists y, ly, r, lr. rewrite !nth_error_app1 by lia. do 4 (split; [assumption|]). split.
  - intros i Hi. destruct (HT i Hi) as (x & l & q & a & b & A1 & A2 & A3 & A4 & A5 & A6).
    exists x, l, q, a, b. rewrite !at_app by lia. do 5 (split; [assumption|]). assumption.
  - destruct HO as (O1 & O2 & O3). split; auto. split; auto.
    destruct (collapse_due N p base k); auto. destruct O3 as (means & (Hm1 & Hm2) & O3). exists means. split; [|exact O3].
    split; auto. intros i m Em. destruct (Hm2 i m Em) as (vals & (Hv1 & Hv2) & Ev). exists vals. split; auto.
    split; auto. intros q Hq. rewrite at_app; auto.
    assert (k / 2 + q < k) by lia. lia.
Qed.

(** the invariant: [base] generations existed when the loop began (with [out0] lines written), [t] exist now;
    [stopped]: the last one was found to have converged and was not written *)
Record Inv (base out0 t : nat) (stopped : bool) (s : ds T G) : Prop := {
  i_base : 1 <= base <= t /\ out0 <= base;
  i_st : length (d_st s) = t;
  i_lk : length (d_lk s) = t;
  i_tr : length (d_tr s) = t - base;
  i_rows : forall k row, nth_error (d_st s) k = Some row -> length row = n;
  i_lrows : forall k row, nth_error (d_lk s) k = Some row -> length row = n;
  i_good : forall k i x, at_ (d_st s) k i = Some x -> good x;
  i_lik : forall k i x l, at_ (d_st s) k i = Some x -> at_ (d_lk s) k i = Some l -> l = fn x;
  i_gen : stopped = false -> d_gen s = (t - base) mod loopSteps p;
  i_rel : forall k, base <= k < t -> follows N gs p fn ninf base (d_st s) (d_lk s) (d_tr s) k;
  i_out : forall lines, In lines (d_out s) -> exists k, k < t /\ length lines = n /\
     forall i o, nth_error lines i = Some o -> at_ (d_st s) k i = Some (o_par o) /\ at_ (d_lk s) k i = Some (o_lik o);
  i_rep : (report_interval p <= 1)%Z -> d_rep s = 0%Z /\
     length (d_out s) = out0 + (t - base) - (if stopped then 1 else 0) /\
     forall k lines, nth_error (d_out s) k = Some lines ->
       forall i o, nth_error lines i = Some o ->
         at_ (d_st s) (base + k - out0) i = Some (o_par o) /\ at_ (d_lk s) (base + k - out0) i = Some (o_lik o) }.

Lemma mod_step a : 0 < a -> forall b, (b mod a + 1) <? a = true -> (b + 1) mod a = b mod a + 1.
Proof.
  intros Ha b H. apply Nat.ltb_lt in H. rewrite (Nat.div_mod b a) at 1 by lia.
  rewrite <- Nat.add_assoc, Nat.mul_comm, Nat.add_comm, Nat.mod_add by lia. apply Nat.mod_small. lia.
Qed.
Lemma mod_wrap a : 0 < a -> forall b, (b mod a + 1) <? a = false -> (b + 1) mod a = 0.
Proof.
  intros Ha b H. apply Nat.ltb_ge in H. assert (Hm := Nat.mod_upper_bound b a ltac:(lia)).
  assert (E : b + 1 = a * (b / a + 1)) by (assert (Hd := Nat.div_mod b a ltac:(lia)); nia).
  rewrite E, Nat.mul_comm. apply Nat.mod_mul. lia.
Qed.

Lemma step_inv base out0 t s s' stop :
  Inv base out0 t false s -> step N rg gs fn ninf fuel p t s = Ok (s', stop) -> Inv base out0 (S t) stop s'.
Proof.
  intros I H. unfold step in H.
  apply bind_Ok in H as (((crm & L) & g1) & _ & H).
  apply bind_Ok in H as (prev & Hp & H). apply bind_Ok in H as (lprev & Hlp & H). apply get_Ok_iff in Hp, Hlp.
  apply bind_Ok in H as (((((lprev' & row) & lrow) & trs) & g2) & Hg & H).
  assert (B := i_base I).
  destruct (generation_ok ninf_eq Hg V1 V2 V3) as (El & L1 & L2 & L3 & G1 & G2 & G3).
  { exact (i_rows I Hp). } { exact (i_lrows I Hlp). }
  { intros i x E. apply (i_good I) with (k := t - 1) (i := i). unfold at_. now rewrite Hp. }
  { intros i x l E E'. apply (i_lik I) with (k := t - 1) (i := i); unfold at_; now rewrite ?Hp, ?Hlp. }
  subst lprev'. rewrite (upd_same Hlp) in H.
  apply bind_Ok in H as (dtot & _ & H).
  apply bind_Ok in H as ((((((((gen' & steps) & pcr) & row') & lrow') & b') & sr) & stop') & Hz & H).
  apply bind_Ok in H as (lines & Hlines & H). apply Ok_inj in H. injection H as <- <-.
  assert (Lp := i_rows I Hp). assert (Llp := i_lrows I Hlp).
  set (due := (loopSteps p <=? d_gen s + 1)) in *.
  assert (Hdue : due = ((t - base + 1) mod loopSteps p =? 0)).
  { unfold due. rewrite (i_gen I eq_refl). destruct ((t - base) mod loopSteps p + 1 <? loopSteps p) eqn:E.
    - rewrite (mod_step LS E). apply Nat.ltb_lt in E.
      transitivity false; [|symmetry]; [apply Nat.leb_gt; lia|apply Nat.eqb_neq; lia].
    - rewrite (mod_wrap LS E). apply Nat.ltb_ge in E.
      transitivity true; [|symmetry]; [apply Nat.leb_le; lia|reflexivity]. }
  assert (HO : outliers_moved N gs p base t (d_lk s) row row' lrow lrow' /\
               (stop' = false -> gen' = (S t - base) mod loopSteps p)).
  { unfold outliers_moved, collapse_due. rewrite <- Hdue.
    replace (S t - base) with (t - base + 1) by lia.
    destruct due eqn:Ed.
    - apply bind_Ok in Hz as ((st0 & pc0) & _ & Hz).
      apply bind_Ok in Hz as (((rw & lw) & b1) & Hc & Hz).
      apply bind_Ok in Hz as (((b2 & sr2) & stop2) & _ & Hz). apply Ok_inj in Hz. injection Hz as <- <- <- <- <- <- <- <-.
      split; [|intros _; symmetry; apply Nat.eqb_eq; congruence].
      cbn [andb]. apply (collapse_ok Hc); auto.
    - apply Ok_inj in Hz. injection Hz as <- <- <- <- <- <- <- <-. cbn [andb].
      split; [auto|]. intros _. rewrite (i_gen I eq_refl). symmetry. apply mod_step; auto.
      apply Nat.ltb_lt. unfold due in Ed. apply Nat.leb_gt in Ed. rewrite (i_gen I eq_refl) in Ed. lia. }
  destruct HO as [HO Hgen].
  assert (Lr' : length row' = n) by (destruct HO; fold n in L1; congruence).
  assert (Llr' : length lrow' = n) by (destruct HO as (_ & ? & _); fold n in L2; congruence).
  (* every element of the new row is an element of the row before the outliers were moved *)
  assert (Hfrom : forall i x l, nth_error row' i = Some x -> nth_error lrow' i = Some l ->
            exists k, nth_error row k = Some x /\ nth_error lrow k = Some l).
  { intros i x l Ex Elx. destruct HO as (_ & _ & HO). destruct (collapse_due N p base t).
    - destruct HO as (means & (Hm1 & _) & HO). destruct (@nth_error_ex _ means i) as (m & Em).
      { apply nth_error_lt in Ex. fold n in Hm1. lia. }
      destruct (HO i m Em) as [O1 O2]. rewrite O1 in Ex. rewrite O2 in Elx. eauto.
    - destruct HO as [-> ->]. eauto. }
  assert (Hfrom1 : forall i x, nth_error row' i = Some x -> exists k l, nth_error row k = Some x /\ nth_error lrow k = Some l /\ nth_error lrow' i = Some l).
  { intros i x Ex. destruct (@nth_error_ex _ lrow' i) as (l & E); [apply nth_error_lt in Ex; lia|].
    destruct (Hfrom i x l Ex E) as (k & ? & ?). eauto. }
  assert (LI := i_st I). assert (LK := i_lk I). assert (LT := i_tr I).
  destruct (each_Ok Hlines) as [Lli Qli].
  assert (Hli : forall i o, nth_error lines i = Some o -> nth_error row' i = Some (o_par o) /\ nth_error lrow' i = Some (o_lik o)).
  { intros i o E. assert (F := each_nth Hlines E). cbn in F.
    apply bind_Ok in F as (x & Fx & F). apply bind_Ok in F as (l & Fl & F). apply bind_Ok in F as (q & Fq & F).
    apply Ok_inj in F. subst o. cbn. apply get_Ok_iff in Fx, Fl. auto. }
  split; cbn [d_st d_lk d_tr d_gen d_out d_rep]; rewrite ?app_length; cbn [length]; try lia.
  - intros k r E. destruct (lt_dec k t) as [Hk|Hk].
    + rewrite nth_error_app1 in E by lia. exact (i_rows I E).
    + assert (k = t). { apply nth_error_lt in E. rewrite app_length in E. cbn in E. lia. } subst k.
      rewrite nth_error_app2, LI, Nat.sub_diag in E by lia. cbn in E. congruence.
  - intros k r E. destruct (lt_dec k t) as [Hk|Hk].
    + rewrite nth_error_app1 in E by lia. exact (i_lrows I E).
    + assert (k = t). { apply nth_error_lt in E. rewrite app_length in E. cbn in E. lia. } subst k.
      rewrite nth_error_app2, LK, Nat.sub_diag in E by lia. cbn in E. congruence.
  - intros k i x E. destruct (lt_dec k t) as [Hk|Hk].
    + rewrite at_app in E by lia. exact (i_good I E).
    + destruct (Nat.eq_dec k t) as [->|].
      * rewrite <- LI, at_last in E. destruct (Hfrom1 i x E) as (q & l & E1 & _). exact (G1 q x E1).
      * rewrite at_ge in E; [discriminate|rewrite app_length; cbn; lia].
  - intros k i x l E E'. destruct (lt_dec k t) as [Hk|Hk].
    + rewrite at_app in E, E' by lia. exact (i_lik I E E').
    + destruct (Nat.eq_dec k t) as [->|].
      * rewrite <- LI, at_last in E. rewrite <- LK, at_last in E'.
        destruct (Hfrom i x l E E') as (q & E1 & E2). exact (G2 q x l E1 E2).
      * rewrite at_ge in E; [discriminate|rewrite app_length; cbn; lia].
  - auto.
  - intros k Hk. destruct (lt_dec k t) as [Hk'|Hk'].
    + apply follows_app; try lia. apply (i_rel I). lia.
    + assert (k = t) by lia. subst k.
      exists row, lrow, row', lrow'.
      split. { rewrite nth_error_app2, LI, Nat.sub_diag by lia. reflexivity. }
      split. { rewrite nth_error_app2, LK, Nat.sub_diag by lia. reflexivity. }
      do 2 (split; [assumption|]). split.
      * intros i Hi. fold n in Hi. destruct (@nth_error_ex _ prev i) as (x & E1); [lia|].
        destruct (@nth_error_ex _ lprev i) as (l & E2); [lia|].
        fold n in L1, L2, L3.
        destruct (@nth_error_ex _ trs i) as (q & E3); [lia|].
        destruct (@nth_error_ex _ row i) as (a & E4); [lia|]. destruct (@nth_error_ex _ lrow i) as (b & E5); [lia|].
        exists x, l, q, a, b. rewrite !at_app by lia.
        split. { unfold at_. now rewrite Hp. } split. { unfold at_. now rewrite Hlp. }
        split. { rewrite <- LT, at_last. exact E3. }
        do 2 (split; [assumption|]). exact (G3 i x l q a b E1 E2 E3 E4 E5).
      * destruct HO as (O1 & O2 & O3). split; auto. split; auto.
        destruct (collapse_due N p base t); auto. destruct O3 as (means & (Hm1 & Hm2) & O3). exists means. split; [|exact O3].
        split; auto. intros i m Em. destruct (Hm2 i m Em) as (vals & (Hv1 & Hv2) & Ev). exists vals. split; auto.
        split; auto. intros q Hq. rewrite at_app; auto. assert (t / 2 + q < t) by lia. lia.
  - intros ls Hin.
    assert (In ls (d_out s) \/ ls = lines) as [Hin'|El'].
    { destruct (negb stop' && (report_interval p <=? d_rep s + 1)%Z)%bool; [|auto]. apply in_app_or in Hin. destruct Hin as [Hin|[Hin|Hin]]; [auto|auto|destruct Hin]. }
    + destruct (i_out I Hin') as (k & Hk & Hl & Ho). exists k. split; [lia|]. split; auto.
      intros i o E. rewrite !at_app by lia. auto.
    + subst ls. exists t. split; [lia|]. split; [auto|]. intros i o E.
      split; [rewrite <- LI|rewrite <- LK]; rewrite at_last; apply (Hli i o E).
  - intros HR. destruct (i_rep I HR) as (R1 & R2 & R3). rewrite Nat.sub_0_r in R2. rewrite R1.
    destruct (report_interval p <=? 0 + 1)%Z eqn:Er; [|apply Z.leb_gt in Er; lia].
    rewrite andb_true_r. destruct stop'; cbn [negb].
    + split; [reflexivity|]. split; [lia|]. intros k ls E i o Eo.
      assert (k < length (d_out s)) by (apply nth_error_lt in E; exact E).
      rewrite !at_app by lia. exact (R3 k ls E i o Eo).
    + split; [reflexivity|]. rewrite app_length. cbn [length]. split; [lia|]. intros k ls E i o Eo.
      destruct (lt_dec k (length (d_out s))) as [Hk|Hk].
      * rewrite nth_error_app1 in E by lia. rewrite !at_app by lia. exact (R3 k ls E i o Eo).
      * assert (k = length (d_out s)). { apply nth_error_lt in E. rewrite app_length in E. cbn in E. lia. }
        rewrite nth_error_app2 in E by lia. replace (k - length (d_out s)) with 0 in E by lia. cbn in E. injection E as <-.
        replace (base + k - out0) with t by lia. split; [rewrite <- LI|rewrite <- LK]; rewrite at_last; apply (Hli i o Eo).
Qed.

Lemma generations_inv base out0 m : forall t s s' c,
  Inv base out0 t false s -> generations N rg gs fn ninf fuel p m t s = Ok (s', c) ->
  exists t', t <= t' <= t + m /\ Inv base out0 t' c s' /\ (c = false -> t' = t + m).
Proof.
  induction m as [|m IH]; intros t s s' c I H; simpl in H.
  - apply Ok_inj in H. injection H as <- <-. exists t. split; [lia|]. split; [auto|lia].
  - apply bind_Ok in H as ((s1 & stop) & Hs & H). assert (I1 := step_inv I Hs).
    destruct stop.
    + apply Ok_inj in H. injection H as <- <-. exists (S t). split; [lia|]. split; [auto|discriminate].
    + destruct (IH _ _ _ _ I1 H) as (t' & Ht & I' & Hc). exists t'. split; [lia|]. split; auto.
      intros E. specialize (Hc E). lia.
Qed.
(** ---- the start of a new run ---- *)
Hypothesis irr : forall x, nltb N x x = false.
Hypothesis ordered : forall j l h, nth_error (varLo p) j = Some l -> nth_error (varHi p) j = Some h -> nltb N h l = false.

Lemma clamp_ok x lo hi : nltb N hi lo = false -> nltb N (clamp N x lo hi) lo = false /\ nltb N hi (clamp N x lo hi) = false.
Proof.
  intros H. unfold clamp. destruct (nltb N x lo) eqn:E1; [auto|]. destruct (nltb N hi x) eqn:E2; auto.
Qed.
Lemma clamp_locked lo hi : nltb N hi lo = false -> clamp N lo lo hi = lo.
Proof. intros H. unfold clamp. now rewrite irr, H. Qed.

(** a vector drawn parameter by parameter, each clamped *)
Lemma drawn_good (f : nat -> G -> res (T * G)) g x g' :
  collect 0 (nvar p) f g = Ok (x, g') ->
  (forall j s v s', j < nvar p -> f j s = Ok (v, s') ->
     exists b lo hi, nth_error (varLock p) j = Some b /\ nth_error (varLo p) j = Some lo /\ nth_error (varHi p) j = Some hi /\
       if b then v = clamp N lo lo hi else exists w, v = clamp N w lo hi) ->
  good x.
Proof.
  intros H Hf.
  assert (HC := fun H0 => @collect_Ok _ _ (fun _ _ => True)
    (fun j v => j < nvar p /\ exists b lo hi, nth_error (varLock p) j = Some b /\ nth_error (varLo p) j = Some lo /\ nth_error (varHi p) j = Some hi /\
       if b then v = clamp N lo lo hi else exists w, v = clamp N w lo hi) _ _ _ _ _ _ I H0 H).
  destruct HC as (_ & L & Q).
  { intros j s v s' Hj _ E. split; auto. split; [lia|]. apply (Hf j s v s'); [lia|auto]. }
  split; [congruence|]. intros j b l h v E1 E2 E3 E4.
  destruct (Q j v E4) as (_ & b' & lo & hi & F1 & F2 & F3 & F4).
  simpl in F1, F2, F3. rewrite E1 in F1. rewrite E2 in F2. rewrite E3 in F3.
  injection F1 as <-; injection F2 as <-; injection F3 as <-.
  destruct b; [rewrite F4; apply clamp_locked; eauto|]. destruct F4 as (w & ->). apply clamp_ok; eauto.
Qed.

Lemma resample_ok f : forall x l g x' l' g',
  resample N rg fn ninf p f x l g = Ok (x', l', g') -> good x -> (l = fn x \/ l = ninf) ->
  good x' /\ l' = fn x' /\ neqb N l' ninf = false /\ neqb N l' l' = true.
Proof.
  induction f as [|f IH]; intros x l g x' l' g' H Hg Hl; simpl in H;
    destruct (neqb N l ninf || negb (neqb N l l))%bool eqn:E; try discriminate.
  - apply Ok_inj in H. injection H as <- <- <-. apply orb_false_elim in E as [E1 E2]. apply negb_false_iff in E2.
    destruct Hl as [Hl|Hl]; auto. rewrite Hl in E1; congruence.
  - apply bind_Ok in H as ((y & g1) & Hy & H). apply (IH _ _ _ _ _ _ H); auto.
    apply (drawn_good Hy). intros j s v s' Hj Ej.
    apply bind_Ok in Ej as (b & Eb & Ej). apply bind_Ok in Ej as (lo & Elo & Ej). apply bind_Ok in Ej as (hi & Ehi & Ej).
    apply get_Ok_iff in Eb, Elo, Ehi. exists b, lo, hi. do 3 (split; [assumption|]).
    destruct b; [apply Ok_inj in Ej; congruence|]. destruct (uniform N rg s) as [u g2]. apply Ok_inj in Ej.
    injection Ej as <- _. eauto.
  - apply Ok_inj in H. injection H as <- <- <-. apply orb_false_elim in E as [E1 E2]. apply negb_false_iff in E2.
    destruct Hl as [Hl|Hl]; auto. rewrite Hl in E1; congruence.
Qed.

Lemma initialize_ok g rows liks g' : dream_initialize N rg fn ninf fuel p g = Ok (rows, liks, g') ->
  length rows = n /\ length liks = n /\
  (forall i x, nth_error rows i = Some x -> good x) /\
  (forall i x l, nth_error rows i = Some x -> nth_error liks i = Some l -> l = fn x /\ neqb N l ninf = false /\ neqb N l l = true).
Proof.
  unfold dream_initialize. intros H.
  apply bind_Ok in H as ((samples & g1) & _ & H).
  apply bind_Ok in H as ((rows0 & g2) & Hb & H).
  apply bind_Ok in H as (liks0 & Hl & H).
  apply bind_Ok in H as ((final & g3) & Hc & H). apply Ok_inj in H. injection H as <- <- <-.
  assert (HB := fun H0 => @collect_Ok _ _ (fun _ _ => True) (fun _ x => good x) _ _ _ _ _ _ I H0 Hb).
  destruct HB as (_ & Lb & Qb).
  { intros i s x s' _ _ E. split; auto. apply (drawn_good E). intros j s1 v s1' Hj Ej.
    apply bind_Ok in Ej as (b & Eb & Ej). apply bind_Ok in Ej as (lo & Elo & Ej). apply bind_Ok in Ej as (hi & Ehi & Ej).
    apply get_Ok_iff in Eb, Elo, Ehi. exists b, lo, hi. do 3 (split; [assumption|]).
    destruct b; [apply Ok_inj in Ej; congruence|]. destruct (uniform N rg s1) as [u g4].
    apply bind_Ok in Ej as (sj & _ & Ej). apply bind_Ok in Ej as (z & _ & Ej). apply Ok_inj in Ej. injection Ej as <- _. eauto. }
  assert (Hlik : forall i x l, nth_error rows0 i = Some x -> nth_error liks0 i = Some l -> l = fn x \/ l = ninf).
  { intros i x l E1 E2. assert (F := each_nth Hl E2). cbn in F. unfold get in F. rewrite E1 in F. cbn in F.
    apply bind_Ok in F as (ok & _ & F). apply Ok_inj in F. destruct ok; auto. }
  assert (HC := fun H0 => @collect_Ok _ _ (fun _ _ => True)
    (fun _ (q : list T * T) => good (fst q) /\ snd q = fn (fst q) /\ neqb N (snd q) ninf = false /\ neqb N (snd q) (snd q) = true)
     _ _ _ _ _ _ I H0 Hc).
  destruct HC as (_ & Lc & Qc).
  { intros i s q s' _ _ E. split; auto.
    apply bind_Ok in E as (x & Ex & E). apply bind_Ok in E as (l & El & E). apply get_Ok_iff in Ex, El.
    apply bind_Ok in E as (((x' & l') & g4) & Er & E). apply Ok_inj in E. injection E as <- _. cbn.
    apply (resample_ok Er); [exact (Qb i x Ex)|exact (Hlik i x l Ex El)]. }
  rewrite !map_length. do 2 (split; [assumption|]). split.
  - intros i x E. rewrite nth_error_map in E. destruct (nth_error final i) as [q|] eqn:Eq; [|discriminate].
    cbn in E. injection E as <-. apply (Qc i q Eq).
  - intros i x l E E'. rewrite nth_error_map in E, E'. destruct (nth_error final i) as [q|] eqn:Eq; [|discriminate].
    cbn in E, E'. injection E as <-. injection E' as <-. apply (Qc i q Eq).
Qed.

Lemma at_one A (r : list A) k i x : at_ [r] k i = Some x -> k = 0 /\ nth_error r i = Some x.
Proof. unfold at_. destruct k as [|[|k]]; cbn; try discriminate. auto. Qed.

Lemma new_inv g code s : dream_new N rg gs fn ninf fuel p g = Ok (code, s) ->
  exists t c, 1 <= t /\ Inv 1 1 t c s /\ code = exit_code c /\ (c = false -> t = Nat.max 1 (maxEvals p)) /\ t <= Nat.max 1 (maxEvals p).
Proof.
  unfold dream_new. intros H. apply bind_Ok in H as (((row & lrow) & g1) & Hi & H).
  apply bind_Ok in H as (lines & Hl & H). apply bind_Ok in H as ((s' & c) & Hg & H).
  apply Ok_inj in H. injection H as <- <-.
  destruct (initialize_ok Hi) as (L1 & L2 & Q1 & Q2).
  assert (Hli : forall i o, nth_error lines i = Some o -> nth_error row i = Some (o_par o) /\ nth_error lrow i = Some (o_lik o)).
  { intros i o E. assert (F := each_nth Hl E). cbn in F.
    apply bind_Ok in F as (x & Fx & F). apply bind_Ok in F as (l & Fl & F).
    apply Ok_inj in F. subst o. cbn. apply get_Ok_iff in Fx, Fl. auto. }
  destruct (each_Ok Hl) as [Ll _].
  match type of Hg with generations _ _ _ _ _ _ _ _ _ ?s0 = _ => assert (I0 : Inv 1 1 1 false s0) end.
  { split; cbn [start d_st d_lk d_tr d_gen d_out d_rep length]; auto.
    - intros [|[|k]] r E; cbn in E; try discriminate. congruence.
    - intros [|[|k]] r E; cbn in E; try discriminate. congruence.
    - intros k i x E. apply at_one in E as [-> E]. eauto.
    - intros k i x l E E'. apply at_one in E as [-> E]. apply at_one in E' as [_ E']. apply (Q2 i x l E E').
    - intros _. symmetry. apply Nat.mod_0_l. lia.
    - intros; lia.
    - intros ls [<-|[]]. exists 0. split; [lia|]. split; [auto|]. intros i o E. unfold at_; cbn. auto.
    - intros _. split; auto. split; auto. intros [|k] ls E; [|destruct k; discriminate].
      injection E as <-. intros i o Eo. unfold at_; cbn. auto. }
  destruct (generations_inv I0 Hg) as (t & Ht & It & Hc).
  exists t, c. split; [lia|]. split; [auto|]. split; [auto|]. split; [|lia]. intros E. specialize (Hc E). lia.
Qed.
End Run.
