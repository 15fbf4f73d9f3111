From Coq Require Import List Arith ZArith Bool Lia Permutation.
From Verif Require Import Base Num Dream_Model Dream_Spec.
Import ListNotations.
Set Implicit Arguments.
Unset Strict Implicit.

(** ---- rows ---- *)
Lemma each_Ok A (f : nat -> res A) n : forall k l, each k n f = Ok l ->
  length l = n /\ forall i, i < n -> exists a, nth_error l i = Some a /\ f (k + i) = Ok a.
Proof.
  induction n as [|n IH]; intros k l H; simpl in H.
  - apply Ok_inj in H; subst. split; auto. intros; lia.
  - apply bind_Ok in H as (a & Ha & H). apply bind_Ok in H as (l' & Hl & H). apply Ok_inj in H; subst.
    destruct (IH _ _ Hl) as [L1 L2]. split; [simpl; lia|].
    intros [|i] Hi; simpl.
    + exists a. rewrite Nat.add_0_r; auto.
    + destruct (L2 i) as (b & E1 & E2); [lia|]. exists b. split; auto. rewrite <- E2. f_equal; lia.
Qed.
Lemma each_total A (f : nat -> res A) n : forall k,
  (forall i, i < n -> exists a, f (k + i) = Ok a) -> exists l, each k n f = Ok l.
Proof.
  induction n as [|n IH]; intros k H; simpl; eauto.
  destruct (H 0) as (a & Ea); [lia|]. rewrite Nat.add_0_r in Ea. rewrite Ea; simpl.
  destruct (IH (S k)) as (l & El).
  - intros i Hi. destruct (H (S i)) as (b & Eb); [lia|]. exists b. rewrite <- Eb; f_equal; lia.
  - rewrite El; simpl; eauto.
Qed.
Lemma each_ext A (f g : nat -> res A) n : forall k,
  (forall i, i < n -> f (k + i) = g (k + i)) -> each k n f = each k n g.
Proof.
  induction n as [|n IH]; intros k H; simpl; auto.
  assert (E0 := H 0). rewrite Nat.add_0_r in E0. rewrite E0 by lia.
  destruct (g k); simpl; auto. rewrite (IH (S k)); auto.
  intros i Hi. replace (S k + i) with (k + S i) by lia. apply H; lia.
Qed.
Lemma each_nth A (f : nat -> res A) k n l i a : each k n f = Ok l -> nth_error l i = Some a -> f (k + i) = Ok a.
Proof.
  intros H E. destruct (each_Ok H) as [L1 L2].
  assert (i < n) by (rewrite <- L1; apply nth_error_Some; congruence).
  destruct (L2 i) as (b & E1 & E2); auto. congruence.
Qed.

Lemma collect_Ok A S (P : nat -> S -> Prop) (Q : nat -> A -> Prop) (f : nat -> S -> res (A * S)) n : forall k s l s',
  P k s ->
  (forall i s a s', k <= i < k + n -> P i s -> f i s = Ok (a, s') -> P (Datatypes.S i) s' /\ Q i a) ->
  collect k n f s = Ok (l, s') ->
  P (k + n) s' /\ length l = n /\ forall i a, nth_error l i = Some a -> Q (k + i) a.
Proof.
  induction n as [|n IH]; intros k s l s' HP Hf H; simpl in H.
  - apply Ok_inj in H. injection H as <- <-. rewrite Nat.add_0_r. repeat split; auto.
    intros [|i] a E; discriminate.
  - apply bind_Ok in H as ((a & s1) & Ha & H). apply bind_Ok in H as ((l1 & s2) & Hl & H).
    apply Ok_inj in H. injection H as <- <-.
    destruct (Hf k s a s1) as [P1 Q1]; [lia|auto|auto|].
    destruct (IH (Datatypes.S k) s1 l1 s2) as (P2 & L & Q2); auto.
    { intros i t b t' Hi. apply Hf. lia. }
    replace (k + Datatypes.S n) with (Datatypes.S k + n) by lia. repeat split; auto; [simpl; lia|].
    intros [|i] b E; simpl in E.
    + injection E as <-. now rewrite Nat.add_0_r.
    + specialize (Q2 _ _ E). now replace (k + Datatypes.S i) with (Datatypes.S k + i) by lia.
Qed.
Lemma collect_total A S (P : nat -> S -> Prop) (Q : nat -> A -> Prop) (f : nat -> S -> res (A * S)) n : forall k s,
  P k s ->
  (forall i s, k <= i < k + n -> P i s -> exists a s', f i s = Ok (a, s') /\ P (Datatypes.S i) s' /\ Q i a) ->
  exists l s', collect k n f s = Ok (l, s') /\
    P (k + n) s' /\ length l = n /\ forall i a, nth_error l i = Some a -> Q (k + i) a.
Proof.
  intros k s HP Hf.
  assert (exists l s', collect k n f s = Ok (l, s')) as (l & s' & E).
  { revert k s HP Hf. induction n as [|n IH]; intros k s HP Hf; simpl; eauto.
    destruct (Hf k s) as (a & s1 & E1 & P1 & Q1); [lia|auto|]. rewrite E1; simpl.
    destruct (IH (Datatypes.S k) s1) as (l & s2 & E2); auto.
    { intros i t Hi. apply Hf. lia. }
    rewrite E2; simpl; eauto. }
  exists l, s'. split; auto.
  apply (@collect_Ok A S P Q f n k s l s'); auto.
  intros i t a t' Hi Pt Et. destruct (Hf i t) as (b & t2 & E2 & P2 & Q2); auto.
  rewrite E2 in Et. injection Et as -> ->. auto.
Qed.

Lemma nth_error_eq A (l l' : list A) : (forall i, nth_error l i = nth_error l' i) -> l = l'.
Proof.
  revert l'. induction l as [|a l IH]; intros [|b l'] H; auto.
  - specialize (H 0); discriminate.
  - specialize (H 0); discriminate.
  - assert (H0 := H 0); simpl in H0. injection H0 as ->. f_equal. apply IH. intros i. apply (H (S i)).
Qed.
Lemma nth_error_lt A (l : list A) i a : nth_error l i = Some a -> i < length l.
Proof. intros H. apply nth_error_Some. congruence. Qed.
Lemma nth_error_ex A (l : list A) i : i < length l -> exists a, nth_error l i = Some a.
Proof. intros H. destruct (nth_error l i) eqn:E; eauto. apply nth_error_None in E. lia. Qed.

Section Proof.
Variables (T : Type) (N : Num T) (G : Type).
Variables (rg : rng T G) (gs : gsl T) (fn : list T -> T) (ninf : T) (fuel : nat).
Variable p : pars T.

(** ---- proposals ---- *)

Lemma propose_ok t prev crm gen i g pr dim g' cur :
  propose N rg fuel p t prev crm gen i g = Ok (pr, dim, g') -> nth_error prev i = Some cur ->
  length pr = nvar p /\
  (forall j, nth_error (varLock p) j = Some true -> j < nvar p -> nth_error pr j = nth_error cur j) /\
  ((dim <= 0)%Z -> length cur = nvar p -> pr = cur).
Proof.
  unfold propose. intros H Hc.
  apply bind_Ok in H as ((delta & g1) & _ & H).
  apply bind_Ok in H as (c & Hc' & H). apply get_Ok_iff in Hc'. rewrite Hc in Hc'. injection Hc' as <-.
  apply bind_Ok in H as ((pairs & g2) & _ & H).
  apply bind_Ok in H as ((upd & (g3 & dim')) & Hu & H).
  assert (Hupd : forall j, j < nvar p -> nth_error (varLock p) j = Some true -> nth_error upd j = Some None).
  { assert (HC := fun H0 => @collect_Ok _ _ (fun _ _ => True) (fun j o => nth_error (varLock p) j = Some true -> o = None)
       _ _ _ _ _ _ I H0 Hu).
    destruct HC as (_ & L & Q).
    - intros j s o s' _ _ Ho. split; auto. intros Hl. unfold draw_par in Ho. destruct s as [gg dd].
      unfold get in Ho at 1. rewrite Hl in Ho. cbn in Ho. apply Ok_inj in Ho. congruence.
    - intros j Hj Hl. destruct (@nth_error_ex _ upd j) as (o & Ho); [lia|]. rewrite Ho. f_equal.
      exact (Q j o Ho Hl). }
  destruct (0 <? dim')%Z eqn:Ed.
  - apply bind_Ok in H as (pr' & Hpr & H). apply Ok_inj in H. injection H as <- <- <-.
    destruct (each_Ok Hpr) as [L1 L2]. split; [auto|]. split.
    + intros j Hl Hj. destruct (L2 j Hj) as (v & E1 & E2). rewrite E1.
      simpl in E2. apply bind_Ok in E2 as (x & Ex & E2). apply get_Ok_iff in Ex. rewrite Ex.
      apply bind_Ok in E2 as (o & Eo & E2). apply get_Ok_iff in Eo. rewrite (Hupd j Hj Hl) in Eo.
      injection Eo as <-. apply Ok_inj in E2. congruence.
    + intros Hd _. apply Z.ltb_lt in Ed. lia.
  - apply bind_Ok in H as (pr' & Hpr & H). apply Ok_inj in H. injection H as <- <- <-.
    destruct (each_Ok Hpr) as [L1 L2].
    assert (E : forall j, j < nvar p -> nth_error pr' j = nth_error cur j).
    { intros j Hj. destruct (L2 j Hj) as (v & E1 & E2). rewrite E1. apply get_Ok_iff in E2. auto. }
    split; [auto|]. split; [auto|].
    intros _ Hcur. apply nth_error_eq. intros j.
    destruct (lt_dec j (nvar p)) as [Hj|Hj]; auto.
    transitivity (@None T); [|symmetry]; apply nth_error_None; lia.
Qed.

(** ---- the test against the limits ---- *)

Lemma inside_false x b : inside N p false x = Ok b -> length x = nvar p ->
  length (varLock p) = nvar p -> length (varLo p) = nvar p -> length (varHi p) = nvar p ->
  (forall j l v, nth_error (varLock p) j = Some true -> nth_error (varLo p) j = Some l ->
     nth_error x j = Some v -> v = l) ->
  (b = true -> respects N (varLock p) (varLo p) (varHi p) x) /\
  (b = false -> ~ respects N (varLock p) (varLo p) (varHi p) x).
Proof.
  intros H Lx L1 L2 L3 Hlock. unfold inside in H.
  set (ok j := forall bb l h v, nth_error (varLock p) j = Some bb -> nth_error (varLo p) j = Some l ->
     nth_error (varHi p) j = Some h -> nth_error x j = Some v ->
     if bb then v = l else nltb N v l = false /\ nltb N h v = false).
  assert (HI := fun A B => @for_ok bool (fun j r => if r then forall k, k < j -> ok k else exists k, ~ ok k) _ _ _ _ A B H).
  cbv beta in HI.
  assert (HH : if b then forall k, k < nvar p -> ok k else exists k, ~ ok k).
  { apply HI.
    - intros k Hk; lia.
    - intros j r r' Hj HP E. destruct r; [|apply Ok_inj in E; subst; exact HP].
      apply bind_Ok in E as (lk & El & E). apply get_Ok_iff in El.
      destruct lk; cbn in E.
      + apply Ok_inj in E; subst r'. intros k Hk. destruct (Nat.eq_dec k j) as [->|]; [|apply HP; lia].
        intros bb l h v E1 E2 E3 E4. rewrite El in E1. injection E1 as <-. eapply Hlock; eauto.
      + apply bind_Ok in E as (v & Ev & E). apply bind_Ok in E as (lo & Elo & E). apply bind_Ok in E as (hi & Ehi & E).
        apply get_Ok_iff in Ev, Elo, Ehi. apply Ok_inj in E; subst r'.
        destruct (nltb N v lo) eqn:E1; cbn; [|destruct (nltb N hi v) eqn:E2; cbn].
        * exists j. intros C. specialize (C _ _ _ _ El Elo Ehi Ev). cbn in C. destruct C; congruence.
        * exists j. intros C. specialize (C _ _ _ _ El Elo Ehi Ev). cbn in C. destruct C; congruence.
        * intros k Hk. destruct (Nat.eq_dec k j) as [->|]; [|apply HP; lia].
          intros bb l h w F1 F2 F3 F4. rewrite El in F1. injection F1 as <-.
          rewrite Elo in F2; rewrite Ehi in F3; rewrite Ev in F4.
          injection F2 as <-; injection F3 as <-; injection F4 as <-. auto. }
  split; intros ->.
  - split; [congruence|]. intros j bb l h v E1 E2 E3 E4. assert (Hj : j < nvar p) by (apply nth_error_lt in E4; lia). exact (HH j Hj bb l h v E1 E2 E3 E4).
  - intros [_ C]. destruct HH as (k & Hk). apply Hk. intros bb l h v. apply C.
Qed.

(** ---- a generation ---- *)

Hypothesis ninf_eq : neqb N ninf ninf = true.
Let good := respects N (varLock p) (varLo p) (varHi p).
Let trans_ok := transition N (varLock p) (varLo p) (varHi p) fn ninf.

Lemma accept_ok cur pr dim lp ln (g : G) x l tr g' :
  accept N rg ninf cur pr dim lp ln g = (x, l, tr, g') ->
  (ln = fn pr \/ (~ good pr /\ ln = ninf)) ->
  trans_ok cur lp tr x l /\ tr_prop tr = pr /\
  ((x = cur /\ l = lp) \/ (x = pr /\ l = ln /\ neqb N ln ninf = false)).
Proof.
  unfold accept. intros H Hn.
  destruct (neqb N ln ninf) eqn:E1; [|destruct (nleb N lp ln) eqn:E2].
  - injection H as <- <- <- <-. cbn. split; [|auto]. unfold trans_ok, transition, drawn_when_needed, metropolis; cbn.
    repeat split; auto; try congruence; try tauto. intros [C _]; congruence.
  - injection H as <- <- <- <-. cbn. split; [|auto]. unfold trans_ok, transition, drawn_when_needed, metropolis; cbn.
    repeat split; auto; try congruence; tauto.
  - destruct (uniform N rg g) as [u g1]. destruct (nltb N (nlog N u) (nsub N ln lp)) eqn:E3; injection H as <- <- <- <-; cbn.
    + split; [|auto]. unfold trans_ok, transition, drawn_when_needed, metropolis; cbn.
      repeat split; auto; try discriminate; [|right; eauto].
      intros [C|C]; congruence.
    + split; [|auto]. unfold trans_ok, transition, drawn_when_needed, metropolis; cbn.
      repeat split; auto; try discriminate.
      * intros [C|C]; congruence.
      * intros [_ [C|(v & C1 & C2)]]; congruence.
Qed.

Lemma generation_ok t prev lprev crm gen inb g lprev' row lrow trs g' :
  generation N rg fn ninf fuel p t prev lprev crm gen inb g = Ok (lprev', row, lrow, trs, g') ->
  length (varLock p) = nvar p -> length (varLo p) = nvar p -> length (varHi p) = nvar p ->
  length prev = numChains p -> length lprev = numChains p ->
  (forall i x, nth_error prev i = Some x -> good x) ->
  (forall i x l, nth_error prev i = Some x -> nth_error lprev i = Some l -> l = fn x) ->
  lprev' = lprev /\ length row = numChains p /\ length lrow = numChains p /\ length trs = numChains p /\
  (forall i x, nth_error row i = Some x -> good x) /\
  (forall i x l, nth_error row i = Some x -> nth_error lrow i = Some l -> l = fn x) /\
  (forall i x l tr y ly, nth_error prev i = Some x -> nth_error lprev i = Some l -> nth_error trs i = Some tr ->
     nth_error row i = Some y -> nth_error lrow i = Some ly -> trans_ok x l tr y ly).
Proof.
  intros H V1 V2 V3 Lp Ll Hg Hl. unfold generation in H.
  apply bind_Ok in H as ((props & g1) & Ha & H).
  assert (HA := fun H0 => @collect_Ok _ _ (fun _ _ => True)
     (fun i (q : list T * Z) => forall cur, nth_error prev i = Some cur ->
        length (fst q) = nvar p /\
        (forall j, nth_error (varLock p) j = Some true -> j < nvar p -> nth_error (fst q) j = nth_error cur j) /\
        ((snd q <= 0)%Z -> length cur = nvar p -> fst q = cur))
       _ _ _ _ _ _ I H0 Ha).
  destruct HA as (_ & La & Qa).
  { intros i s a s' _ _ E. split; auto. intros cur Hc. apply bind_Ok in E as (((pr & dim) & g2) & Ep & E).
    apply Ok_inj in E. injection E as <- <-. cbn. eapply propose_ok; eauto. }
  apply bind_Ok in H as (ls & Hls & H).
  destruct (each_Ok Hls) as [Lls Qls].
  apply bind_Ok in H as ((rows & g2) & Hb & H). apply Ok_inj in H. injection H as <- <- <- <- <-.
  assert (Heval : forall i cur lp q l, nth_error prev i = Some cur -> nth_error lprev i = Some lp ->
     nth_error props i = Some q -> nth_error ls i = Some l ->
     fst l = lp /\ (snd l = fn (fst q) \/ (~ good (fst q) /\ snd l = ninf)) /\ (snd l = fn (fst q) -> neqb N (snd l) ninf = false -> good (fst q))).
  { intros i cur lp q l E1 E2 E3 E4. assert (E := each_nth Hls E4). cbn in E.
    unfold get in E. rewrite E1, E2, E3 in E. cbn in E. unfold evaluate in E.
    destruct (Qa i q E3 cur E1) as (A1 & A2 & A3).
    assert (Hf : lp = fn cur) by (eapply Hl; eauto).
    assert (Hgc := Hg i cur E1).
    assert (Lcur : length cur = nvar p) by (destruct Hgc; congruence).
    destruct (0 <? snd q)%Z eqn:Ed.
    - apply bind_Ok in E as (calc & Ec & E). apply Ok_inj in E. subst l. cbn [fst snd].
      destruct (inside_false Ec A1 V1 V2 V3) as [B1 B2].
      { intros j lo v F1 F2 F3. assert (Hj : j < nvar p) by (apply nth_error_lt in F3; lia).
        rewrite (A2 j F1 Hj) in F3. destruct Hgc as [_ Hgc].
        destruct (@nth_error_ex _ (varHi p) j) as (h & Fh); [lia|].
        exact (Hgc j true lo h v F1 F2 Fh F3). }
      split; [destruct (0 <? _)%Z; auto|].
      destruct calc; [split; [left; reflexivity|intros; exact (B1 eq_refl)]|]. split; [right; split; [exact (B2 eq_refl)|reflexivity]|].
      intros _ C. congruence.
    - apply Ok_inj in E. subst l. cbn [fst snd]. apply Z.ltb_ge in Ed. rewrite (A3 Ed Lcur).
      split; auto. split; [destruct (0 <? _)%Z; auto|auto]. }
  assert (Hrow : forall i e, nth_error rows i = Some e -> i < numChains p /\
     forall cur lp, nth_error prev i = Some cur -> nth_error lprev i = Some lp ->
       trans_ok cur lp (snd e) (fst (fst e)) (snd (fst e)) /\ good (fst (fst e)) /\ snd (fst e) = fn (fst (fst e))).
  { assert (HB := fun H0 => @collect_Ok _ _ (fun _ _ => True)
     (fun i (e : list T * T * trans T) => i < numChains p /\
        forall cur lp, nth_error prev i = Some cur -> nth_error lprev i = Some lp ->
       trans_ok cur lp (snd e) (fst (fst e)) (snd (fst e)) /\ good (fst (fst e)) /\ snd (fst e) = fn (fst (fst e)))
       _ _ _ _ _ _ I H0 Hb).
    destruct HB as (_ & _ & QB); [|exact QB].
    intros i s a s' Hi _ E. split; auto. split; [lia|]. intros cur lp E1 E2.
    unfold get in E. rewrite E1 in E. cbn in E.
    destruct (nth_error props i) as [q|] eqn:E3; [|discriminate]. cbn in E.
    destruct (nth_error ls i) as [l|] eqn:E4; [|discriminate]. cbn in E.
    destruct (accept N rg ninf cur (fst q) (snd q) (fst l) (snd l) s) as [[[x lx] tr] g3] eqn:Eacc.
    apply Ok_inj in E. injection E as <- <-. cbn [fst snd].
    destruct (Heval i cur lp q l E1 E2 E3 E4) as (F1 & F2 & F3).
    destruct (accept_ok Eacc F2) as (A1 & A2 & A3). rewrite F1 in A1, A3.
    split; auto.
    assert (Hf : lp = fn cur) by (eapply Hl; eauto).
    destruct A3 as [[-> ->]|(-> & -> & Hn)].
    - split; [eapply Hg; eauto|auto].
    - destruct F2 as [F2|[_ F2]]; [|rewrite F2 in Hn; congruence].
      split; auto. }
  assert (Lr : length rows = numChains p).
  { assert (HB := fun H0 => @collect_Ok _ _ (fun _ _ => True) (fun _ _ => True) _ _ _ _ _ _ I H0 Hb).
    destruct HB as (_ & L & _); auto. }
  assert (Hex : forall i, i < numChains p -> exists cur lp, nth_error prev i = Some cur /\ nth_error lprev i = Some lp).
  { intros i Hi. destruct (@nth_error_ex _ prev i) as (c & ?); [lia|]. destruct (@nth_error_ex _ lprev i) as (l & ?); [lia|]. eauto. }
  rewrite !map_length.
  split.
  { apply nth_error_eq. intros i. rewrite nth_error_map.
    destruct (nth_error ls i) as [l|] eqn:E4; cbn.
    - assert (Hi : i < numChains p) by (apply nth_error_lt in E4; lia).
      destruct (Hex i Hi) as (cur & lp & E1 & E2). destruct (@nth_error_ex _ props i) as (q & E3); [lia|].
      destruct (Heval i cur lp q l E1 E2 E3 E4) as (F1 & _). congruence.
    - symmetry. apply nth_error_None in E4. apply nth_error_None. lia. }
  do 3 (split; [exact Lr|]).
  split; [|split].
  - intros i x E. rewrite nth_error_map in E. destruct (nth_error rows i) as [e|] eqn:Ee; [|discriminate].
    cbn in E. injection E as <-. destruct (Hrow i e Ee) as [Hi He]. destruct (Hex i Hi) as (cur & lp & E1 & E2).
    apply (He cur lp E1 E2).
  - intros i x l E E'. rewrite nth_error_map in E, E'. destruct (nth_error rows i) as [e|] eqn:Ee; [|discriminate].
    cbn in E, E'. injection E as <-. injection E' as <-. destruct (Hrow i e Ee) as [Hi He]. destruct (Hex i Hi) as (cur & lp & E1 & E2).
    apply (He cur lp E1 E2).
  - intros i x l tr y ly E1 E2 E3 E4 E5. rewrite nth_error_map in E3, E4, E5.
    destruct (nth_error rows i) as [e|] eqn:Ee; [|discriminate].
    cbn in E3, E4, E5. injection E3 as <-. injection E4 as <-. injection E5 as <-.
    destruct (Hrow i e Ee) as [Hi He]. apply (He x l E1 E2).
Qed.

(** ---- outliers ---- *)

Lemma window_lik_ok (lk : list (list T)) a len i vals : window_lik lk a len i = Ok vals -> values lk a len i vals.
Proof.
  intros H. destruct (each_Ok H) as [L1 L2]. split; auto. intros k Hk.
  destruct (L2 k Hk) as (v & E1 & E2). rewrite E1. cbn in E2.
  apply bind_Ok in E2 as (row & Er & E2). apply get_Ok_iff in Er, E2. unfold at_. now rewrite Er.
Qed.

Lemma check_outliers_ok t (lk : list (list T)) means outl : check_outliers N gs p t lk = Ok (means, outl) ->
  mean_logliks gs lk (numChains p) t means /\ outl = map (is_outlier N gs means) means.
Proof.
  unfold check_outliers. intros H. apply bind_Ok in H as (ml & Hm & H). apply Ok_inj in H. injection H as <- <-.
  destruct (each_Ok Hm) as [L1 L2]. split; [split; auto|reflexivity].
  intros i m E. assert (F := each_nth Hm E). cbn in F. apply bind_Ok in F as (w & Hw & F). apply Ok_inj in F.
  exists w. split; [|auto]. apply window_lik_ok; auto.
Qed.

Lemma collapse_ok t (lk : list (list T)) (row : list (list T)) (lrow : list T) b row' lrow' b' :
  collapse N gs p t lk row lrow b = Ok (row', lrow', b') ->
  length row = numChains p -> length lrow = numChains p ->
  length row' = length row /\ length lrow' = length lrow /\
  if (collapseOutliers p && nltb N (nofZ N (Z.of_nat t)) (nmul N (reenterBurnin p) (nofZ N (Z.of_nat (maxEvals p)))))%bool
  then exists means, mean_logliks gs lk (numChains p) t means /\
    let best := g_max_index gs means in
    forall i m, nth_error means i = Some m ->
      let from := if is_outlier N gs means m then best else i in
      nth_error row' i = nth_error row from /\ nth_error lrow' i = nth_error lrow from
  else row' = row /\ lrow' = lrow.
Proof.
  unfold collapse. intros H Lr Ll.
  destruct (collapseOutliers p && _)%bool; [|apply Ok_inj in H; injection H as <- <- <-; auto].
  apply bind_Ok in H as ((means & outl) & Hc & H).
  destruct (check_outliers_ok Hc) as [Hm ->].
  set (best := g_max_index gs means) in *.
  set (from k := match nth_error means k with Some m => if is_outlier N gs means m then best else k | None => k end).
  assert (HI := fun A B => @for_ok (list (list T) * list T * burn)
    (fun i s => let '(r, l, _) := s in length r = length row /\ length l = length lrow /\
       nth_error r best = nth_error row best /\ nth_error l best = nth_error lrow best /\
       (forall k, k < i -> nth_error r k = nth_error row (from k) /\ nth_error l k = nth_error lrow (from k)) /\
       (forall k, i <= k -> nth_error r k = nth_error row k /\ nth_error l k = nth_error lrow k)) _ _ _ _ A B H).
  cbv beta in HI. destruct HI as (L1 & L2 & _ & _ & Q & _).
  - repeat split; auto; intros; lia.
  - intros i [[r l] bb] [[r2 l2] bb2] Hi (A1 & A2 & A3 & A4 & A5 & A6) E.
    apply bind_Ok in E as (o & Eo & E). apply get_Ok_iff in Eo. rewrite nth_error_map in Eo.
    destruct (nth_error means i) as [m|] eqn:Em; [|discriminate]. cbn in Eo. injection Eo as <-.
    assert (Hfrom : from i = if is_outlier N gs means m then best else i) by (unfold from; now rewrite Em).
    destruct (is_outlier N gs means m) eqn:Eo; cbn [andb] in E.
    + destruct (i =? best) eqn:Eb; cbn [negb] in E.
      * apply Ok_inj in E. injection E as <- <- <-. apply Nat.eqb_eq in Eb.
        repeat (split; [assumption|]). split.
        -- intros k Hk. destruct (Nat.eq_dec k i) as [->|]; [|apply A5; lia]. rewrite Hfrom, <- Eb. apply A6; lia.
        -- intros k Hk. apply A6; lia.
      * apply Nat.eqb_neq in Eb.
        apply bind_Ok in E as (lb & Elb & E). apply bind_Ok in E as (l3 & El3 & E).
        apply bind_Ok in E as (rb & Erb & E). apply bind_Ok in E as (r3 & Er3 & E).
        apply Ok_inj in E. injection E as <- <- <-. apply get_Ok_iff in Elb, Erb.
        rewrite set_lt in El3 by lia. rewrite set_lt in Er3 by lia. apply Ok_inj in El3, Er3. subst l3 r3.
        rewrite !upd_length.
        assert (Hi1 : (i <? length r) = true) by (apply Nat.ltb_lt; lia).
        assert (Hi2 : (i <? length l) = true) by (apply Nat.ltb_lt; lia).
        do 2 (split; [assumption|]). rewrite !nth_error_upd.
        destruct (i =? best) eqn:Eb'; [apply Nat.eqb_eq in Eb'; lia|]. cbn [andb].
        do 2 (split; [assumption|]). split; intros k Hk; rewrite !nth_error_upd, Hi1, Hi2.
        -- destruct (i =? k) eqn:Ek; cbn [andb].
           ++ apply Nat.eqb_eq in Ek. subst k. rewrite Hfrom, <- Elb, <- Erb. auto.
           ++ apply Nat.eqb_neq in Ek. apply A5. lia.
        -- destruct (i =? k) eqn:Ek; [apply Nat.eqb_eq in Ek; lia|]. cbn [andb]. apply A6; lia.
    + apply Ok_inj in E. injection E as <- <- <-. repeat (split; [assumption|]). split.
      -- intros k Hk. destruct (Nat.eq_dec k i) as [->|]; [|apply A5; lia]. rewrite Hfrom. apply A6; lia.
      -- intros k Hk. apply A6; lia.
  - split; auto. split; auto. exists means. split; auto. cbv zeta. intros i m E.
    assert (Hi : i < numChains p) by (destruct Hm as [Hm _]; apply nth_error_lt in E; lia).
    specialize (Q i Hi). unfold from in Q. rewrite E in Q. exact Q.
Qed.

End Proof.
