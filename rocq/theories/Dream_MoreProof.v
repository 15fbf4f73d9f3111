(** Further invariants of runs from any history: limits, proposals, written probabilities, burn-in. *)
From Coq Require Import List Arith ZArith Bool Lia Permutation.
From Verif Require Import Base Num Dream_Model Dream_Spec Dream_Proof Dream_RunProof Dream_PairProof.
Import ListNotations.
Set Implicit Arguments.
Unset Strict Implicit.

Section More.
Variables (T : Type) (N : Num T) (G : Type).
Variables (rg : rng T G) (gs : gsl T) (fn : list T -> T) (ninf : T) (fuel : nat).
Variable p : pars T.
Let good := respects N (varLock p) (varLo p) (varHi p).

(** everything about one generation that does not depend on the stored likelihoods *)
Lemma generation_any t prev lprev crm gen inb g lprev' row lrow trs g' :
  generation N rg fn ninf fuel p t prev lprev crm gen inb g = Ok (lprev', row, lrow, trs, g') ->
  length (varLock p) = nvar p -> length (varLo p) = nvar p -> length (varHi p) = nvar p -> neqb N ninf ninf = true ->
  (forall i x, nth_error prev i = Some x -> good x) ->
  length row = numChains p /\ length trs = numChains p /\
  (forall i x, nth_error row i = Some x -> good x) /\
  (forall i tr, nth_error trs i = Some tr -> exists cur gg gg', nth_error prev i = Some cur /\
     propose N rg fuel p t prev crm gen i gg = Ok (tr_prop tr, tr_dim tr, gg')).
Proof.
  intros H V1 V2 V3 NI Hg. unfold generation in H.
  apply bind_Ok in H as ((props & g1) & Ha & H).
  assert (HA := fun H0 => @collect_Ok _ _ (fun _ _ => True)
     (fun i (q : list T * Z) => exists gg gg', propose N rg fuel p t prev crm gen i gg = Ok (fst q, snd q, gg')) _ _ _ _ _ _ I H0 Ha).
  destruct HA as (_ & La & Qa).
  { intros i s a s' _ _ E. split; auto. apply bind_Ok in E as (((pr & dim) & g2) & Ep & E).
    apply Ok_inj in E. injection E as <- <-. cbn. eauto. }
  apply bind_Ok in H as (ls & Hls & H).
  apply bind_Ok in H as ((rows & g2) & Hb & H). apply Ok_inj in H. injection H as <- <- <- <- <-.
  assert (HB := fun H0 => @collect_Ok _ _ (fun _ _ => True)
     (fun i (e : list T * T * trans T) => good (fst (fst e)) /\ exists cur gg gg', nth_error prev i = Some cur /\
        propose N rg fuel p t prev crm gen i gg = Ok (tr_prop (snd e), tr_dim (snd e), gg'))
       _ _ _ _ _ _ I H0 Hb).
  destruct HB as (_ & Lb & QB).
  { intros i s a s' Hi _ E. split; auto.
    apply bind_Ok in E as (cur & E1 & E). apply bind_Ok in E as (q & E2 & E). apply bind_Ok in E as (l & E3 & E).
    apply get_Ok_iff in E1, E2, E3.
    destruct (accept N rg ninf cur (fst q) (snd q) (fst l) (snd l) s) as [[[x lx] tr] g3] eqn:Eacc.
    apply Ok_inj in E. injection E as <- <-. cbn [fst snd].
    destruct (Qa i q E2) as (gg & gg' & Ep).
    assert (Etr : tr_prop tr = fst q /\ tr_dim tr = snd q).
    { unfold accept in Eacc. destruct (neqb N (snd l) ninf); [injection Eacc as <- <- <- <-; auto|].
      destruct (nleb N (fst l) (snd l)); [injection Eacc as <- <- <- <-; auto|].
      destruct (uniform N rg s) as [u gu]. destruct (nltb N (nlog N u) _); injection Eacc as <- <- <- <-; auto. }
    destruct Etr as [Et1 Et2]. split; [|exists cur, gg, gg'; split; [auto|cbn [Nat.add] in Ep; congruence]].
    assert (Hx : x = cur \/ (x = fst q /\ neqb N (snd l) ninf = false)).
    { unfold accept in Eacc. destruct (neqb N (snd l) ninf); [injection Eacc as <- <- <- <-; auto|].
      destruct (nleb N (fst l) (snd l)); [injection Eacc as <- <- <- <-; auto|].
      destruct (uniform N rg s) as [u gu]. destruct (nltb N (nlog N u) _); injection Eacc as <- <- <- <-; auto. }
    destruct Hx as [->|[-> Hn]]; [exact (Hg i cur E1)|].
    assert (E := each_nth Hls E3). cbn [Nat.add] in E. unfold get in E. rewrite E1, E2 in E.
    destruct (nth_error lprev i) as [lp|]; [|discriminate]. cbn [bind] in E. unfold evaluate in E.
    assert (Hgc := Hg i cur E1). assert (Lcur : length cur = nvar p) by (destruct Hgc; congruence).
    cbn [Nat.add] in Ep. destruct (propose_ok Ep E1) as (A1 & A2 & A3).
    destruct (0 <? snd q)%Z eqn:Ed.
    - apply bind_Ok in E as (calc & Ec & E). apply Ok_inj in E. subst l. cbn [fst snd] in Hn.
      destruct (inside_false Ec A1 V1 V2 V3) as [B1 B2].
      { intros j lo v F1 F2 F3. assert (Hj : j < nvar p) by (apply nth_error_lt in F3; lia).
        rewrite (A2 j F1 Hj) in F3. destruct Hgc as [_ Hgc].
        destruct (@nth_error_ex _ (varHi p) j) as (h & Fh); [lia|].
        exact (Hgc j true lo h v F1 F2 Fh F3). }
      destruct calc; [exact (B1 eq_refl)|congruence].
    - apply Z.ltb_ge in Ed. rewrite (A3 Ed Lcur). auto. }
  rewrite !map_length. do 2 (split; [assumption|]). split.
  - intros i x E. rewrite nth_error_map in E. destruct (nth_error rows i) as [e|] eqn:Ee; [|discriminate].
    cbn in E. injection E as <-. apply (QB i e Ee).
  - intros i tr E. rewrite nth_error_map in E. destruct (nth_error rows i) as [e|] eqn:Ee; [|discriminate].
    cbn in E. injection E as <-. apply (QB i e Ee).
Qed.

(** the row kept is made of elements of the row computed *)
Lemma collapse_from t (lk : list (list T)) (row : list (list T)) (lrow : list T) b row' lrow' b' :
  collapse N gs p t lk row lrow b = Ok (row', lrow', b') ->
  length row' = length row /\ (forall i x, nth_error row' i = Some x -> In x row) /\
  (b' = b \/ b' = mkBurn 1 (Z.of_nat t) 0).
Proof.
  unfold collapse. destruct (_ && _)%bool; [|intros H; apply Ok_inj in H; injection H as <- <- <-; split; auto; split; auto; intros i x E; eapply nth_error_In; eauto].
  intros H. apply bind_Ok in H as ((ml & ol) & _ & H).
  assert (HI := fun A B => @for_ok _ (fun _ '(r, l, b') => length r = length row /\ (forall i x, nth_error r i = Some x -> In x row) /\
     (b' = b \/ b' = mkBurn 1 (Z.of_nat t) 0)) _ _ _ _ A B H).
  cbv beta iota in HI. apply HI.
  - split; auto. split; auto. intros i x E. eapply nth_error_In; eauto.
  - intros i ((r & l) & b0) ((r' & l') & b0') Hi (A1 & A2 & A3) E. cbv beta iota in E.
    apply bind_Ok in E as (o & _ & E). destruct (_ && _)%bool; [|apply Ok_inj in E; injection E as <- <- <-; auto].
    apply bind_Ok in E as (lb & _ & E). apply bind_Ok in E as (l1 & _ & E). apply bind_Ok in E as (rb & Erb & E).
    apply bind_Ok in E as (r1 & Er1 & E). apply Ok_inj in E. injection E as <- <- <-.
    unfold set in Er1. destruct (i <? length r); [|discriminate]. apply Ok_inj in Er1. subst r1.
    split; [now rewrite upd_length|]. split.
    + intros k x Ex. rewrite nth_error_upd in Ex. destruct (_ && _)%bool; [|eauto].
      injection Ex as <-. apply get_Ok_iff in Erb. eauto.
    + destruct (_ && _)%bool; auto.
Qed.

Hypothesis ninf_eq : neqb N ninf ninf = true.
Hypothesis V1 : length (varLock p) = nvar p.
Hypothesis V2 : length (varLo p) = nvar p.
Hypothesis V3 : length (varHi p) = nvar p.

Lemma step_any t s s' c : step N rg gs fn ninf fuel p t s = Ok (s', c) ->
  (forall k i x, at_ (d_st s) k i = Some x -> good x) ->
  exists prev row trs, nth_error (d_st s) (t - 1) = Some prev /\
    d_st s' = d_st s ++ [row] /\ d_tr s' = d_tr s ++ [trs] /\
    length row = numChains p /\ (forall i x, nth_error row i = Some x -> good x) /\
    (forall i tr, nth_error trs i = Some tr -> exists cur crm gen gg gg', nth_error prev i = Some cur /\
       propose N rg fuel p t prev crm gen i gg = Ok (tr_prop tr, tr_dim tr, gg')) /\
    (forall lines, In lines (d_out s') -> In lines (d_out s) \/ length lines = numChains p /\ forall i o, nth_error lines i = Some o -> nth_error row i = Some (o_par o) /\ o_pcr o = d_pcr s') /\
    (length (d_pcr s) = nCR p -> length (d_pcr s') = nCR p) /\
    (burnInStart (d_burn s') = burnInStart (d_burn s) \/ burnInStart (d_burn s') = Z.of_nat t).
Proof.
  unfold step. intros H Hgood. apply bind_Ok in H as (((crm & L) & g1) & _ & H).
  apply bind_Ok in H as (prev & Hp & H). apply bind_Ok in H as (lprev & Hlp & H). apply get_Ok_iff in Hp.
  apply bind_Ok in H as (((((lprev' & row) & lrow) & trs) & g2) & Hg & H).
  assert (Hprev : forall i x, nth_error prev i = Some x -> good x).
  { intros i x E. apply (Hgood (t - 1) i). unfold at_. now rewrite Hp. }
  destruct (generation_any Hg V1 V2 V3 ninf_eq Hprev) as (A1 & A2 & A3 & A4).
  apply bind_Ok in H as (dtot & _ & H).
  apply bind_Ok in H as ((((((((gen' & steps) & pcr) & row') & lrow') & b') & sr) & stop') & Hz & H).
  apply bind_Ok in H as (lines & Hlines & H). apply Ok_inj in H. injection H as <- <-.
  cbn [d_st d_tr d_out d_pcr d_burn].
  assert (HR : length row' = numChains p /\ (forall i x, nth_error row' i = Some x -> In x row) /\
     (length (d_pcr s) = nCR p -> length pcr = nCR p) /\
     (burnInStart b' = burnInStart (d_burn s) \/ burnInStart b' = Z.of_nat t)).
  { destruct (loopSteps p <=? d_gen s + 1).
    - apply bind_Ok in Hz as ((st0 & pc0) & Hpc & Hz).
      apply bind_Ok in Hz as (((rw & lw) & b1) & Hc & Hz).
      apply bind_Ok in Hz as (((b2 & sr2) & stop2) & He & Hz). apply Ok_inj in Hz. injection Hz as <- <- <- <- <- <- <- <-.
      destruct (collapse_from Hc) as (C1 & C2 & C3). split; [congruence|]. split; [auto|]. split.
      + intros HL. destruct (_ && _)%bool; [|apply Ok_inj in Hpc; congruence].
        unfold new_pCR in Hpc. apply bind_Ok in Hpc as (s1 & _ & Hpc). apply bind_Ok in Hpc as (sum & _ & Hpc).
        destruct (nltb N _ sum); [|apply Ok_inj in Hpc; congruence].
        apply bind_Ok in Hpc as (q & Eq & Hpc). apply Ok_inj in Hpc. injection Hpc as <- <-. rewrite map_length.
        destruct (each_Ok Eq); auto.
      + assert (E2 : burnInStart b2 = burnInStart b1).
        { unfold end_of_loop in He. destruct (inBurnIn b1 =? 0)%Z.
          - destruct (gelmanEvals p <=? curRun b1 + 1)%Z; [|apply Ok_inj in He; injection He as <- <- <-; auto].
            apply bind_Ok in He as (sr' & _ & He). apply bind_Ok in He as (c & _ & He).
            destruct c; apply Ok_inj in He; injection He as <- <- <-; auto.
          - destruct (_ <=? _)%Z; apply Ok_inj in He; injection He as <- <- <-; auto. }
        rewrite E2. destruct C3 as [->| ->]; auto.
    - apply Ok_inj in Hz. injection Hz as <- <- <- <- <- <- <- <-. split; auto. split; auto.
      intros i x E. eapply nth_error_In; eauto. }
  destruct HR as (R1 & R2 & R3 & R4).
  exists prev, row', trs. do 3 (split; [auto|]). split; [auto|]. split.
  { intros i x E. apply R2, In_nth_error in E as (k & Ek). eauto. }
  split. { intros i tr E. destruct (A4 i tr E) as (cur & gg & gg' & ? & ?). exists cur, crm, (d_gen s), gg, gg'. auto. }
  split; [|split; auto].
  intros ls Hin.
  assert (In ls (d_out s) \/ ls = lines) as [Hin'|El'].
  { destruct (negb stop' && (report_interval p <=? d_rep s + 1)%Z)%bool; [|auto]. apply in_app_or in Hin. destruct Hin as [Hin|[Hin|Hin]]; [auto|auto|destruct Hin]. }
  - auto.
  - right. subst ls. split. { destruct (each_Ok Hlines) as [Ll _]. exact Ll. }
    intros i o E. assert (F := each_nth Hlines E). cbn in F.
    apply bind_Ok in F as (x & Fx & F). apply bind_Ok in F as (l & Fl & F). apply bind_Ok in F as (q & Fq & F).
    apply Ok_inj in F. subst o. cbn. apply get_Ok_iff in Fx. auto.
Qed.

(** an invariant for any start *)
Record Any (base t : nat) (s : ds T G) : Prop := {
  a_base : 1 <= base <= t;
  a_st : length (d_st s) = t;
  a_tr : length (d_tr s) = t - base;
  a_good : forall k i x, at_ (d_st s) k i = Some x -> good x;
  a_prop : forall k i q, at_ (d_tr s) (k - base) i = Some q -> base <= k < t -> exists prev cur crm gen gg gg',
      nth_error (d_st s) (k - 1) = Some prev /\ nth_error prev i = Some cur /\
      propose N rg fuel p k prev crm gen i gg = Ok (tr_prop q, tr_dim q, gg');
  a_out : forall lines, In lines (d_out s) -> length lines = numChains p /\ forall i o, nth_error lines i = Some o -> good (o_par o) /\ length (o_pcr o) = nCR p;
  a_pcr : length (d_pcr s) = nCR p;
  a_burn : (0 <= burnInStart (d_burn s))%Z }.

Lemma step_Any base t s s' c : Any base t s -> step N rg gs fn ninf fuel p t s = Ok (s', c) -> Any base (S t) s'.
Proof.
  intros A H. assert (AB := a_base A). assert (LS := a_st A). assert (LT := a_tr A).
  destruct (step_any H (a_good A)) as (prev & row & trs & E1 & E2 & E3 & E4 & E5 & E6 & E7 & E8 & E9).
  split; try lia.
  - rewrite E2, app_length. cbn [length]. lia.
  - rewrite E3, app_length. cbn [length]. lia.
  - intros k i x E. rewrite E2 in E. destruct (lt_dec k t) as [Hk|Hk].
    + rewrite at_app in E by lia. exact (a_good A E).
    + destruct (Nat.eq_dec k t) as [->|].
      * rewrite <- LS, at_last in E. eauto.
      * rewrite at_ge in E; [discriminate|rewrite app_length; cbn; lia].
  - intros k i q E Hk. rewrite E3 in E. rewrite E2. destruct (Nat.eq_dec k t) as [->|].
    + rewrite <- LT, at_last in E. destruct (E6 i q E) as (cur & crm & gen & gg & gg' & F1 & F2).
      exists prev, cur, crm, gen, gg, gg'. split; [rewrite nth_error_app1 by lia; auto|auto].
    + rewrite at_app in E by lia. destruct (@a_prop _ _ _ A k i q E ltac:(lia)) as (prev' & cur & crm & gen & gg & gg' & F1 & F2 & F3).
      exists prev', cur, crm, gen, gg, gg'. split; [rewrite nth_error_app1 by (apply nth_error_lt in F1; auto); auto|auto].
  - intros lines Hin. destruct (E7 lines Hin) as [Hin'|[Hl Hl']]; [exact (a_out A Hin')|]. split; auto.
    intros i o Eo. destruct (Hl' i o Eo) as [F1 F2]. split; [eauto|]. rewrite F2. apply E8, (a_pcr A).
  - apply E8, (a_pcr A).
  - assert (B := a_burn A). destruct E9 as [-> | ->]; lia.
Qed.

Lemma generations_Any base m : forall t s s' c, Any base t s -> generations N rg gs fn ninf fuel p m t s = Ok (s', c) ->
  exists t', t <= t' <= t + m /\ Any base t' s'.
Proof.
  induction m as [|m IH]; intros t s s' c A H; simpl in H.
  - apply Ok_inj in H. injection H as <- <-. exists t. split; [lia|auto].
  - apply bind_Ok in H as ((s1 & stop) & Hs & H). assert (A1 := step_Any A Hs).
    destruct stop.
    + apply Ok_inj in H. injection H as <- <-. exists (S t). split; [lia|auto].
    + destruct (IH _ _ _ _ A1 H) as (t' & Ht & A'). exists t'. split; [lia|auto].
Qed.

Lemma start_Any (st : list (list (list T))) lk pcr inb (out : list (list (oline T))) g : 1 <= length st ->
  (forall k i x, at_ st k i = Some x -> good x) -> length pcr = nCR p ->
  (forall lines, In lines out -> length lines = numChains p /\ forall i o, nth_error lines i = Some o -> good (o_par o) /\ length (o_pcr o) = nCR p) ->
  Any (length st) (length st) (start N p st lk pcr inb out g).
Proof.
  intros H1 H2 H3 H4. split; unfold start; cbn [d_st d_tr d_out d_pcr d_burn burnInStart length]; auto; try lia.
Qed.

Hypothesis LS : 0 < loopSteps p.
Hypothesis irr : forall x, nltb N x x = false.
Hypothesis ordered : forall j l h, nth_error (varLo p) j = Some l -> nth_error (varHi p) j = Some h -> nltb N h l = false.

Lemma new_Any g code s : dream_new N rg gs fn ninf fuel p g = Ok (code, s) -> exists t, Any 1 t s /\
  (code = 0%Z -> exists s0 g1 n0, generations N rg gs fn ninf fuel p n0 1 s0 = Ok (s, true) /\ length (d_st s0) = 1 /\ d_g s0 = g1).
Proof.
  unfold dream_new. intros H. apply bind_Ok in H as (((row & lrow) & g1) & Hi & H).
  apply bind_Ok in H as (lines & Hl & H). apply bind_Ok in H as ((s' & c) & Hg & H).
  apply Ok_inj in H. injection H as <- <-.
  destruct (initialize_ok ninf_eq V1 V2 V3 LS irr ordered Hi) as (L1 & L2 & Q1 & Q2).
  match type of Hg with generations _ _ _ _ _ _ _ _ _ ?s0 = _ => assert (A0 : Any 1 1 s0) end.
  { apply (@start_Any [row]); cbn [length]; auto.
    - intros k i x E. apply at_one in E as [-> E]. exact (Q1 _ _ E).
    - apply repeat_length.
    - intros ls [<-|[]]. split; [destruct (each_Ok Hl); auto|]. intros i o E. assert (F := each_nth Hl E). cbn in F.
      apply bind_Ok in F as (x & Fx & F). apply bind_Ok in F as (l & Fl & F).
      apply Ok_inj in F. subst o. cbn. apply get_Ok_iff in Fx. split; [exact (Q1 _ _ Fx)|apply repeat_length]. }
  destruct (generations_Any A0 Hg) as (t & Ht & At). exists t. split; [auto|].
  intros E. destruct c; [|discriminate]. eexists _, _, _. split; [exact Hg|]. split; reflexivity.
Qed.
End More.
