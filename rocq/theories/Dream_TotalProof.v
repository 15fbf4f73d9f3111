(** A run is defined: no index out of range, no uninitialised value, no stop of the program. *)
From Coq Require Import List Arith ZArith Bool Lia Permutation.
From Verif Require Import Base Num Dream_Model Dream_Spec Dream_Proof Dream_RunProof Dream_PairProof.
Import ListNotations.
Set Implicit Arguments.
Unset Strict Implicit.

Lemma get_some A (l : list A) i a : nth_error l i = Some a -> get l i = Ok a.
Proof. intros H. now apply get_Ok_iff. Qed.

Section Total.
Variables (T : Type) (N : Num T) (G : Type).
Variables (rg : rng T G) (gs : gsl T) (fn : list T -> T) (ninf : T) (fuel : nat).
Variable p : pars T.
Hypothesis RG : rng_ok rg.
Hypothesis MX : forall l, l <> [] -> g_max_index gs l < length l.
Hypothesis HN : 3 <= numChains p.
Hypothesis HF : 2 <= fuel.
Hypothesis V1 : length (varLock p) = nvar p.
Hypothesis V2 : length (varLo p) = nvar p.
Hypothesis V3 : length (varHi p) = nvar p.
Hypothesis LS : 0 < loopSteps p.
Hypothesis HC : 0 < nCR p.
Hypothesis HB : (0 <= burnIn p)%Z.
Let n := numChains p.

Definition row_ok (row : list (list T)) : Prop :=
  length row = n /\ forall i x, nth_error row i = Some x -> length x = nvar p.
Definition entry_ok (o : option Z) : Prop := exists c, o = Some c /\ (1 <= c <= Z.of_nat (nCR p))%Z.
Definition crm_ok (crm : list (option Z)) : Prop := length crm = n * loopSteps p /\ Forall entry_ok crm.

Lemma cell_total (row : list (list T)) i j : row_ok row -> i < n -> j < nvar p -> exists v, cell row (Z.of_nat i) j = Ok v.
Proof.
  intros [L R] Hi Hj. unfold cell, getZ. destruct (Z.of_nat i <? 0)%Z eqn:E; [apply Z.ltb_lt in E; lia|].
  rewrite Nat2Z.id. destruct (@nth_error_ex _ row i) as (x & Ex); [lia|]. rewrite (get_some Ex). cbn [bind].
  apply get_lt. rewrite (R i x Ex). auto.
Qed.

Lemma pair_diff_total prev j i : row_ok prev -> j < nvar p -> forall pairs acc, Forall (good_pair n i) pairs ->
  exists d, pair_diff N prev j pairs acc = Ok d.
Proof.
  intros HP Hj. induction pairs as [|(a, b) ps IH]; intros acc HFo; cbn [pair_diff]; eauto.
  inversion HFo as [|q l HG HF']; subst. destruct HG as (R1 & R2 & R3 & _).
  destruct (a =? b)%Z; [cbn [bind]; auto|].
  destruct (@cell_total prev (Z.to_nat a) j HP) as (x & Ex); [lia|auto|]. rewrite Z2Nat.id in Ex by lia.
  destruct (@cell_total prev (Z.to_nat b) j HP) as (y & Ey); [lia|auto|]. rewrite Z2Nat.id in Ey by lia.
  rewrite Ex, Ey. cbn [bind]. auto.
Qed.

Lemma crm_get crm i gen : crm_ok crm -> i < n -> gen < loopSteps p ->
  exists c, nth_error crm (i * loopSteps p + gen) = Some (Some c) /\ (1 <= c <= Z.of_nat (nCR p))%Z.
Proof.
  intros [L F] Hi Hg. destruct (@nth_error_ex _ crm (i * loopSteps p + gen)) as (o & Eo).
  { rewrite L. apply Nat.lt_le_trans with (S i * loopSteps p); [cbn; lia|]. apply Nat.mul_le_mono_r. lia. }
  rewrite Forall_forall in F. destruct (F o (nth_error_In _ _ Eo)) as (c & -> & Hc). eauto.
Qed.

Lemma propose_total t prev crm gen i g : row_ok prev -> crm_ok crm -> i < n -> gen < loopSteps p ->
  exists pr dim g', propose N rg fuel p t prev crm gen i g = Ok (pr, dim, g') /\ length pr = nvar p.
Proof.
  intros HP HCr Hi Hg. unfold propose.
  destruct (@pick_delta_ok T G rg RG p g) as (d & g1 & E1 & R1). rewrite E1. cbn [bind].
  destruct HP as [LP RP]. destruct (@nth_error_ex _ prev i) as (cur & Ec); [lia|]. rewrite (get_some Ec). cbn [bind].
  assert (Lc := RP i cur Ec).
  destruct (@pick_pairs_ok T G rg fuel RG p i d g1 HN Hi HF) as (pairs & g2 & E2 & L2 & F2). rewrite E2. cbn [bind].
  destruct (crm_get HCr Hi Hg) as (c & Ecr & _). 
  destruct (@collect_total _ _ (fun _ _ => True) (fun _ (_ : option (T * T * T)) => True)
     (draw_par N rg p prev pairs (do o <- get crm (i * loopSteps p + gen); match o with Some c => Ok c | None => Undef end))
     (nvar p) 0 (g2, nfree p) I) as (u & (g3 & dim) & Eu & _ & Lu & _).
  { intros j (gg, di) Hj _. unfold draw_par. destruct (@get_lt _ (varLock p) j) as (b & Eb); [lia|]. rewrite Eb. cbn [bind].
    destruct b; [eauto|]. destruct (uniform N rg gg) as [uu gg1]. destruct (gaussian N rg gg1 (bstar_zero p)) as [ep gg2].
    destruct (@pair_diff_total prev j i) with (pairs := pairs) (acc := nofZ N 0) as (pd & Ep); [split; auto|lia|auto|].
    rewrite Ep. cbn [bind]. rewrite (get_some Ecr). cbn [bind].
    destruct (nltb N _ _); [|eauto]. destruct (uniform N rg gg2) as [u2 gg3]. destruct (nltb N u2 _); eauto. }
  rewrite Eu. cbn [bind]. destruct (0 <? dim)%Z.
  - match goal with |- context [each 0 (nvar p) ?f] => destruct (@each_total _ f (nvar p) 0) as (pr & Epr) end.
    { intros j Hj. cbn [Nat.add]. destruct (@get_lt _ cur j) as (x & Ex); [lia|]. rewrite Ex. cbn [bind].
      destruct (@get_lt _ u j) as (o & Eo); [lia|]. rewrite Eo. cbn [bind]. destruct o as [((? & ?) & ?)|]; eauto. }
    rewrite Epr. cbn [bind]. eexists _, _, _. split; [reflexivity|]. destruct (each_Ok Epr); auto.
  - match goal with |- context [each 0 (nvar p) ?f] => destruct (@each_total _ f (nvar p) 0) as (pr & Epr) end.
    { intros j Hj. cbn [Nat.add]. apply get_lt. lia. }
    rewrite Epr. cbn [bind]. eexists _, _, _. split; [reflexivity|]. destruct (each_Ok Epr); auto.
Qed.

Lemma inside_total all x : length x = nvar p -> exists b, inside N p all x = Ok b.
Proof.
  intros L. unfold inside. destruct (@for_inv bool (fun _ _ => True) (fun j ok =>
    if (ok : bool) then
      do locked <- get (varLock p) j;
      if ((locked : bool) && negb all)%bool then Ok true else
      do v <- get x j; do lo <- get (varLo p) j; do hi <- get (varHi p) j;
      Ok (negb (nltb N v lo || nltb N hi v))
    else Ok false) (nvar p) true I) as (b & Eb & _); [|eauto].
  intros j ok Hj _. destruct ok; [|eauto].
  destruct (@get_lt _ (varLock p) j) as (a & Ea); [lia|]. rewrite Ea. cbn [bind]. destruct (a && negb all)%bool; [eauto|].
  destruct (@get_lt _ x j) as (v & Ev); [lia|]. destruct (@get_lt _ (varLo p) j) as (lo & El); [lia|].
  destruct (@get_lt _ (varHi p) j) as (hi & Eh); [lia|]. rewrite Ev, El, Eh. cbn [bind]. eauto.
Qed.

Lemma accept_cases cur pr dim lp ln (g : G) : exists x l tr g', accept N rg ninf cur pr dim lp ln g = (x, l, tr, g') /\ (x = cur \/ x = pr).
Proof.
  unfold accept. destruct (neqb N ln ninf); [eauto 10|]. destruct (nleb N lp ln); [eauto 10|].
  destruct (uniform N rg g) as [u g']. destruct (nltb N (nlog N u) (nsub N ln lp)); eauto 10.
Qed.

Lemma generation_total t prev lprev crm gen inb g : row_ok prev -> length lprev = n -> crm_ok crm -> gen < loopSteps p ->
  exists lprev' row lrow trs g', generation N rg fn ninf fuel p t prev lprev crm gen inb g = Ok (lprev', row, lrow, trs, g') /\
    length lprev' = n /\ row_ok row /\ length lrow = n /\ length trs = n.
Proof.
  intros HP HL HCr Hg. unfold generation.
  match goal with |- context [collect 0 (numChains p) ?f g] =>
    destruct (@collect_total _ _ (fun _ _ => True) (fun _ (q : list T * Z) => length (fst q) = nvar p) f (numChains p) 0 g I) as (props & g1 & Ea & _ & La & Qa) end.
  { intros i gg Hi _. destruct (@propose_total t prev crm gen i gg HP HCr) as (pr & dim & g' & E & L); [unfold n; lia|auto|].
    rewrite E. cbn [bind]. eauto 6. }
  rewrite Ea. cbn [bind]. destruct HP as [LP RP].
  match goal with |- context [each 0 (numChains p) ?f] => destruct (@each_total _ f (numChains p) 0) as (ls & Els) end.
  { intros i Hi. cbn [Nat.add]. destruct (@get_lt _ prev i) as (cur & Ec); [unfold n in LP; lia|]. rewrite Ec. cbn [bind].
    destruct (@get_lt _ lprev i) as (l & El); [unfold n in HL; lia|]. rewrite El. cbn [bind].
    destruct (@nth_error_ex _ props i) as (q & Eq); [lia|]. rewrite (get_some Eq). cbn [bind]. unfold evaluate.
    destruct (0 <? snd q)%Z; [|eauto]. destruct (@inside_total false (fst q)) as (b & Eb); [exact (Qa i q Eq)|].
    rewrite Eb. cbn [bind]. eauto. }
  rewrite Els. cbn [bind]. destruct (each_Ok Els) as [Ll _].
  match goal with |- context [collect 0 (numChains p) ?f g1] =>
    destruct (@collect_total _ _ (fun _ _ => True) (fun _ (q : list T * T * trans T) => length (fst (fst q)) = nvar p) f (numChains p) 0 g1 I) as (rows & g2 & Eb & _ & Lb & Qb) end.
  { intros i gg Hi _. destruct (@nth_error_ex _ prev i) as (cur & Ec); [unfold n in LP; lia|]. rewrite (get_some Ec). cbn [bind].
    destruct (@nth_error_ex _ props i) as (q & Eq); [lia|]. rewrite (get_some Eq). cbn [bind].
    destruct (@get_lt _ ls i) as (l & El); [lia|]. rewrite El. cbn [bind].
    destruct (accept_cases cur (fst q) (snd q) (fst l) (snd l) gg) as (x & lk & tr & g' & E & Hx). rewrite E.
    eexists _, _. split; [reflexivity|]. split; auto. cbn. destruct Hx as [->| ->]; [exact (RP i cur Ec)|exact (Qa i q Eq)]. }
  rewrite Eb. cbn [bind]. eexists _, _, _, _, _. split; [reflexivity|]. rewrite !map_length. unfold n.
  split; [auto|]. split; [|auto]. split; [rewrite map_length; auto|].
  intros i x E. rewrite nth_error_map in E. destruct (nth_error rows i) as [q|] eqn:Eq; [|discriminate].
  cbn in E. injection E as <-. exact (Qb i q Eq).
Qed.

Lemma adapt_total prev row acc crm gen dtot : row_ok prev -> row_ok row -> length acc = n -> crm_ok crm -> gen < loopSteps p ->
  length dtot = nCR p -> exists d, adapt N gs p prev row acc crm gen dtot = Ok d /\ length d = nCR p.
Proof.
  intros HP HR HA HCr Hg HD. unfold adapt.
  match goal with |- context [each 0 (nvar p) ?f] => destruct (@each_total _ f (nvar p) 0) as (sds & Es) end.
  { intros j Hj. cbn [Nat.add].
    match goal with |- context [each 0 (numChains p) ?f] => destruct (@each_total _ f (numChains p) 0) as (col & E) end.
    { intros i Hi. cbn [Nat.add]. apply cell_total; auto. }
    rewrite E. cbn [bind]. eauto. }
  rewrite Es. cbn [bind]. destruct (each_Ok Es) as [Ls _].
  match goal with |- context [for_ (numChains p) ?f ?s0] =>
    destruct (@for_inv _ (fun _ d => length d = nCR p) f (numChains p) s0 HD) as (d & E & L) end; [|eauto].
  intros i d Hi Ld. destruct (@get_lt _ acc i) as (a & Ea); [unfold n in HA; lia|]. rewrite Ea. cbn [bind]. destruct a; [|eauto].
  match goal with |- context [for_ (nvar p) ?f ?s0] =>
    destruct (@for_inv _ (fun _ _ => True) f (nvar p) s0 I) as (dn & E & _) end.
  { intros j s Hj _. destruct (@get_lt _ (varLock p) j) as (b & Eb); [lia|]. destruct (@get_lt _ sds j) as (sd & Esd); [lia|].
    rewrite Eb, Esd. cbn [bind]. destruct (negb b && nltb N (nofZ N 0) sd)%bool; [|eauto].
    destruct (@cell_total row i j HR Hi Hj) as (x & Ex). destruct (@cell_total prev i j HP Hi Hj) as (y & Ey).
    rewrite Ex, Ey. cbn [bind]. eauto. }
  rewrite E. cbn [bind]. destruct (crm_get HCr Hi Hg) as (c & Ec & Hc). rewrite (get_some Ec). cbn [bind].
  unfold getZ, setZ. destruct (c - 1 <? 0)%Z eqn:Ez; [apply Z.ltb_lt in Ez; lia|].
  destruct (@get_lt _ d (Z.to_nat (c - 1))) as (old & Eo); [lia|]. rewrite Eo. cbn [bind].
  rewrite set_lt by lia. eexists. split; [reflexivity|]. now rewrite upd_length.
Qed.

Lemma new_pCR_total L steps dtot pcr : length L = nCR p -> length steps = nCR p -> length dtot = nCR p -> length pcr = nCR p ->
  exists s' q, new_pCR N p L steps dtot pcr = Ok (s', q) /\ length s' = nCR p /\ length q = nCR p.
Proof.
  intros H1 H2 H3 H4. unfold new_pCR.
  match goal with |- context [each 0 (nCR p) ?f] => destruct (@each_total _ f (nCR p) 0) as (s' & Es) end.
  { intros m Hm. cbn [Nat.add]. destruct (@get_lt _ steps m) as (a & Ea); [lia|]. destruct (@get_lt _ L m) as (l & El); [lia|].
    rewrite Ea, El. cbn [bind]. eauto. }
  rewrite Es. cbn [bind]. destruct (each_Ok Es) as [Ls _].
  match goal with |- context [for_ (nCR p) ?f ?s0] =>
    destruct (@for_inv _ (fun _ _ => True) f (nCR p) s0 I) as (sum & E & _) end.
  { intros m s Hm _. destruct (@get_lt _ dtot m) as (d & Ed); [lia|]. rewrite Ed. cbn [bind]. eauto. }
  rewrite E. cbn [bind]. destruct (nltb N (nofZ N 0) sum); [|eexists _, _; split; [reflexivity|]; auto].
  match goal with |- context [each 0 (nCR p) ?f] => destruct (@each_total _ f (nCR p) 0) as (q & Eq) end.
  { intros m Hm. cbn [Nat.add]. destruct (@get_lt _ dtot m) as (a & Ea); [lia|]. destruct (@get_lt _ s' m) as (l & El); [lia|].
    rewrite Ea, El. cbn [bind]. eauto. }
  rewrite Eq. cbn [bind]. destruct (each_Ok Eq) as [Lq _]. eexists _, _. split; [reflexivity|]. split; [auto|]. now rewrite map_length.
Qed.

Lemma collapse_total t (lk : list (list T)) row lrow b : 1 <= t -> length lk = t -> (forall k r, nth_error lk k = Some r -> length r = n) ->
  row_ok row -> length lrow = n -> (0 <= burnInStart b <= Z.of_nat t)%Z ->
  exists row' lrow' b', collapse N gs p t lk row lrow b = Ok (row', lrow', b') /\ row_ok row' /\ length lrow' = n /\
    (b' = b \/ (b' = mkBurn 1 (Z.of_nat t) 0)).
Proof.
  intros Ht Hlk Hlr HR HL HBs. unfold collapse. destruct (_ && _)%bool; [|eexists _, _, _; split; [reflexivity|]; auto].
  unfold check_outliers.
  match goal with |- context [each 0 (numChains p) ?f] => destruct (@each_total _ f (numChains p) 0) as (ml & Em) end.
  { intros i Hi. cbn [Nat.add]. unfold window_lik.
    match goal with |- context [each 0 (t - t / 2) ?f] => destruct (@each_total _ f (t - t / 2) 0) as (w & Ew) end.
    { intros k Hk. cbn [Nat.add]. destruct (@nth_error_ex _ lk (t / 2 + k)) as (r & Er).
      { assert (Hd := Nat.div_lt t 2 ltac:(lia) ltac:(lia)). lia. }
      rewrite (get_some Er). cbn [bind]. apply get_lt. rewrite (Hlr _ _ Er). exact Hi. }
    rewrite Ew. cbn [bind]. eauto. }
  rewrite Em. cbn [bind]. destruct (each_Ok Em) as [Lm _]. set (best := g_max_index gs ml).
  assert (Hbest : best < n). { unfold best, n. rewrite <- Lm. apply MX. intros ->. cbn in Lm. lia. }
  match goal with |- context [for_ (numChains p) ?f ?s0] =>
    destruct (@for_inv _ (fun _ '(r, l, b') => row_ok r /\ length l = n /\ (b' = b \/ b' = mkBurn 1 (Z.of_nat t) 0)) f (numChains p) s0) as (((r & l) & b') & E & P) end.
  { auto. }
  { intros i ((r & l) & b') Hi (Hr & Hl & Hb'). destruct (@get_lt _ (map (fun m => nltb N m (nsub N (g_quant gs (g_sort gs ml) (ndec N 25 2)) (nmul N (nofZ N 2) (nsub N (g_quant gs (g_sort gs ml) (ndec N 75 2)) (g_quant gs (g_sort gs ml) (ndec N 25 2)))))) ml) i) as (o & Eo);
      [rewrite map_length; lia|]. rewrite Eo. cbn [bind].
    destruct (o && negb (i =? best))%bool; [|eexists; split; [reflexivity|]; cbv beta iota; auto].
    destruct (@get_lt _ l best) as (lb & El); [lia|]. rewrite El. cbn [bind]. rewrite set_lt by (unfold n in *; lia). cbn [bind].
    destruct Hr as [Lr Rr]. destruct (@nth_error_ex _ r best) as (rb & Er); [lia|]. rewrite (get_some Er). cbn [bind].
    rewrite set_lt by (unfold n in *; lia). cbn [bind]. eexists. split; [reflexivity|]. cbv beta iota.
    split; [split; [now rewrite upd_length|]|split; [now rewrite upd_length|]].
    - intros k x Ex. rewrite nth_error_upd in Ex. destruct ((i =? k) && (i <? length r))%bool; [|exact (Rr k x Ex)].
      injection Ex as <-. exact (Rr best rb Er).
    - destruct ((inBurnIn b' =? 0) && (0 <? burnIn p))%Z; auto. }
  rewrite E. destruct P as (P1 & P2 & P3). eauto 10.
Qed.

Lemma window_total st a len i j : (forall k r, nth_error st k = Some r -> row_ok r) -> a + len <= length st -> i < n -> j < nvar p ->
  exists w, window st a len i j = Ok w.
Proof.
  intros HS HL Hi Hj. unfold window. apply each_total. intros k Hk. cbn [Nat.add].
  destruct (@nth_error_ex _ st (a + k)) as (r & Er); [lia|]. rewrite (get_some Er). cbn [bind]. apply cell_total; eauto.
Qed.

(** the counts of the convergence test stay in range *)
Hypothesis SZ : (Z.of_nat (numChains p) * (Z.of_nat (maxEvals p) / 2) * (Z.of_nat (maxEvals p) / 2) <= 2147483647)%Z.

Lemma gelman_total st sr first t : (forall k r, nth_error st k = Some r -> row_ok r) -> length sr = nvar p ->
  1 <= t < maxEvals p -> t <= length st -> (0 <= first < Z.of_nat t)%Z ->
  exists sr', gelman_rubin N gs p st sr first (Z.of_nat t) false = Ok sr'.
Proof.
  intros HS HR Ht Hl Hf. unfold gelman_rubin.
  destruct (Z.of_nat t <=? 0)%Z eqn:Et; [apply Z.leb_le in Et; lia|].
  rewrite Z.quot_div_nonneg by lia. set (t0 := ((Z.of_nat t + first) / 2)%Z).
  assert (H0 : (0 <= t0 < Z.of_nat t)%Z).
  { unfold t0. split; [apply Z.div_pos; lia|]. apply Z.div_lt_upper_bound; lia. }
  destruct ((Z.of_nat t - t0 - 1 <? 0) || (t0 <? 0))%Z eqn:En.
  { apply orb_true_iff in En as [En|En]; apply Z.ltb_lt in En; lia. }
  apply each_total. intros j Hj. cbn [Nat.add].
  destruct (@get_lt _ (varLock p) j) as (b & Eb); [lia|]. destruct (@get_lt _ sr j) as (old & Eo); [lia|].
  rewrite Eb, Eo. cbn [bind]. destruct b; [eauto|].
  match goal with |- context [each 0 (numChains p) ?f] => destruct (@each_total _ f (numChains p) 0) as (cols & Ec) end.
  { intros i Hi. cbn [Nat.add]. apply window_total; auto. lia. }
  rewrite Ec. cbn [bind]. cbv zeta. set (k := (Z.of_nat t - t0 - 1)%Z) in *.
  destruct (2147483647 <? Z.of_nat (numChains p) * k * k)%Z eqn:Eo'; [|eauto]. apply Z.ltb_lt in Eo'. exfalso.
  assert (Hk : (0 <= k <= Z.of_nat (maxEvals p) / 2)%Z).
  { split; [unfold k; lia|]. apply Z.div_le_lower_bound; [lia|].
    assert (Hd := Z.div_mod (Z.of_nat t + first) 2 ltac:(lia)). assert (Hm := Z.mod_pos_bound (Z.of_nat t + first) 2 ltac:(lia)).
    fold t0 in Hd. unfold k. lia. }
  assert (Z.of_nat (numChains p) * k * k <= Z.of_nat (numChains p) * (Z.of_nat (maxEvals p) / 2) * (Z.of_nat (maxEvals p) / 2))%Z; [|lia].
  apply Z.mul_le_mono_nonneg; try lia. apply Z.mul_le_mono_nonneg; lia.
Qed.

Lemma all_converged_total sr : length sr = nvar p -> exists c, all_converged N p sr = Ok c.
Proof.
  intros L. unfold all_converged.
  match goal with |- context [for_ (nvar p) ?f ?s0] =>
    destruct (@for_inv _ (fun _ _ => True) f (nvar p) s0 I) as (e & E & _) end.
  { intros j e Hj _. destruct (@get_lt _ (varLock p) j) as (b & Eb); [lia|]. rewrite Eb. cbn [bind]. destruct b; [eauto|].
    destruct (@get_lt _ sr j) as (r & Er); [lia|]. rewrite Er. cbn [bind]. eauto. }
  rewrite E. cbn [bind]. eauto.
Qed.

(** the state before generation t *)
Record Shape (t : nat) (s : ds T G) : Prop := {
  s_t : 1 <= t;
  s_st : length (d_st s) = t; s_lk : length (d_lk s) = t;
  s_rows : forall k r, nth_error (d_st s) k = Some r -> row_ok r;
  s_lrows : forall k r, nth_error (d_lk s) k = Some r -> length r = n;
  s_pcr : length (d_pcr s) = nCR p; s_L : length (d_L s) = nCR p;
  s_crm : length (d_crm s) = n * loopSteps p;
  s_set : d_gen s <> 0 -> Forall entry_ok (d_crm s);
  s_gen : d_gen s < loopSteps p;
  s_dtot : length (d_dtot s) = nCR p; s_steps : length (d_steps s) = nCR p; s_sr : length (d_sr s) = nvar p;
  s_burn : (0 <= burnInStart (d_burn s) < Z.of_nat t /\ (inBurnIn (d_burn s) = 0 -> burnInStart (d_burn s) + burnIn p < Z.of_nat t))%Z }.

Lemma crossover_entry L : forall m, Forall (fun o => exists c, o = Some c /\ (Z.of_nat m <= c < Z.of_nat (m + length L))%Z) (crossover_entries m L).
Proof.
  induction L as [|l L IH]; intros m; cbn [crossover_entries]; [constructor|]. apply Forall_app. split.
  - apply Forall_forall. intros o Ho. apply repeat_spec in Ho. subst o. exists (Z.of_nat m). cbn [length]. split; [auto|lia].
  - eapply Forall_impl; [|apply IH]. intros o (c & -> & Hc). exists c. cbn [length]. split; [auto|lia].
Qed.

Lemma step_total t s : Shape t s -> t < maxEvals p ->
  exists s' c, step N rg gs fn ninf fuel p t s = Ok (s', c) /\ Shape (S t) s'.
Proof.
  intros H Ht. assert (T1 := s_t H). assert (Lst := s_st H). assert (Llk := s_lk H). unfold step.
  assert (exists crm L g1, (if d_gen s =? 0 then gen_CR rg (d_pcr s) (d_crm s) (d_L s) (d_g s) else Ok (d_crm s, d_L s, d_g s)) = Ok (crm, L, g1)
     /\ crm_ok crm /\ length L = nCR p) as (crm & L & g1 & E & HCr & HL).
  { destruct (d_gen s =? 0) eqn:E0.
    - destruct (@gen_CR_ok T G rg RG (d_pcr s) (d_crm s) (d_L s) (d_g s)) as (c & L & g' & E & A1 & A2 & A3).
      { rewrite (s_L H), (s_pcr H). auto. } { rewrite (s_pcr H). auto. }
      exists c, L, g'. split; [auto|]. rewrite (s_pcr H) in A1. split; [|auto]. split.
      + rewrite (Permutation_length A3), crossover_length, A2. apply (s_crm H).
      + eapply Permutation_Forall; [apply Permutation_sym, A3|]. eapply Forall_impl; [|apply crossover_entry].
        intros o (z & -> & Hz). exists z. split; [auto|]. lia.
    - apply Nat.eqb_neq in E0. eexists _, _, _. split; [reflexivity|]. split; [split|]; [apply (s_crm H)|apply (s_set H E0)|apply (s_L H)]. }
  rewrite E. cbn [bind]. clear E.
  destruct (@nth_error_ex _ (d_st s) (t - 1)) as (prev & Ep); [lia|]. rewrite (get_some Ep). cbn [bind]. assert (HP := s_rows H Ep).
  destruct (@nth_error_ex _ (d_lk s) (t - 1)) as (lprev & Elp); [lia|]. rewrite (get_some Elp). cbn [bind]. assert (HLP := s_lrows H Elp).
  destruct (@generation_total t prev lprev crm (d_gen s) (inBurnIn (d_burn s)) g1 HP HLP HCr (s_gen H))
    as (lprev' & row & lrow & trs & g2 & E & A1 & A2 & A3 & A4). rewrite E. cbn [bind]. clear E.
  assert (exists dtot, (if negb (inBurnIn (d_burn s) =? 0)%Z && pCR_update p then adapt N gs p prev row (map (@tr_acc T) trs) crm (d_gen s) (d_dtot s) else Ok (d_dtot s)) = Ok dtot
      /\ length dtot = nCR p) as (dtot & E & Ld).
  { destruct (negb (inBurnIn (d_burn s) =? 0)%Z && pCR_update p)%bool.
    - apply adapt_total; auto; [rewrite map_length; auto|apply (s_gen H)|apply (s_dtot H)].
    - eexists. split; [reflexivity|]. apply (s_dtot H). }
  rewrite E. cbn [bind]. clear E.
  set (lk := upd (d_lk s) (t - 1) lprev').
  assert (Hlk : length lk = t /\ forall k r, nth_error lk k = Some r -> length r = n).
  { unfold lk. split; [now rewrite upd_length|]. intros k r Er. rewrite nth_error_upd in Er.
    destruct ((t - 1 =? k) && (t - 1 <? length (d_lk s)))%bool; [congruence|]. exact (s_lrows H Er). }
  destruct (s_burn H) as [B1 B2].
  match goal with |- context [bind ?e _] =>
    assert (exists gen' steps pcr row' lrow' b' sr stop, e = Ok (gen', steps, pcr, row', lrow', b', sr, stop) /\
       gen' < loopSteps p /\ length steps = nCR p /\ length pcr = nCR p /\ row_ok row' /\ length lrow' = n /\ length sr = nvar p /\
       (0 <= burnInStart b' < Z.of_nat (S t))%Z /\ (inBurnIn b' = 0 -> burnInStart b' + burnIn p < Z.of_nat (S t))%Z)
    as (gen' & steps & pcr & row' & lrow' & b' & sr & stop & E & Z1 & Z2 & Z3 & Z4 & Z5 & Z6 & Z7 & Z8) end.
  { destruct (loopSteps p <=? d_gen s + 1) eqn:El.
    - assert (exists steps pcr, (if negb (inBurnIn (d_burn s) =? 0)%Z && pCR_update p then new_pCR N p L (d_steps s) dtot (d_pcr s) else Ok (d_steps s, d_pcr s)) = Ok (steps, pcr)
         /\ length steps = nCR p /\ length pcr = nCR p) as (steps & pcr & E & Ls & Lp).
      { destruct (negb (inBurnIn (d_burn s) =? 0)%Z && pCR_update p)%bool.
        - apply new_pCR_total; auto; [apply (s_steps H)|apply (s_pcr H)].
        - eexists _, _. split; [reflexivity|]. split; [apply (s_steps H)|apply (s_pcr H)]. }
      rewrite E. cbn [bind]. clear E.
      destruct (@collapse_total t lk row lrow (d_burn s)) as (row' & lrow' & b1 & E & C1 & C2 & C3); try tauto; [lia|].
      rewrite E. cbn [bind]. clear E.
      assert (Hst : forall k r, nth_error (d_st s ++ [row']) k = Some r -> row_ok r).
      { intros k r Er. destruct (lt_dec k t).
        - rewrite nth_error_app1 in Er by lia. exact (s_rows H Er).
        - rewrite nth_error_app2 in Er by lia. destruct (k - length (d_st s)) as [|q]; cbn in Er; [congruence|destruct q; discriminate]. }
      assert (Hb1 : (0 <= burnInStart b1 <= Z.of_nat t)%Z /\ (inBurnIn b1 = 0 -> burnInStart b1 + burnIn p < Z.of_nat t)%Z).
      { destruct C3 as [->| ->]; cbn [burnInStart inBurnIn]; split; try lia; auto. }
      destruct Hb1 as [Hb1 Hb2]. unfold end_of_loop. destruct (inBurnIn b1 =? 0)%Z eqn:Eb.
      + apply Z.eqb_eq in Eb. specialize (Hb2 Eb). destruct (gelmanEvals p <=? curRun b1 + 1)%Z.
        * destruct (@gelman_total (d_st s ++ [row']) (d_sr s) (burnInStart b1 + burnIn p)%Z t Hst (s_sr H)) as (sr' & E);
            [lia|rewrite app_length; lia|lia|]. rewrite E. cbn [bind].
          assert (Lsr : length sr' = nvar p). { unfold gelman_rubin in E. destruct (_ || _)%bool; [discriminate|]. destruct (each_Ok E); auto. }
          destruct (all_converged_total Lsr) as (c & Ec). rewrite Ec. cbn [bind]. clear E Ec.
          destruct c; cbn [bind]; eexists _, _, _, _, _, _, _, _; (split; [reflexivity|]); cbn [burnInStart inBurnIn]; repeat split; try lia; auto; try apply C1.
        * cbn [bind]; eexists _, _, _, _, _, _, _, _; (split; [reflexivity|]); cbn [burnInStart inBurnIn]; repeat split; try lia; auto; try apply C1. apply (s_sr H).
      + destruct (burnInStart b1 + burnIn p <=? Z.of_nat t)%Z eqn:Ele; [apply Z.leb_le in Ele|];
          cbn [bind]; eexists _, _, _, _, _, _, _, _; (split; [reflexivity|]); cbn [burnInStart inBurnIn]; repeat split; try lia; auto; try apply C1; try apply (s_sr H);
          intros; apply Z.eqb_neq in Eb; lia.
    - apply Nat.leb_gt in El. eexists _, _, _, _, _, _, _, _. split; [reflexivity|]. repeat split; try lia; auto; try apply A2;
        [apply (s_steps H)|apply (s_pcr H)|apply (s_sr H)]. }
  rewrite E. cbn [bind]. clear E.
  match goal with |- context [each 0 (numChains p) ?f] => destruct (@each_total _ f (numChains p) 0) as (lines & El) end.
  { intros i Hi. cbn [Nat.add]. destruct Z4 as [Z4 _]. fold n in Hi.
    destruct (@get_lt _ row' i) as (x & Ex); [lia|]. destruct (@get_lt _ lrow' i) as (l & El); [lia|].
    destruct (@get_lt _ trs i) as (q & Eq); [lia|]. rewrite Ex, El, Eq. cbn [bind]. eauto. }
  rewrite El. cbn [bind]. eexists _, _. split; [reflexivity|]. destruct Hlk as [Hk1 Hk2].
  split; cbn [d_st d_lk d_pcr d_L d_crm d_gen d_dtot d_steps d_sr d_burn]; rewrite ?app_length; cbn [length]; auto; try lia.
  - intros k r Er. destruct (lt_dec k t).
    + rewrite nth_error_app1 in Er by lia. exact (s_rows H Er).
    + rewrite nth_error_app2 in Er by lia. destruct (k - length (d_st s)) as [|q]; cbn in Er; [congruence|destruct q; discriminate].
  - intros k r Er. destruct (lt_dec k t).
    + rewrite nth_error_app1 in Er by lia. exact (Hk2 _ _ Er).
    + rewrite nth_error_app2 in Er by lia. destruct (k - length lk) as [|q]; cbn in Er; [congruence|destruct q; discriminate].
  - apply HCr.
  - intros _. apply HCr.
Qed.

Lemma generations_total m : forall t s, Shape t s -> t + m <= maxEvals p ->
  exists s' c, generations N rg gs fn ninf fuel p m t s = Ok (s', c).
Proof.
  induction m as [|m IH]; intros t s H Ht; cbn [generations]; eauto.
  destruct (@step_total t s H) as (s1 & c & E & H1); [lia|]. rewrite E. cbn [bind]. destruct c; eauto. apply IH; auto. lia.
Qed.

(** ---- the start ---- *)
Lemma collect_fuel A S (RR : Prop) (P : nat -> S -> Prop) (Q : nat -> A -> Prop) (f : nat -> S -> res (A * S)) m : forall k s,
  P k s ->
  (forall i s, k <= i < k + m -> P i s -> (f i s = Fuel /\ RR) \/ exists a s', f i s = Ok (a, s') /\ P (Datatypes.S i) s' /\ Q i a) ->
  (collect k m f s = Fuel /\ RR) \/ exists l s', collect k m f s = Ok (l, s') /\ length l = m /\ forall i a, nth_error l i = Some a -> Q (k + i) a.
Proof.
  induction m as [|m IH]; intros k s H0 Hs; cbn [collect].
  - right. exists [], s. split; auto. split; auto. intros [|i] a E; discriminate.
  - destruct (Hs k s) as [[E ER]|(a & s1 & E & P1 & Q1)]; [lia|auto|left; split; [now rewrite E|auto]|]. rewrite E. cbn [bind].
    destruct (IH (Datatypes.S k) s1 P1) as [[E2 ER]|(l & s2 & E2 & L & QQ)].
    { intros i t Hi. apply Hs. lia. }
    + left. split; [now rewrite E2|auto].
    + right. rewrite E2. cbn [bind]. exists (a :: l), s2. split; auto. split; [cbn; lia|].
      intros [|i] b Eb; cbn in Eb; [injection Eb as <-; rewrite Nat.add_0_r; auto|].
      replace (k + Datatypes.S i) with (Datatypes.S k + i) by lia. auto.
Qed.

Lemma draw_init_total (f : bool -> T -> T -> G -> res (T * G)) g :
  (forall b lo hi s j, j < nvar p -> exists v s', f b lo hi s = Ok (v, s')) ->
  exists x g', collect 0 (nvar p) (fun j g => do locked <- get (varLock p) j; do lo <- get (varLo p) j; do hi <- get (varHi p) j; f locked lo hi g) g = Ok (x, g')
    /\ length x = nvar p.
Proof.
  intros Hf. destruct (@collect_total _ _ (fun _ _ => True) (fun _ (_ : T) => True)
    (fun j g => do locked <- get (varLock p) j; do lo <- get (varLo p) j; do hi <- get (varHi p) j; f locked lo hi g) (nvar p) 0 g I)
    as (x & g' & E & _ & L & _); [|eauto].
  intros j s Hj _. destruct (@get_lt _ (varLock p) j) as (b & Eb); [lia|]. destruct (@get_lt _ (varLo p) j) as (lo & El); [lia|].
  destruct (@get_lt _ (varHi p) j) as (hi & Eh); [lia|]. rewrite Eb, El, Eh. cbn [bind].
  destruct (Hf b lo hi s j) as (v & s' & E); [lia|]. rewrite E. eauto.
Qed.

Lemma resample_fuel f : forall x l g, length x = nvar p ->
  resample N rg fn ninf p f x l g = Fuel \/ exists x' l' g', resample N rg fn ninf p f x l g = Ok (x', l', g') /\ length x' = nvar p.
Proof.
  induction f as [|f IH]; intros x l g L; cbn [resample]; destruct (_ || _)%bool; auto; [right; eauto 6| |right; eauto 6].
  destruct (@draw_init_total (fun locked lo hi g => if locked then Ok (clamp N lo lo hi, g)
                else let '(u, g') := uniform N rg g in Ok (clamp N (nadd N lo (nmul N (nsub N hi lo) u)) lo hi, g')) g) as (x' & g' & E & L').
  { intros b lo hi s j _. destruct b; [eauto|]. destruct (uniform N rg s). eauto. }
  rewrite E. cbn [bind]. apply IH. auto.
Qed.

Lemma initialize_fuel g : (dream_initialize N rg fn ninf fuel p g = Fuel /\
    exists x l s, length x = nvar p /\ resample N rg fn ninf p fuel x l s = Fuel) \/
  exists rows liks g', dream_initialize N rg fn ninf fuel p g = Ok (rows, liks, g') /\ row_ok rows /\ length liks = n.
Proof.
  unfold dream_initialize.
  match goal with |- context [collect 0 (nvar p) ?f g] =>
    destruct (@collect_total _ _ (fun _ _ => True) (fun _ (y : list Z) => length y = n) f (nvar p) 0 g I) as (samples & g1 & Ea & _ & La & Qa) end.
  { intros i s _ _. destruct (@shuffle_ok T G rg RG _ (map Z.of_nat (seq 0 (numChains p))) s) as (y & s' & E & P). exists y, s'. split; auto. split; auto.
    apply Permutation_length in P. rewrite map_length, seq_length in P. auto. }
  rewrite Ea. cbn [bind].
  match goal with |- context [collect 0 (numChains p) ?f g1] =>
    destruct (@collect_total _ _ (fun _ _ => True) (fun _ (y : list T) => length y = nvar p) f (numChains p) 0 g1 I) as (rows & g2 & Eb & _ & Lb & Qb) end.
  { intros i s Hi _.
    match goal with |- context [collect 0 (nvar p) ?f s] =>
      destruct (@collect_total _ _ (fun _ _ => True) (fun _ (_ : T) => True) f (nvar p) 0 s I) as (x & g' & E & _ & L & _) end; [|eauto 6].
    intros j s1 Hj _. destruct (@get_lt _ (varLock p) j) as (b & Eb); [lia|]. destruct (@get_lt _ (varLo p) j) as (lo & El); [lia|].
    destruct (@get_lt _ (varHi p) j) as (hi & Eh); [lia|]. rewrite Eb, El, Eh. cbn [bind]. destruct b; [eauto|].
    destruct (uniform N rg s1) as [u s2]. destruct (@nth_error_ex _ samples j) as (sj & Esj); [lia|]. rewrite (get_some Esj). cbn [bind].
    destruct (@get_lt _ sj i) as (z & Ez); [rewrite (Qa j sj Esj); unfold n; lia|]. rewrite Ez. cbn [bind]. eauto. }
  rewrite Eb. cbn [bind].
  match goal with |- context [each 0 (numChains p) ?f] => destruct (@each_total _ f (numChains p) 0) as (liks & El) end.
  { intros i Hi. cbn [Nat.add]. destruct (@nth_error_ex _ rows i) as (x & Ex); [lia|]. rewrite (get_some Ex). cbn [bind].
    destruct (@inside_total true x) as (b & E); [exact (Qb i x Ex)|]. rewrite E. cbn [bind]. eauto. }
  rewrite El. cbn [bind]. destruct (each_Ok El) as [Ll _].
  match goal with |- context [collect 0 (numChains p) ?f g2] =>
    destruct (@collect_fuel _ _ (exists x l s, length x = nvar p /\ resample N rg fn ninf p fuel x l s = Fuel) (fun _ _ => True) (fun _ (q : list T * T) => length (fst q) = nvar p) f (numChains p) 0 g2 I) as [[E ER]|(fin & g3 & E & Lf & Qf)] end.
  { intros i s Hi _. destruct (@nth_error_ex _ rows i) as (x & Ex); [lia|]. rewrite (get_some Ex). cbn [bind].
    destruct (@get_lt _ liks i) as (l & E); [lia|]. rewrite E. cbn [bind].
    destruct (@resample_fuel fuel x l s (Qb i x Ex)) as [E2|(x' & l' & g' & E2 & L2)]; rewrite E2; [left; split; [auto|]; exists x, l, s; split; [exact (Qb i x Ex)|auto]|right; cbn [bind]; eauto 6]. }
  - left. split; [now rewrite E|auto].
  - right. rewrite E. cbn [bind]. eexists _, _, _. split; [reflexivity|]. rewrite map_length. split; [|auto]. split; [now rewrite map_length|].
    intros i x Ex. rewrite nth_error_map in Ex. destruct (nth_error fin i) as [q|] eqn:Eq; [|discriminate]. cbn in Ex. injection Ex as <-. exact (Qf i q Eq).
Qed.

Lemma start_shape t st lk pcr inb out g : 1 <= t -> length st = t -> length lk = t ->
  (forall k r, nth_error st k = Some r -> row_ok r) -> (forall k r, nth_error lk k = Some r -> length r = n) ->
  length pcr = nCR p -> (inb = 0 -> burnIn p < Z.of_nat t)%Z -> Shape t (start N p st lk pcr inb out g).
Proof.
  intros. split; unfold start; cbn [d_st d_lk d_pcr d_L d_crm d_gen d_dtot d_steps d_sr d_burn burnInStart inBurnIn]; rewrite ?repeat_length; auto; try tauto.
  split; [lia|]. intros E. specialize (H5 E). lia.
Qed.

Lemma new_total g : (dream_new N rg gs fn ninf fuel p g = Fuel /\
    exists x l s, length x = nvar p /\ resample N rg fn ninf p fuel x l s = Fuel) \/ exists r, dream_new N rg gs fn ninf fuel p g = Ok r.
Proof.
  unfold dream_new. destruct (initialize_fuel g) as [[E ER]|(rows & liks & g1 & E & HR & HL)]; rewrite E; [left; auto|right]. cbn [bind].
  match goal with |- context [each 0 (numChains p) ?f] => destruct (@each_total _ f (numChains p) 0) as (lines & El) end.
  { intros i Hi. cbn [Nat.add]. destruct HR as [HR _]. fold n in Hi. destruct (@get_lt _ rows i) as (x & Ex); [lia|].
    destruct (@get_lt _ liks i) as (l & El); [lia|]. rewrite Ex, El. cbn [bind]. eauto. }
  rewrite El. cbn [bind].
  destruct (le_dec (maxEvals p) 1) as [Hm|Hm].
  - replace (maxEvals p - 1) with 0 by lia. cbn. eauto.
  - match goal with |- context [generations _ _ _ _ _ _ _ ?m 1 ?s0] => destruct (@generations_total m 1 s0) as (s' & c & Eg) end.
    + apply start_shape; auto.
      * intros [|[|k]] r Er; cbn in Er; try discriminate. congruence.
      * intros [|[|k]] r Er; cbn in Er; try discriminate. congruence.
      * apply repeat_length.
      * destruct (0 <? burnIn p)%Z eqn:Eb; [lia|]. apply Z.ltb_ge in Eb. lia.
    + lia.
    + rewrite Eg. cbn [bind]. eauto.
Qed.

(** with a likelihood that is a proper number within the limits one redrawing is enough *)
Hypothesis irr : forall x, nltb N x x = false.
Hypothesis ordered : forall j l h, nth_error (varLo p) j = Some l -> nth_error (varHi p) j = Some h -> nltb N h l = false.
Hypothesis proper : forall x, respects N (varLock p) (varLo p) (varHi p) x -> neqb N (fn x) ninf = false /\ neqb N (fn x) (fn x) = true.
Lemma resample_proper f x l g : 1 <= f -> resample N rg fn ninf p f x l g <> Fuel.
Proof.
  intros Hf. destruct f as [|f]; [lia|]. cbn [resample]. destruct (_ || _)%bool; [|discriminate].
  destruct (@draw_init_total (fun locked lo hi g => if locked then Ok (clamp N lo lo hi, g)
                else let '(u, g') := uniform N rg g in Ok (clamp N (nadd N lo (nmul N (nsub N hi lo) u)) lo hi, g')) g) as (x' & g' & E & L').
  { intros b lo hi s j _. destruct b; [eauto|]. destruct (uniform N rg s). eauto. }
  rewrite E. cbn [bind].
  assert (Hg : respects N (varLock p) (varLo p) (varHi p) x').
  { apply (drawn_good V1 V2 V3 LS irr ordered E). intros j s v s' Hj Ej.
    apply bind_Ok in Ej as (b & Eb & Ej). apply bind_Ok in Ej as (lo & Elo & Ej). apply bind_Ok in Ej as (hi & Ehi & Ej).
    apply get_Ok_iff in Eb, Elo, Ehi. exists b, lo, hi. do 3 (split; [assumption|]).
    destruct b; [apply Ok_inj in Ej; congruence|]. destruct (uniform N rg s) as [u g2]. apply Ok_inj in Ej.
    injection Ej as <- _. eauto. }
  destruct (proper Hg) as [P1 P2]. destruct f; cbn [resample]; rewrite P1, P2; discriminate.
Qed.
Lemma new_total_proper g : exists r, dream_new N rg gs fn ninf fuel p g = Ok r.
Proof.
  destruct (new_total g) as [[_ (x & l & s & _ & E)]|H]; auto.
  exfalso. revert E. apply resample_proper. lia.
Qed.
End Total.
