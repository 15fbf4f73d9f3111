(** Resuming: reading back chain files. *)
From Coq Require Import List Arith ZArith Bool Lia.
From Verif Require Import Base Num Params_Model Params_Spec Boot_Model Boot_Spec Boot_Proof
  Dream_Model Dream_Spec Dream_Proof Dream_RunProof.
Import ListNotations.
Set Implicit Arguments.
Unset Strict Implicit.

Lemma on_centres_length T (f g h : T -> T) bs : forall v, length (on_centres f g h bs v) = length v.
Proof.
  induction bs as [|b bs IH]; intros [|x [|y r]]; cbn [on_centres length]; auto.
  rewrite app_length, map_length, IH, <- app_length, firstn_skipn. reflexivity.
Qed.
Lemma on_centres_id T (f g h : T -> T) bs : (forall x, f x = x) -> (forall x, g x = x) -> (forall x, h x = x) ->
  forall v, on_centres f g h bs v = v.
Proof.
  intros Hf Hg Hh. induction bs as [|b bs IH]; intros [|x [|y r]]; cbn [on_centres]; auto.
  rewrite Hf, Hg, IH. rewrite (map_ext h (fun x => x) Hh), map_id, firstn_skipn. reflexivity.
Qed.

Section Restore.
Variables (T : Type) (N : Num T) (G : Type).
Variables (rg : rng T G) (gs : gsl T) (fn : list T -> T) (ninf : T) (fuel : nat).
Variable p : pars T.
Variable tok : Type.
Variables (rd : tok -> option T) (rd_int : tok -> option Z) (pr10 pr12 : T -> tok) (pr_int : Z -> tok).
Variables (q10 q12 : T -> T) (ok : T -> Prop).
Hypothesis H10 : forall v, ok v -> rd (pr10 v) = Some (q10 v).
Hypothesis H12 : forall v, ok v -> rd (pr12 v) = Some (q12 v).
Hypothesis Hint : forall z, rd_int (pr_int z) = Some z.

Lemma read_nums_ok (pr : T -> tok) (q : T -> T) : (forall v, ok v -> rd (pr v) = Some (q v)) ->
  forall xs rest vars, Forall ok xs -> length vars = length xs ->
  read_nums N rd (map pr xs ++ rest) vars = (map (fun x => Some (q x)) xs, Some rest).
Proof.
  intros Hq. induction xs as [|x xs IH]; intros rest [|v vars] HF HL; try discriminate; [destruct rest; reflexivity|].
  inversion HF; subst. cbn [map app read_nums]. rewrite (Hq x) by auto. rewrite IH by auto. reflexivity.
Qed.

Definition line_ok (xs : list T) (o : oline T) : Prop :=
  length xs = nvar p /\ Forall ok xs /\ ok (o_lik o) /\ Forall ok (o_pcr o) /\ length (o_pcr o) = nCR p.

Lemma read_line_ok xs o inb pcr : line_ok xs o -> length pcr = nCR p ->
  read_line N p rd rd_int (map pr10 xs ++ [pr12 (o_lik o); pr_int (o_burn o)] ++ map pr12 (o_pcr o) ++ [pr_int (o_acc o)]) inb pcr =
  (map (fun x => Some (q10 x)) xs, Some (q12 (o_lik o)), o_burn o, map q12 (o_pcr o)).
Proof.
  intros (L1 & F1 & F2 & F3 & L2) Lp. unfold read_line.
  rewrite (read_nums_ok H10 (xs := xs)) by (auto; now rewrite repeat_length).
  cbn [app]. cbn [read_nums]. rewrite (H12 F2). rewrite Hint.
  rewrite (read_nums_ok H12 (xs := o_pcr o)) by (auto; now rewrite map_length, Lp).
  rewrite map_map. reflexivity.
Qed.

(** lines of one file: words and what they mean *)
Definition words_of (xo : list T * oline T) : list tok :=
  map pr10 (fst xo) ++ [pr12 (o_lik (snd xo)); pr_int (o_burn (snd xo))] ++ map pr12 (o_pcr (snd xo)) ++ [pr_int (o_acc (snd xo))].
Definition row_of (xo : list T * oline T) : list (option T) * option T :=
  (map (fun x => Some (q10 x)) (fst xo), Some (q12 (o_lik (snd xo)))).

Lemma read_file_data ls : forall line inb pcr, Forall (fun xo => line_ok (fst xo) (snd xo)) ls -> length pcr = nCR p ->
  line + length ls <= maxEvals p ->
  read_file N p rd rd_int (map (fun xo => Data (words_of xo)) ls) line inb pcr =
  (map row_of ls, last (map (fun xo => o_burn (snd xo)) ls) inb, last (map (fun xo => map q12 (o_pcr (snd xo))) ls) pcr).
Proof.
  induction ls as [|xo ls IH]; intros line inb pcr HF HP HL; [reflexivity|].
  inversion HF as [|y l Hx HF']; subst. cbn [map read_file length] in *.
  destruct (maxEvals p <=? line) eqn:E; [apply Nat.leb_le in E; lia|].
  unfold words_of at 1. rewrite (read_line_ok inb Hx HP).
  rewrite IH; [|auto|destruct Hx as (_ & _ & _ & _ & L); now rewrite map_length|lia].
  f_equal; [f_equal|].
  - destruct ls; [reflexivity|]. cbn [map last]. clear. generalize (snd p0). intros. revert o. induction ls as [|a ls IH]; intros o; [reflexivity|]. cbn [map last] in *. apply IH.
  - destruct ls; [reflexivity|]. cbn [map last]. clear. generalize (snd p0). intros. revert o. induction ls as [|a ls IH]; intros o; [reflexivity|]. cbn [map last] in *. apply IH.
Qed.

Lemma read_file_header header : Forall (fun l => l = @Skip tok) header -> forall ls line inb pcr,
  line < maxEvals p ->
  read_file N p rd rd_int (header ++ ls) line inb pcr = read_file N p rd rd_int ls line inb pcr.
Proof.
  induction header as [|h hs IH]; intros HF ls line inb pcr HL; [reflexivity|]. inversion HF; subst.
  cbn [app read_file]. destruct (maxEvals p <=? line) eqn:E; [apply Nat.leb_le in E; lia|]. auto.
Qed.

(** all files of L lines each *)
Lemma restore_files_ok header L : Forall (fun l => l = @Skip tok) header -> 1 <= L < maxEvals p ->
  forall (chains : list (list (list T * oline T))) pl inb pcr,
  Forall (fun ls => length ls = L /\ Forall (fun xo => line_ok (fst xo) (snd xo)) ls) chains -> length pcr = nCR p ->
  (pl = Z.of_nat (maxEvals p) \/ pl = Z.of_nat L - 1)%Z ->
  exists b q, length q = nCR p /\
  restore_files N p rd rd_int (map (fun ls => Some (header ++ map (fun xo => Data (words_of xo)) ls)) chains) pl inb pcr =
  ((match chains with [] => pl | _ => Z.of_nat L - 1 end)%Z, map (map row_of) chains, b, q) /\
  (forall ls xo, nth_error chains (length chains - 1) = Some ls -> nth_error ls (L - 1) = Some xo -> b = o_burn (snd xo) /\ q = map q12 (o_pcr (snd xo))).
Proof.
  intros HH HL. induction chains as [|ls chains IH]; intros pl inb pcr HF HP Hpl.
  - exists inb, pcr. split; auto. split; [reflexivity|]. intros [|? ?] xo H; discriminate.
  - apply Forall_cons_iff in HF as [[Hl Hls] HF']. cbn [map restore_files].
    rewrite (read_file_header HH) by lia. rewrite read_file_data by (auto; lia). rewrite map_length, Hl.
    set (b1 := last _ inb). set (q1 := last _ pcr).
    assert (Hq : length q1 = nCR p).
    { unfold q1. destruct (@exists_last _ ls) as (ls' & xo & E); [intros ->; cbn in Hl; lia|]. rewrite E, map_app. cbn [map].
      rewrite last_last, map_length. rewrite Forall_forall in Hls. destruct (Hls xo) as (_ & _ & _ & _ & ?); [rewrite E; apply in_or_app; right; left; auto|auto]. }
    assert (Epl : (if (Z.of_nat L <? pl)%Z then (Z.of_nat L - 1)%Z else pl) = (Z.of_nat L - 1)%Z).
    { destruct Hpl as [->| ->]; [|destruct (_ <? _)%Z; auto]. destruct (Z.of_nat L <? Z.of_nat (maxEvals p))%Z eqn:E; auto. apply Z.ltb_ge in E. lia. }
    rewrite Epl.
    destruct (IH (Z.of_nat L - 1)%Z b1 q1 HF' Hq) as (b & q & Lq & E & HQ); [right; reflexivity|].
    rewrite E. exists b, q. split; auto. split; [destruct chains; reflexivity|].
    intros ls0 xo0. destruct chains as [|c cs].
    + cbn. intros E0 E1. injection E0 as <-. cbn in E. injection E as <- <-.
      destruct (@exists_last _ ls) as (ls' & xo & E); [intros ->; cbn in Hl; lia|].
      unfold b1, q1. rewrite E, !map_app. cbn [map]. rewrite !last_last.
      rewrite E in Hl. rewrite app_length in Hl. cbn in Hl. rewrite E, nth_error_app2 in E1 by lia.
      replace (L - 1 - length ls') with 0 in E1 by lia. cbn in E1. injection E1 as <-. auto.
    + intros E0 E1. apply (HQ ls0 xo0); [|auto]. cbn [length] in *. rewrite Nat.sub_succ, Nat.sub_0_r in *. exact E0.
Qed.

Lemma all_set_map (xs : list T) (q : T -> T) : all_set (map (fun x => Some (q x)) xs) = Ok (map q xs).
Proof.
  unfold all_set. match goal with |- each 0 ?m ?f = _ => destruct (@each_total _ f m 0) as (l & E) end.
  { intros j Hj. cbn [Nat.add]. rewrite map_length in Hj. destruct (@nth_error_ex _ xs j Hj) as (x & Ex).
    unfold get. rewrite nth_error_map, Ex. cbn. eauto. }
  rewrite E. f_equal. apply nth_error_eq. intros i. rewrite nth_error_map.
  destruct (each_Ok E) as [L _]. rewrite map_length in L.
  destruct (nth_error l i) as [v|] eqn:Ev.
  - assert (F := each_nth E Ev). cbn [Nat.add] in F. unfold get in F. rewrite nth_error_map in F.
    destruct (nth_error xs i); cbn in F; [|discriminate]. apply Ok_inj in F. cbn. congruence.
  - apply nth_error_None in Ev. assert (H : nth_error xs i = None) by (apply nth_error_None; lia). rewrite H. reflexivity.
Qed.

Lemma restored_row_ok (chains : list (list (list T * oline T))) t L : t < L ->
  Forall (fun ls => length ls = L) chains ->
  exists row lrow, restored_row (map (map row_of) chains) t = Ok (row, lrow) /\ length row = length chains /\ length lrow = length chains /\
    forall i ls xo, nth_error chains i = Some ls -> nth_error ls t = Some xo ->
      nth_error row i = Some (map q10 (fst xo)) /\ nth_error lrow i = Some (q12 (o_lik (snd xo))).
Proof.
  intros Ht HF. unfold restored_row. rewrite map_length.
  assert (Hc : forall i, i < length chains -> exists ls xo, nth_error chains i = Some ls /\ nth_error ls t = Some xo).
  { intros i Hi. destruct (@nth_error_ex _ chains i Hi) as (ls & El). rewrite Forall_forall in HF.
    destruct (@nth_error_ex _ ls t) as (xo & Ex); [rewrite (HF ls (nth_error_In _ _ El)); auto|]. eauto. }
  match goal with |- context [bind (each 0 ?m ?f) _] => destruct (@each_total _ f m 0) as (row & E) end.
  { intros i Hi. cbn [Nat.add]. destruct (Hc i Hi) as (ls & xo & E1 & E2). unfold get. rewrite nth_error_map, E1. cbn [option_map bind].
    rewrite nth_error_map, E2. cbn [option_map bind]. unfold row_of. cbn [fst]. rewrite all_set_map. eauto. }
  rewrite E. cbn [bind].
  match goal with |- context [bind (each 0 ?m ?f) _] => destruct (@each_total _ f m 0) as (lrow & E') end.
  { intros i Hi. cbn [Nat.add]. destruct (Hc i Hi) as (ls & xo & E1 & E2). unfold get. rewrite nth_error_map, E1. cbn [option_map bind].
    rewrite nth_error_map, E2. cbn [option_map bind]. unfold row_of. cbn [snd]. eauto. }
  rewrite E'. cbn [bind]. exists row, lrow. split; auto.
  destruct (each_Ok E) as [L1 R1]. destruct (each_Ok E') as [L2 R2]. split; auto. split; auto.
  intros i ls xo E1 E2. assert (Hi : i < length chains) by (apply nth_error_lt in E1; auto). split.
  - destruct (R1 i Hi) as (a & Ea & F). rewrite Ea. cbn [Nat.add] in F. unfold get in F. rewrite nth_error_map, E1 in F. cbn [option_map bind] in F.
    rewrite nth_error_map, E2 in F. cbn [option_map bind] in F. unfold row_of in F. cbn [fst] in F. rewrite all_set_map in F. apply Ok_inj in F. congruence.
  - destruct (R2 i Hi) as (a & Ea & F). rewrite Ea. cbn [Nat.add] in F. unfold get in F. rewrite nth_error_map, E1 in F. cbn [option_map bind] in F.
    rewrite nth_error_map, E2 in F. cbn [option_map bind] in F. unfold row_of in F. cbn [snd] in F. apply Ok_inj in F. congruence.
Qed.

(** a run that begins with the given history *)
Definition continues (st : list (list (list T))) (lk : list (list T)) (pcr : list T) (inb : Z) (g : G) : res (Z * ds T G) :=
  do r <- generations N rg gs fn ninf fuel p (maxEvals p - length st) (length st) (start N p st lk pcr inb [] g);
  let '(s, c) := r in Ok (exit_code c, s).

Lemma resume_chains header L (chains : list (list (list T * oline T))) g :
  Forall (fun l => l = @Skip tok) header -> 1 <= L < maxEvals p -> chains <> [] ->
  Forall (fun ls => length ls = L /\ Forall (fun xo => line_ok (fst xo) (snd xo)) ls) chains ->
  exists st lk b q, length st = L /\ length lk = L /\ length q = nCR p /\
  (forall t i ls xo, nth_error chains i = Some ls -> nth_error ls t = Some xo ->
      at_ st t i = Some (map q10 (fst xo)) /\ at_ lk t i = Some (q12 (o_lik (snd xo)))) /\
  (forall t row, nth_error st t = Some row -> length row = length chains) /\
  (forall t row, nth_error lk t = Some row -> length row = length chains) /\
  (forall ls xo, nth_error chains (length chains - 1) = Some ls -> nth_error ls (L - 1) = Some xo -> b = o_burn (snd xo) /\ q = map q12 (o_pcr (snd xo))) /\
  dream_resume N rg gs fn ninf fuel p rd rd_int (map (fun ls => Some (header ++ map (fun xo => Data (words_of xo)) ls)) chains) g
    = continues st lk q b g.
Proof.
  intros HH HL HN HF. unfold dream_resume, dream_restore_state.
  destruct (@restore_files_ok header L HH HL chains (Z.of_nat (maxEvals p)) (if 0 <? burnIn p then 1 else 0)%Z
     (repeat (ndiv N (nofZ N 1) (nofZ N (Z.of_nat (nCR p)))) (nCR p)) HF) as (b & q & Lq & E & HQ); [apply repeat_length|auto|].
  rewrite E. destruct chains as [|c cs] eqn:Ech; [contradiction|]. rewrite <- Ech in *. clear E.
  destruct (Z.of_nat L - 1 <? 0)%Z eqn:E0; [apply Z.ltb_lt in E0; lia|].
  replace (Z.to_nat (Z.of_nat L - 1 + 1)) with L by lia.
  destruct (maxEvals p <=? L) eqn:E1; [apply Nat.leb_le in E1; lia|].
  assert (HF' : Forall (fun ls => length ls = L) chains) by (eapply Forall_impl; [|exact HF]; cbv beta; tauto).
  match goal with |- context [bind (each 0 L ?f) _] => destruct (@each_total _ f L 0) as (rows & Er) end.
  { intros t Ht. cbn [Nat.add]. destruct (restored_row_ok Ht HF') as (row & lrow & Eq & _). eauto. }
  destruct (each_Ok Er) as [Lr Qr].
  exists (map fst rows), (map snd rows), b, q. rewrite !map_length. do 3 (split; [auto|]).
  assert (HR : forall t x, nth_error rows t = Some x -> t < L /\ restored_row (map (map row_of) chains) t = Ok x).
  { intros t x Ex. assert (F := each_nth Er Ex). split; auto. apply nth_error_lt in Ex. lia. }
  split; [|split; [|split; [|split]]].
  - intros t i ls xo E2 E3. assert (Ht : t < L). { rewrite Forall_forall in HF'. rewrite <- (HF' ls (nth_error_In _ _ E2)). apply nth_error_lt in E3. auto. }
    destruct (restored_row_ok Ht HF') as (row & lrow & Eq & _ & _ & Q). destruct (Q i ls xo E2 E3) as [Q1 Q2].
    destruct (Qr t Ht) as (x & Ex & F). cbn [Nat.add] in F. rewrite Eq in F. apply Ok_inj in F. subst x.
    unfold at_. rewrite !nth_error_map, Ex. cbn. auto.
  - intros t row E2. rewrite nth_error_map in E2. destruct (nth_error rows t) as [x|] eqn:Ex; [|discriminate]. cbn in E2. injection E2 as <-.
    destruct (HR t x Ex) as [Ht F]. destruct (restored_row_ok Ht HF') as (row & lrow & Eq & L1 & L2 & _). rewrite Eq in F. apply Ok_inj in F. subst x. auto.
  - intros t row E2. rewrite nth_error_map in E2. destruct (nth_error rows t) as [x|] eqn:Ex; [|discriminate]. cbn in E2. injection E2 as <-.
    destruct (HR t x Ex) as [Ht F]. destruct (restored_row_ok Ht HF') as (row' & lrow & Eq & L1 & L2 & _). rewrite Eq in F. apply Ok_inj in F. subst x. auto.
  - exact HQ.
  - rewrite Er. cbn [bind]. unfold continues. rewrite !map_length, Lr. reflexivity.
Qed.

Lemma list_choice A (P : nat -> A -> Prop) m : (forall i, i < m -> exists a, P i a) ->
  exists l, length l = m /\ forall i a, nth_error l i = Some a -> P i a.
Proof.
  induction m as [|m IH]; intros H.
  - exists []. split; auto. intros [|i] a E; discriminate.
  - destruct IH as (l & L & Q); [intros; apply H; lia|]. destruct (H m) as (a & Ha); [lia|].
    exists (l ++ [a]). split; [rewrite app_length; cbn; lia|]. intros i b E. destruct (lt_dec i m).
    + rewrite nth_error_app1 in E by lia. auto.
    + assert (i = m). { apply nth_error_lt in E. rewrite app_length in E. cbn in E. lia. } subst i.
      rewrite nth_error_app2, L, Nat.sub_diag in E by lia. cbn in E. congruence.
Qed.

Variables (bs : list (blk T)) (ox oy : Z).
Hypothesis HB : blocks_ok bs.
Hypothesis HV : nvar p = length (flat bs).
Let full := in_full_image_exactly N ox oy bs.

Lemma chain_file_ok header out i file :
  (forall k row o, nth_error out k = Some row -> nth_error row i = Some o -> length (o_par o) = nvar p) ->
  chain_file N pr10 pr12 pr_int (mo_of bs ox oy) header out i = Ok file ->
  exists ls, length ls = length out /\ file = header ++ map (fun xo => Data (words_of xo)) ls /\
    forall k xo, nth_error ls k = Some xo -> at_ out k i = Some (snd xo) /\ fst xo = full (o_par (snd xo)).
Proof.
  intros HO H. unfold chain_file in H. apply bind_Ok in H as (ls & Hl & H). apply Ok_inj in H. subst file.
  destruct (each_Ok Hl) as [L Q].
  destruct (@list_choice _ (fun k (xo : list T * oline T) => nth_error ls k = Some (Data (words_of xo)) /\ at_ out k i = Some (snd xo) /\ fst xo = full (o_par (snd xo))) (length out)) as (xs & Lx & Qx).
  { intros k Hk. destruct (Q k Hk) as (a & Ea & F). cbn [Nat.add] in F.
    apply bind_Ok in F as (row & Er & F). apply bind_Ok in F as (o & Eo & F). apply get_Ok_iff in Er, Eo.
    apply bind_Ok in F as (w & Ew & F). apply Ok_inj in F. unfold line_words in Ew.
    rewrite (horizontal_ok N ox oy HB) in Ew by (rewrite <- HV; eauto). cbn [bind] in Ew. apply Ok_inj in Ew.
    exists (full (o_par o), o). cbn [fst snd]. split; [|split; [unfold at_; now rewrite Er|auto]].
    rewrite Ea. unfold words_of. cbn [fst snd]. subst a w. reflexivity. }
  exists xs. split; auto. split; [|intros k xo E; apply (Qx k xo E)].
  f_equal. apply nth_error_eq. intros k. rewrite nth_error_map. destruct (nth_error xs k) as [xo|] eqn:E.
  - cbn. apply (Qx k xo E).
  - apply nth_error_None in E. assert (F : nth_error ls k = None) by (apply nth_error_None; lia). now rewrite F.
Qed.

Lemma full_length v : length v = nvar p -> length (full v) = nvar p.
Proof. intros H. unfold full, in_full_image_exactly. now rewrite on_centres_length. Qed.

Lemma resume_ok header (out : list (list (oline T))) files g :
  Forall (fun l => l = @Skip tok) header -> 1 <= length out < maxEvals p -> 0 < numChains p ->
  (forall k row, nth_error out k = Some row -> length row = numChains p) ->
  (forall k i o, at_ out k i = Some o -> length (o_par o) = nvar p /\ Forall ok (full (o_par o)) /\ ok (o_lik o) /\
      Forall ok (o_pcr o) /\ length (o_pcr o) = nCR p) ->
  each 0 (numChains p) (chain_file N pr10 pr12 pr_int (mo_of bs ox oy) header out) = Ok files ->
  exists st lk b q, length st = length out /\ length lk = length out /\ length q = nCR p /\
    (forall k i o, at_ out k i = Some o -> at_ st k i = Some (map q10 (full (o_par o))) /\ at_ lk k i = Some (q12 (o_lik o))) /\
    (forall k row, nth_error st k = Some row -> length row = numChains p) /\
    (forall k row, nth_error lk k = Some row -> length row = numChains p) /\
    (forall o, at_ out (length out - 1) (numChains p - 1) = Some o -> b = o_burn o /\ q = map q12 (o_pcr o)) /\
    dream_resume N rg gs fn ninf fuel p rd rd_int (map Some files) g = continues st lk q b g.
Proof.
  intros HH HL HN HR HO HF. destruct (each_Ok HF) as [Lf Qf].
  destruct (@list_choice _ (fun i (ls : list (list T * oline T)) => length ls = length out /\
     nth_error files i = Some (header ++ map (fun xo => Data (words_of xo)) ls) /\
     forall k xo, nth_error ls k = Some xo -> at_ out k i = Some (snd xo) /\ fst xo = full (o_par (snd xo))) (numChains p)) as (chains & Lc & Qc).
  { intros i Hi. destruct (Qf i Hi) as (file & Ef & F). cbn [Nat.add] in F.
    destruct (@chain_file_ok header out i file) as (ls & L & E & Q); [|auto|].
    - intros k row o Er Eo. apply (HO k i o). unfold at_. now rewrite Er.
    - exists ls. split; auto. split; auto. rewrite Ef. congruence. }
  assert (Efiles : map Some files = map (fun ls => Some (header ++ map (fun xo => Data (words_of xo)) ls)) chains).
  { apply nth_error_eq. intros i. rewrite !nth_error_map. destruct (nth_error chains i) as [ls|] eqn:E.
    - destruct (Qc i ls E) as (_ & E2 & _). rewrite E2. reflexivity.
    - apply nth_error_None in E. assert (F : nth_error files i = None) by (apply nth_error_None; lia). now rewrite F. }
  destruct (@resume_chains header (length out) chains g HH HL) as (st & lk & b & q & A1 & A2 & A3 & A4 & A5 & A6 & A7 & A8).
  { intros ->. cbn in Lc. lia. }
  { apply Forall_forall. intros ls Hin. apply In_nth_error in Hin as (i & Ei). destruct (Qc i ls Ei) as (L & _ & Q). split; auto.
    apply Forall_forall. intros xo Hx. apply In_nth_error in Hx as (k & Ek). destruct (Q k xo Ek) as [Q1 Q2].
    destruct (HO k i _ Q1) as (O1 & O2 & O3 & O4 & O5). split; [rewrite Q2; apply full_length; auto|]. rewrite Q2. auto. }
  exists st, lk, b, q. rewrite Efiles. do 3 (split; [assumption|]).
  assert (Hch : forall k i o, at_ out k i = Some o -> exists ls, nth_error chains i = Some ls /\ nth_error ls k = Some (full (o_par o), o)).
  { intros k i o E. unfold at_ in E. destruct (nth_error out k) as [row|] eqn:Er; [|discriminate].
    assert (i < numChains p) by (rewrite <- (HR k row Er); apply nth_error_lt in E; auto).
    destruct (@nth_error_ex _ chains i) as (ls & El); [lia|]. exists ls. split; auto. destruct (Qc i ls El) as (L & _ & Q).
    destruct (@nth_error_ex _ ls k) as ((xs, o') & Ex); [rewrite L; apply nth_error_lt in Er; auto|].
    destruct (Q k _ Ex) as [Q1 Q2]. cbn [fst snd] in Q1, Q2. unfold at_ in Q1. rewrite Er, E in Q1. injection Q1 as <-. congruence. }
  split. { intros k i o E. destruct (Hch k i o E) as (ls & E1 & E2). apply (A4 k i ls _ E1 E2). }
  split. { intros k row E. rewrite <- Lc. eauto. }
  split. { intros k row E. rewrite <- Lc. eauto. }
  split; [|exact A8].
  intros o E. destruct (Hch _ _ o E) as (ls & E1 & E2). rewrite <- Lc in E1. apply (A7 ls _ E1 E2).
Qed.

(** what was there at the start stays *)
Lemma step_prefix t s s' c : step N rg gs fn ninf fuel p t s = Ok (s', c) -> exists r, d_st s' = d_st s ++ [r].
Proof.
  unfold step. intros H. apply bind_Ok in H as (((crm & L) & g1) & _ & H).
  apply bind_Ok in H as (prev & Hp & H). apply bind_Ok in H as (lprev & Hlp & H).
  apply bind_Ok in H as (((((lprev' & row) & lrow) & trs) & g2) & Hg & H).
  apply bind_Ok in H as (dtot & _ & H).
  apply bind_Ok in H as ((((((((gen' & steps) & pcr) & row') & lrow') & b') & sr) & stop') & Hz & H).
  apply bind_Ok in H as (lines & Hlines & H). apply Ok_inj in H. injection H as <- <-. cbn [d_st]. eauto.
Qed.
Lemma generations_prefix m : forall t s s' c, generations N rg gs fn ninf fuel p m t s = Ok (s', c) -> exists r, d_st s' = d_st s ++ r.
Proof.
  induction m as [|m IH]; intros t s s' c H; cbn [generations] in H.
  - apply Ok_inj in H. injection H as <- <-. exists []. now rewrite app_nil_r.
  - apply bind_Ok in H as ((s1 & stop) & Hs & H). destruct (step_prefix Hs) as (r & Er). destruct stop.
    + apply Ok_inj in H. injection H as <- <-. eauto.
    + destruct (IH _ _ _ _ H) as (r' & Er'). exists ([r] ++ r'). now rewrite Er', Er, app_assoc.
Qed.
Lemma continues_prefix st lk q b g code s : continues st lk q b g = Ok (code, s) -> exists r, d_st s = st ++ r.
Proof.
  unfold continues. intros H. apply bind_Ok in H as ((s1 & c) & Hg & H). apply Ok_inj in H. injection H as <- <-.
  destruct (generations_prefix Hg) as (r & E). eauto.
Qed.
End Restore.
