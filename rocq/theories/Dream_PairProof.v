(** Choice of chains and crossover values; what a proposal is made of. *)
From Coq Require Import List Arith ZArith Bool Lia Permutation.
From Verif Require Import Base Num Dream_Model Dream_Spec Dream_Proof.
Import ListNotations.
Set Implicit Arguments.
Unset Strict Implicit.

Lemma rem_next n r : (0 <= r < n)%Z -> Z.rem (r + 1) n = if (r + 1 =? n)%Z then 0%Z else (r + 1)%Z.
Proof.
  intros H. destruct (r + 1 =? n)%Z eqn:E.
  - apply Z.eqb_eq in E. rewrite E. apply Z.rem_same. lia.
  - apply Z.eqb_neq in E. apply Z.rem_small. lia.
Qed.

Lemma next_r2_ok n i r1 r2 f : (3 <= n -> 0 <= r2 < n -> 2 <= Z.of_nat f ->
  exists r, next_r2 f n i r1 r2 = Ok r /\ 0 <= r < n /\ r <> r1 /\ r <> i)%Z.
Proof.
  intros Hn Hr Hf. destruct f as [|[|f]]; try lia. cbn [next_r2].
  destruct ((r2 =? r1) || (r2 =? i))%Z eqn:E1.
  - assert (Hr2 := rem_next Hr). set (r2' := Z.rem (r2 + 1) n) in *.
    assert (Hb : (0 <= r2' < n)%Z) by (destruct (r2 + 1 =? n)%Z eqn:E; [|apply Z.eqb_neq in E]; lia).
    destruct ((r2' =? r1) || (r2' =? i))%Z eqn:E2.
    + assert (Hr3 := rem_next Hb). set (r3 := Z.rem (r2' + 1) n) in *.
      assert (Hb3 : (0 <= r3 < n)%Z) by (destruct (r2' + 1 =? n)%Z eqn:E; [|apply Z.eqb_neq in E]; lia).
      assert (H23 : r2 <> r2' /\ r2 <> r3 /\ r2' <> r3).
      { destruct (r2 + 1 =? n)%Z eqn:F1; [apply Z.eqb_eq in F1|apply Z.eqb_neq in F1];
        (destruct (r2' + 1 =? n)%Z eqn:F2; [apply Z.eqb_eq in F2|apply Z.eqb_neq in F2]); lia. }
      assert (E3 : ((r3 =? r1) || (r3 =? i))%Z = false).
      { apply orb_true_iff in E1, E2. apply orb_false_iff. rewrite !Z.eqb_eq in E1, E2. rewrite !Z.eqb_neq.
        split; intros ->; lia. }
      exists r3. destruct f; cbn [next_r2]; rewrite E3; apply orb_false_iff in E3 as [A B];
        apply Z.eqb_neq in A, B; auto.
    + exists r2'. apply orb_false_iff in E2 as [A B]. apply Z.eqb_neq in A, B. auto.
  - exists r2. apply orb_false_iff in E1 as [A B]. apply Z.eqb_neq in A, B. auto.
Qed.

Lemma skipn_skipn A x : forall y (l : list A), skipn x (skipn y l) = skipn (x + y) l.
Proof.
  intros y. induction y as [|y IH]; intros l; [now rewrite Nat.add_0_r|].
  destruct l as [|a l]; [now rewrite !skipn_nil|]. rewrite Nat.add_succ_r. cbn [skipn]. apply IH.
Qed.

Section Pairs.
Variables (T : Type) (N : Num T) (G : Type).
Variables (rg : rng T G) (fuel : nat).
Hypothesis RG : rng_ok rg.

Lemma uniform_int_ok g a b : (a < b)%Z -> exists z g', uniform_int rg g a b = Ok (z, g') /\ (a <= z < b)%Z.
Proof.
  intros H. unfold uniform_int. destruct (b <=? a)%Z eqn:E; [apply Z.leb_le in E; lia|].
  assert (R := @int_range _ _ _ RG g (b - a)%Z ltac:(lia)). destruct (r_int rg g (b - a)%Z) as [z g']. cbn [fst] in R.
  exists (a + z)%Z, g'. split; [reflexivity|]. lia.
Qed.

Lemma pick_pair_ok n i g : 3 <= n -> i < n -> 2 <= fuel ->
  exists a b g', pick_pair rg fuel n i g = Ok (a, b, g') /\ good_pair n i (a, b).
Proof.
  intros Hn Hi Hf. unfold pick_pair.
  destruct (@uniform_int_ok g 0%Z (Z.of_nat n - 1)%Z) as (r1 & g1 & E1 & R1); [lia|]. rewrite E1. cbn [bind].
  destruct (@uniform_int_ok g1 0%Z (Z.of_nat n - 1)%Z) as (r2 & g2 & E2 & R2); [lia|]. rewrite E2. cbn [bind].
  set (r1' := if (Z.of_nat i <=? r1)%Z then (r1 + 1)%Z else r1).
  assert (H1 : (0 <= r1' < Z.of_nat n /\ r1' <> Z.of_nat i)%Z).
  { unfold r1'. destruct (Z.of_nat i <=? r1)%Z eqn:E; [apply Z.leb_le in E|apply Z.leb_gt in E]; lia. }
  replace (2 <? Z.of_nat n)%Z with true by (symmetry; apply Z.ltb_lt; lia).
  destruct (@next_r2_ok (Z.of_nat n) (Z.of_nat i) r1' r2 fuel) as (r & E & Hr & Hr1 & Hri); [lia|lia|lia|].
  rewrite E. cbn [bind]. exists r1', r, g2. split; [reflexivity|]. unfold good_pair.
  destruct H1. repeat split; try tauto; try lia; congruence.
Qed.

Variable p : pars T.

Lemma pick_delta_ok g : exists d g', pick_delta rg p g = Ok (d, g') /\ (1 <= d <= Z.max 1 (deltaMax p))%Z.
Proof.
  unfold pick_delta. destruct (1 <? deltaMax p)%Z eqn:E; [apply Z.ltb_lt in E|apply Z.ltb_ge in E].
  - destruct (@uniform_int_ok g 1%Z (deltaMax p + 1)%Z) as (z & g1 & E1 & R1); [lia|]. exists z, g1. split; auto. lia.
  - exists 1%Z, g. split; [reflexivity|lia].
Qed.

Lemma pick_pairs_ok i d g : 3 <= numChains p -> i < numChains p -> 2 <= fuel ->
  exists pairs g', pick_pairs rg fuel p i d g = Ok (pairs, g') /\ length pairs = Z.to_nat d /\
    Forall (good_pair (numChains p) i) pairs.
Proof.
  intros Hn Hi Hf. unfold pick_pairs.
  destruct (@collect_total (Z * Z) G (fun _ _ => True) (fun _ q => good_pair (numChains p) i q)
     (fun _ g => do x <- pick_pair rg fuel (numChains p) i g; let '(a, b, g') := x in Ok ((a, b), g')) (Z.to_nat d) 0 g I)
    as (l & g' & E & _ & L & Q).
  - intros k s _ _. destruct (@pick_pair_ok (numChains p) i s Hn Hi Hf) as (a & b & g1 & E1 & HP). rewrite E1. cbn [bind].
    exists (a, b), g1. auto.
  - exists l, g'. split; auto. split; auto. apply Forall_forall. intros q Hq. apply In_nth_error in Hq as (k & Hk). exact (Q k q Hk).
Qed.

Lemma pair_diff_ok (prev : list (list T)) j i n : forall pairs acc d, Forall (good_pair n i) pairs ->
  pair_diff N prev j pairs acc = Ok d -> differences N prev j pairs acc = Some d.
Proof.
  induction pairs as [|(a, b) ps IH]; intros acc d HF H; cbn [pair_diff differences] in *.
  - apply Ok_inj in H. congruence.
  - inversion HF as [|q l HP HF']; subst. destruct HP as (R1 & R2 & R3 & _).
    destruct (a =? b)%Z eqn:E; [apply Z.eqb_eq in E; contradiction|].
    apply bind_Ok in H as (acc' & Ha & H). apply bind_Ok in Ha as (x & Hx & Ha). apply bind_Ok in Ha as (y & Hy & Ha).
    apply Ok_inj in Ha. subst acc'. unfold cell, getZ in Hx, Hy.
    destruct (a <? 0)%Z eqn:Ea; [apply Z.ltb_lt in Ea; lia|]. destruct (b <? 0)%Z eqn:Eb; [apply Z.ltb_lt in Eb; lia|].
    apply bind_Ok in Hx as (rx & Hrx & Hx). apply bind_Ok in Hy as (ry & Hry & Hy). apply get_Ok_iff in Hrx, Hx, Hry, Hy.
    unfold at_. rewrite Hrx, Hx, Hry, Hy. apply IH; auto.
Qed.

(** what a proposal is made of *)
Definition is_upd {A} (o : option A) : bool := match o with Some _ => true | None => false end.
Lemma skipn_cons A (l : list A) : forall k x, nth_error l k = Some x -> skipn k l = x :: skipn (S k) l.
Proof. induction l as [|a l IH]; intros [|k] x H; simpl in *; try discriminate; [congruence|]. apply IH; auto. Qed.

Lemma draw_one prev pairs cr j g dim o g' dim' :
  draw_par N rg p prev pairs cr j (g, dim) = Ok (o, (g', dim')) ->
  (nth_error (varLock p) j = Some true /\ o = None /\ dim' = dim) \/
  (nth_error (varLock p) j = Some false /\ o = None /\ dim' = (dim - 1)%Z) \/
  (nth_error (varLock p) j = Some false /\ dim' = dim /\ exists e eps d, o = Some (e, eps, d) /\ pair_diff N prev j pairs (nofZ N 0) = Ok d).
Proof.
  unfold draw_par. intros Ho. apply bind_Ok in Ho as (lk & El & Ho). apply get_Ok_iff in El.
  destruct lk. { apply Ok_inj in Ho. injection Ho as <- <- <-. auto. }
  right. destruct (uniform N rg g) as [u gg1]. destruct (gaussian N rg gg1 (bstar_zero p)) as [ep gg2].
  apply bind_Ok in Ho as (pd & Hpd & Ho). apply bind_Ok in Ho as (cc & _ & Ho).
  destruct (nltb N _ _).
  - destruct (uniform N rg gg2) as [u2 gg3]. destruct (nltb N u2 _); apply Ok_inj in Ho; injection Ho as <- <- <-; [auto|].
    right. split; auto. split; auto. eexists _, _, _. split; [reflexivity|auto].
  - apply Ok_inj in Ho. injection Ho as <- <- <-. right. split; auto. split; auto. eexists _, _, _. split; [reflexivity|auto].
Qed.

Lemma draws_dim prev pairs cr n : forall k g dim u g' dim',
  collect k n (draw_par N rg p prev pairs cr) (g, dim) = Ok (u, (g', dim')) ->
  (dim' + Z.of_nat (count_occ Bool.bool_dec (firstn n (skipn k (varLock p))) false) =
   dim + Z.of_nat (count_occ Bool.bool_dec (map is_upd u) true))%Z.
Proof.
  induction n as [|n IH]; intros k g dim u g' dim' H; cbn [collect] in H.
  - apply Ok_inj in H. injection H as <- <- <-. cbn. lia.
  - apply bind_Ok in H as ((o & (g1 & d1)) & Ho & H). apply bind_Ok in H as ((u1 & (g2 & d2)) & Hu & H).
    apply Ok_inj in H. injection H as <- <- <-. specialize (IH _ _ _ _ _ _ Hu).
    destruct (draw_one Ho) as [(El & -> & ->)|[(El & -> & ->)|(El & -> & e & eps & d & -> & _)]];
      rewrite (skipn_cons El); cbn [firstn map is_upd count_occ]; destruct (Bool.bool_dec _ _); try discriminate; 
      try (destruct (Bool.bool_dec _ _); try discriminate); try congruence; try lia.
Qed.

Lemma propose_made t prev crm gen i g pr dim g' cur :
  3 <= numChains p -> i < numChains p -> 2 <= fuel -> length (varLock p) = nvar p -> free_counted p ->
  propose N rg fuel p t prev crm gen i g = Ok (pr, dim, g') -> nth_error prev i = Some cur ->
  exists pairs mask, 1 <= length pairs <= Nat.max 1 (Z.to_nat (deltaMax p)) /\ Forall (good_pair (numChains p) i) pairs /\
    dim = Z.of_nat (count_occ Bool.bool_dec mask true) /\
    made_from N t (varLock p) prev cur pairs mask pr.
Proof.
  intros Hn Hi Hf V1 FC H Hc. unfold propose in H.
  destruct (pick_delta_ok g) as (d & g1 & E1 & R1). rewrite E1 in H. cbn [bind] in H.
  apply bind_Ok in H as (c & Hc' & H). apply get_Ok_iff in Hc'. rewrite Hc in Hc'. injection Hc' as <-.
  destruct (@pick_pairs_ok i d g1 Hn Hi Hf) as (pairs & g2 & E2 & L2 & F2). rewrite E2 in H. cbn [bind] in H.
  apply bind_Ok in H as ((upd & (g3 & dim')) & Hu & H).
  exists pairs, (map is_upd upd). split; [lia|]. split; [auto|].
  assert (Hupd : length upd = nvar p /\ forall j e eps dd, nth_error upd j = Some (Some (e, eps, dd)) ->
     nth_error (varLock p) j = Some false /\ pair_diff N prev j pairs (nofZ N 0) = Ok dd).
  { assert (HC := fun H0 => @collect_Ok _ _ (fun _ _ => True)
       (fun j o => forall e eps dd, o = Some (e, eps, dd) -> nth_error (varLock p) j = Some false /\ pair_diff N prev j pairs (nofZ N 0) = Ok dd) _ _ _ _ _ _ I H0 Hu).
    destruct HC as (_ & L & Q).
    - intros j (gg, di) o (gg', di') _ _ Ho. split; auto. intros e eps dd ->.
      destruct (draw_one Ho) as [(_ & ? & _)|[(_ & ? & _)|(El & _ & e' & eps' & d' & Eo & Ed)]]; try discriminate.
      injection Eo as -> -> ->. auto.
    - split; auto. intros j e eps dd E. exact (Q j _ E e eps dd eq_refl). }
  destruct Hupd as [Lu Hupd].
  assert (Hd := draws_dim Hu). cbn [skipn] in Hd. rewrite firstn_all2 in Hd by lia. rewrite FC in Hd.
  assert (Ed' : dim' = Z.of_nat (count_occ Bool.bool_dec (map is_upd upd) true)) by lia. clear Hd.
  destruct (0 <? dim')%Z eqn:Ed.
  - apply bind_Ok in H as (pr' & Hpr & H). apply Ok_inj in H. injection H as <- <- <-. split; [auto|].
    destruct (each_Ok Hpr) as [Lp _]. split; [lia|]. split; [rewrite map_length; lia|].
    intros j x y m Ex Ey Em. assert (F := each_nth Hpr Ey). cbn [Nat.add] in F.
    apply bind_Ok in F as (x' & Ex' & F). apply get_Ok_iff in Ex'. rewrite Ex in Ex'. injection Ex' as <-.
    apply bind_Ok in F as (o & Eo & F). apply get_Ok_iff in Eo.
    rewrite nth_error_map, Eo in Em. cbn in Em. injection Em as <-.
    destruct o as [((e & eps) & dd)|]; apply Ok_inj in F; cbn [is_upd]; [|auto].
    destruct (Hupd j e eps dd Eo) as [El Ep]. split; auto.
    exists e, eps, dd. split; [apply (pair_diff_ok F2), Ep|].
    rewrite <- F, Ed', L2. unfold gamma_of, jump_rate. rewrite Z2Nat.id by lia. reflexivity.
  - apply bind_Ok in H as (pr' & Hpr & H). apply Ok_inj in H. injection H as <- <- <-. split; [auto|].
    destruct (each_Ok Hpr) as [Lp _]. split; [lia|]. split; [rewrite map_length; lia|].
    intros j x y m Ex Ey Em. assert (F := each_nth Hpr Ey). cbn [Nat.add] in F. apply get_Ok_iff in F.
    assert (y = x) by congruence. destruct m; auto. exfalso.
    apply Z.ltb_ge in Ed. assert (Hin : In true (map is_upd upd)) by (eapply nth_error_In; eauto).
    apply (count_occ_In Bool.bool_dec) in Hin. lia.
Qed.

(** ---- crossover values ---- *)
Lemma fill_ok x k : forall j (c : list (option Z)), j + k <= length c ->
  for_ k (fun _ '(j, c) => do c' <- set c j x; Ok (S j, c')) (j, c) =
  Ok (j + k, firstn j c ++ repeat x k ++ skipn (j + k) c).
Proof.
  unfold for_. generalize 0. induction k as [|k IH]; intros z j c H; cbn [for_from].
  - rewrite Nat.add_0_r. cbn. now rewrite firstn_skipn.
  - rewrite set_lt by lia. cbn [bind]. rewrite IH by (rewrite upd_length; lia). f_equal. f_equal; [lia|].
    assert (U : upd c j x = firstn j c ++ x :: skipn (S j) c).
    { clear -H. revert j H. induction c as [|a c IHc]; intros j H; cbn in H; [lia|].
      destruct j; cbn; [reflexivity|]. f_equal. apply IHc. lia. }
    rewrite U. assert (Lf : length (firstn j c) = j) by (rewrite firstn_length; lia).
    rewrite firstn_app, Lf. replace (S j - j) with 1 by lia. rewrite firstn_all2 by lia. cbn [firstn].
    rewrite skipn_app, Lf, skipn_all2 by lia. cbn [app]. replace (S j + k - j) with (S k) by lia.
    change (skipn (S k) (x :: skipn (S j) c)) with (skipn k (skipn (S j) c)). rewrite skipn_skipn.
    rewrite <- app_assoc. cbn [app repeat]. f_equal. f_equal. f_equal. f_equal. lia.
Qed.

Lemma crossover_length L : forall m, length (crossover_entries m L) = list_sum L.
Proof. induction L as [|l L IH]; intros m; cbn; auto. now rewrite app_length, repeat_length, IH. Qed.

Lemma fill_all L' : forall k rest j (c : list (option Z)), L' = rest -> j + list_sum rest <= length c ->
  forall full, (forall i, nth_error full (k + i) = nth_error rest i) ->
  for_from k (length rest) (fun m '(j, c) =>
            do lm <- get full m;
            for_ lm (fun _ '(j, c) => do c' <- set c j (Some (Z.of_nat m + 1)%Z); Ok (S j, c')) (j, c)) (j, c) =
  Ok (j + list_sum rest, firstn j c ++ crossover_entries (S k) rest ++ skipn (j + list_sum rest) c).
Proof.
  intros k rest j c _. clear L'. revert k j c. induction rest as [|l rest IH]; intros k j c H full HF; cbn [length for_from].
  - cbn [list_sum fold_right crossover_entries app]. rewrite Nat.add_0_r, firstn_skipn. reflexivity.
  - assert (E := HF 0). rewrite Nat.add_0_r in E. cbn in E. unfold get. rewrite E. cbn [bind].
    change (list_sum (l :: rest)) with (l + list_sum rest) in *.
    rewrite fill_ok by lia. cbn [bind].
    rewrite (IH (S k) (j + l)) with (full := full).
    + f_equal. f_equal; [lia|]. cbn [crossover_entries].
      replace (Z.of_nat k + 1)%Z with (Z.of_nat (S k)) by lia.
      assert (Lf : length (firstn j c) = j) by (rewrite firstn_length; lia).
      set (A := firstn j c) in *. set (B := repeat (Some (Z.of_nat (S k))) l).
      assert (LB : length (A ++ B) = j + l) by (rewrite app_length; unfold B; rewrite repeat_length; lia).
      rewrite (app_assoc A B). rewrite firstn_app, LB, Nat.sub_diag. cbn [firstn]. rewrite app_nil_r.
      rewrite firstn_all2 by lia. rewrite skipn_app, LB, skipn_all2 by lia. cbn [app].
      rewrite skipn_skipn. rewrite <- !app_assoc. f_equal. f_equal. f_equal. f_equal. lia.
    + rewrite !app_length, firstn_length, repeat_length, skipn_length. lia.
    + intros i. specialize (HF (S i)). cbn in HF. rewrite <- HF. f_equal. lia.
Qed.

Lemma shuffle_ok A (x : list A) g : exists y g', shuffle rg g x = Ok (y, g') /\ Permutation x y.
Proof.
  unfold shuffle. assert (P := @perm_ok _ _ _ RG g (length x)). destruct (r_perm rg g (length x)) as [ks g']. cbn [fst] in P.
  assert (L : length ks = length x) by (apply Permutation_length in P; rewrite seq_length in P; auto).
  destruct x as [|d x0] eqn:Ex.
  { exists [], g'. split; [reflexivity|constructor]. }
  rewrite <- Ex in *. 
  assert (R : forall k, In k ks -> k < length x).
  { intros k Hk. apply (Permutation_in _ (Permutation_sym P)) in Hk. apply in_seq in Hk. lia. }
  assert (E : each 0 (length x) (fun i => do k <- get ks i; get x k) = Ok (map (fun k => nth k x d) ks)).
  { rewrite <- L. clear P L. revert R. generalize ks. clear ks. intros ks R.
    assert (H : forall pre, (each (length pre) (length ks) (fun i => do k <- get (pre ++ ks) i; get x k)) = Ok (map (fun k => nth k x d) ks)).
    { induction ks as [|k ks IH]; intros pre; [reflexivity|]. cbn [each length map].
      assert (Eg : get (pre ++ k :: ks) (length pre) = Ok k).
      { apply get_Ok_iff. rewrite nth_error_app2, Nat.sub_diag by lia. reflexivity. }
      rewrite Eg. cbn [bind]. rewrite (@get_nth _ d) by (apply R; left; auto). cbn [bind].
      specialize (IH ltac:(intros q Hq; apply R; right; auto) (pre ++ [k])).
      rewrite app_length, Nat.add_1_r, <- app_assoc in IH. cbn [app length] in IH. rewrite IH. reflexivity. }
    exact (H []). }
  rewrite E. cbn [bind]. eexists; exists g'. split; [reflexivity|].
  transitivity (map (fun k => nth k x d) (seq 0 (length x))); [|apply Permutation_map; auto].
  clear. replace (map (fun k => nth k x d) (seq 0 (length x))) with x; auto.
  induction x as [|a x IH]; auto. cbn [length seq map nth]. f_equal. rewrite <- seq_shift, map_map. exact IH.
Qed.

Lemma gen_CR_ok pCR crm L g : length L = length pCR -> 0 < length pCR ->
  exists crm' L' g', gen_CR rg pCR crm L g = Ok (crm', L', g') /\
    length L' = length pCR /\ list_sum L' = length crm /\ Permutation crm' (crossover_entries 1 L').
Proof.
  intros HL H0. unfold gen_CR. rewrite HL, Nat.ltb_irrefl.
  assert (M1 := @multi_len _ _ _ RG g (length pCR) (length crm) pCR).
  assert (M2 := @multi_sum _ _ _ RG g (length pCR) (length crm) pCR H0).
  destruct (r_multi rg g (length pCR) (length crm) pCR) as [a g1]. cbn [fst] in M1, M2.
  rewrite skipn_all2 by lia. rewrite app_nil_r.
  match goal with |- context [for_ ?k ?f ?z] => change (for_ k f z) with (for_from 0 k f z) end.
  rewrite (@fill_all a 0 a 0 crm eq_refl) with (full := a) by (auto; lia). cbn [bind firstn app].
  rewrite skipn_all2 by lia. rewrite app_nil_r.
  destruct (@shuffle_ok _ (crossover_entries 1 a) g1) as (y & g2 & E & P). rewrite E. cbn [bind].
  exists y, a, g2. split; [reflexivity|]. split; auto. split; auto. apply Permutation_sym; auto.
Qed.
End Pairs.
