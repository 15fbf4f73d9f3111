(** mp_qrfac and the application of Q^T, solvers/mpfit.cpp:1361-1557 and 650-674. *)
From Coq Require Import ZArith List Bool Lia Reals Lra Permutation.
From Verif Require Import Base Num Sums Stats_Model DE_Model LM_Model DE_Proof.
Import ListNotations.
Set Implicit Arguments. Unset Strict Implicit.
Local Open Scope nat_scope.

(** exchange of two positions *)
Definition tr (j k i : nat) : nat := if i =? j then k else if i =? k then j else i.
Lemma tr_lt j k i n : j < n -> k < n -> i < n -> tr j k i < n.
Proof. unfold tr. intros. destruct (i =? j); [lia|]. destruct (i =? k); lia. Qed.
Lemma tr_same j i : tr j j i = i.
Proof. unfold tr. destruct (i =? j) eqn:E; [apply Nat.eqb_eq in E; lia|]. reflexivity. Qed.
Lemma tr_low j k i : i < j -> j <= k -> tr j k i = i.
Proof. intros. unfold tr. destruct (Nat.eqb_spec i j); [lia|]. destruct (Nat.eqb_spec i k); [lia|]. reflexivity. Qed.
Lemma tr_high j k i : j <= k -> j <= i -> j <= tr j k i.
Proof. intros. unfold tr. destruct (Nat.eqb_spec i j); [lia|]. destruct (Nat.eqb_spec i k); lia. Qed.

Section G.
Variable T : Type.
Variable N : Num T.
Variable enorm : list T -> T.

Lemma nth_upd {A} (d : A) l i x k : nth k (upd l i x) d = if (i =? k) && (i <? length l) then x else nth k l d.
Proof.
  pose proof (nth_error_upd l i x k) as H.
  destruct ((i =? k) && (i <? length l)).
  - apply nth_error_nth with (d := d) in H. exact H.
  - destruct (nth_error l k) eqn:E.
    + apply nth_error_nth with (d := d) in H. apply nth_error_nth with (d := d) in E. congruence.
    + apply nth_error_None in H, E. now rewrite !nth_overflow by assumption.
Qed.

(** a loop that replaces element [i] by a function of it *)
Lemma modify_range (g : nat -> T -> T) lo k c : lo + k <= length c ->
  exists c', for_from lo k (fun i c => do x <- get c i; set c i (g i x)) c = Ok c' /\ length c' = length c /\
    forall i d, i < length c -> nth i c' d = if (lo <=? i) && (i <? lo + k) then g i (nth i c d) else nth i c d.
Proof.
  intros H.
  destruct (@for_from_inv (list T) (fun e c' => length c' = length c /\
    forall i d, i < length c -> nth i c' d = if (lo <=? i) && (i <? e) then g i (nth i c d) else nth i c d)
    (fun i c => do x <- get c i; set c i (g i x)) k lo c) as (c' & E & P).
  - split; [reflexivity|]. intros i d Hi. destruct (Nat.leb_spec lo i); [|reflexivity]. destruct (Nat.ltb_spec i lo); [lia|reflexivity].
  - intros i s Hi (L & P). destruct (@get_lt _ s i) as (x & Ex); [lia|]. rewrite Ex. cbn [bind]. rewrite set_lt by lia.
    eexists; split; [reflexivity|]. rewrite upd_length. split; [exact L|]. intros q d Hq. rewrite nth_upd, L.
    destruct (Nat.eqb_spec i q) as [->|Ne].
    + assert (q <? length c = true) as -> by (apply Nat.ltb_lt; lia). cbn [andb].
      assert (lo <=? q = true) as -> by (apply Nat.leb_le; lia). assert (q <? S q = true) as -> by (apply Nat.ltb_lt; lia). cbn [andb].
      f_equal. specialize (P q d Hq). assert (q <? q = false) as E by (apply Nat.ltb_irrefl). rewrite E, andb_false_r in P.
      rewrite <- P. unfold get in Ex. destruct (nth_error s q) eqn:Es; [|discriminate]. injection Ex as <-. symmetry. now apply nth_error_nth.
    + cbn [andb]. rewrite P by assumption. destruct (lo <=? q); [cbn [andb]|reflexivity].
      destruct (Nat.ltb_spec q i), (Nat.ltb_spec q (S i)); try lia; reflexivity.
  - exists c'. auto.
Qed.

Lemma dot_ok a b lo hi : hi <= length a -> hi <= length b -> exists s, dot N a b lo hi = Ok s.
Proof.
  intros A B. unfold dot. destruct (Nat.le_gt_cases lo hi).
  - destruct (@for_from_inv T (fun _ _ => True) (fun i sum => do x <- get a i; do y <- get b i; Ok (nadd N sum (nmul N x y))) (hi - lo) lo (nofZ N 0)) as (s & E & _); eauto.
    intros i s Hi _. destruct (@get_lt _ a i) as (x & ->); [lia|]. destruct (@get_lt _ b i) as (y & ->); [lia|]. cbn [bind]. eauto.
  - replace (hi - lo) with 0 by lia. cbn. eauto.
Qed.

Lemma scale_col_ok c j m aj : j < m -> length c = m ->
  exists c', scale_col N c j m aj = Ok c' /\ length c' = m /\
    forall i d, i < m -> nth i c' d = if i <? j then nth i c d else if i =? j then nadd N (ndiv N (nth i c d) aj) (nofZ N 1) else ndiv N (nth i c d) aj.
Proof.
  intros J L. unfold scale_col. destruct (@modify_range (fun _ x => ndiv N x aj) j (m - j) c) as (c' & -> & L' & P); [lia|].
  cbn [bind]. rewrite (@get_nth _ aj) by lia. cbn [bind]. rewrite set_lt by lia. eexists; split; [reflexivity|]. rewrite upd_length. split; [lia|].
  intros i d Hi. rewrite nth_upd. rewrite L', L in *. assert (j <? m = true) as -> by (now apply Nat.ltb_lt). rewrite andb_true_r.
  destruct (Nat.eqb_spec j i) as [<-|Ne].
  - rewrite Nat.ltb_irrefl, Nat.eqb_refl. rewrite (nth_indep _ aj d) by lia. rewrite P by lia.
    assert ((j <=? j) && (j <? j + (m - j)) = true) as -> by (rewrite Nat.leb_refl; apply Nat.ltb_lt; lia). reflexivity.
  - rewrite P by lia. destruct (Nat.ltb_spec i j).
    + assert (j <=? i = false) as -> by (apply Nat.leb_gt; lia). reflexivity.
    + assert (j <=? i = true) as -> by (apply Nat.leb_le; lia). assert (i <? j + (m - j) = true) as -> by (apply Nat.ltb_lt; lia).
      assert (i =? j = false) as -> by (apply Nat.eqb_neq; lia). reflexivity.
Qed.

Lemma reflect_ok cj ck j m : j < m -> length cj = m -> length ck = m ->
  exists s c', dot N cj ck j m = Ok s /\ reflect N cj ck j m = Ok c' /\ length c' = m /\
    forall i d, i < m -> nth i c' d = if i <? j then nth i ck d else nsub N (nth i ck d) (nmul N (ndiv N s (nth j cj d)) (nth i cj d)).
Proof.
  intros J L1 L2. unfold reflect. destruct (@dot_ok cj ck j m) as (s & E); [lia|lia|]. exists s.
  rewrite E. cbn [bind]. rewrite (@get_nth _ s cj j) by lia. cbn [bind]. cbv zeta.
  set (t := ndiv N s (nth j cj s)).
  rewrite (@for_from_ext _ _ (fun i ck => do x <- get ck i; set ck i (nsub N x (nmul N t (nth i cj s))))).
  2:{ intros i c Hi. destruct (get c i); cbn [bind]; try reflexivity. rewrite (@get_nth _ s cj i) by lia. reflexivity. }
  destruct (@modify_range (fun i x => nsub N x (nmul N t (nth i cj s))) j (m - j) ck) as (c' & -> & L' & P); [lia|].
  exists c'. split; [reflexivity|]. split; [reflexivity|]. split; [lia|]. intros i d Hi. rewrite P by lia.
  destruct (Nat.ltb_spec i j).
  - assert (j <=? i = false) as -> by (apply Nat.leb_gt; lia). reflexivity.
  - assert (j <=? i = true) as -> by (apply Nat.leb_le; lia). assert (i <? j + (m - j) = true) as -> by (apply Nat.ltb_lt; lia).
    cbn [andb]. unfold t. rewrite (nth_indep cj s d) by lia. rewrite (nth_indep cj s d) by lia. reflexivity.
Qed.

Lemma find_kmax_ok rdiag j n : j < n -> n <= length rdiag -> exists k, find_kmax N rdiag j n = Ok k /\ j <= k < n.
Proof.
  intros J L. unfold find_kmax.
  destruct (@for_from_inv nat (fun e k => j <= k < n) (fun k kmax => do a <- get rdiag kmax; do b <- get rdiag k; Ok (if nltb N a b then k else kmax)) (n - j) j j) as (k & E & P); eauto.
  - intros i s Hi Hs. destruct (@get_lt _ rdiag s) as (x & ->); [lia|]. destruct (@get_lt _ rdiag i) as (y & ->); [lia|]. cbn [bind].
    eexists; split; [reflexivity|]. destruct (nltb N x y); lia.
Qed.

Lemma nth_tr {A} (d : A) l j k x y : j < length l -> k < length l -> nth j l d = x -> nth k l d = y ->
  forall i, nth i (upd (upd l j y) k x) d = nth (tr j k i) l d.
Proof.
  intros J K X Y i. rewrite nth_upd, upd_length, nth_upd. unfold tr.
  assert (j <? length l = true) as -> by (now apply Nat.ltb_lt). assert (k <? length l = true) as -> by (now apply Nat.ltb_lt).
  rewrite !andb_true_r. destruct (Nat.eqb_spec k i) as [->|]; destruct (Nat.eqb_spec i j) as [->|]; try congruence.
  - now rewrite Nat.eqb_refl.
  - now rewrite Nat.eqb_refl.
  - destruct (Nat.eqb_spec i k); [lia|]. destruct (Nat.eqb_spec j i); [lia|reflexivity].
Qed.

Lemma perm_upd2 {A} (l : list A) j k x y : j < length l -> k < length l -> nth_error l j = Some x -> nth_error l k = Some y ->
  Permutation l (upd (upd l j y) k x).
Proof.
  intros J K X Y. apply Permutation_nth_error. split; [now rewrite !upd_length|].
  exists (tr j k). split.
  - intros a b. unfold tr. destruct (Nat.eqb_spec a j), (Nat.eqb_spec b j), (Nat.eqb_spec a k), (Nat.eqb_spec b k); lia.
  - intros i. rewrite nth_error_upd, upd_length, nth_error_upd. unfold tr.
    assert (j <? length l = true) as -> by (now apply Nat.ltb_lt). assert (k <? length l = true) as -> by (now apply Nat.ltb_lt).
    rewrite !andb_true_r. destruct (Nat.eqb_spec k i) as [->|]; destruct (Nat.eqb_spec i j) as [->|]; try congruence.
    + now rewrite Nat.eqb_refl.
    + now rewrite Nat.eqb_refl.
    + destruct (Nat.eqb_spec i k); [lia|]. destruct (Nat.eqb_spec j i); [lia|reflexivity].
Qed.

Definition shape (m n : nat) (a : matrix T) : Prop := length a = n /\ Forall (fun c => length c = m) a.
Lemma shape_col m n a k : shape m n a -> k < n -> length (nth k a []) = m.
Proof. intros (L & F) K. rewrite Forall_forall in F. apply F. apply nth_In. lia. Qed.
Lemma shape_upd m n a k c : shape m n a -> length c = m -> shape m n (upd a k c).
Proof.
  intros (L & F) Lc. split; [now rewrite upd_length|]. apply Forall_forall. intros x Hx. apply In_nth_error in Hx. destruct Hx as (i & Hi).
  rewrite nth_error_upd in Hi. destruct ((k =? i) && (k <? length a)).
  - injection Hi as <-. exact Lc.
  - rewrite Forall_forall in F. apply F. eapply nth_error_In; eauto.
Qed.

Lemma exchange_ok m n a ipvt rdiag wa j k : shape m n a -> length ipvt = n -> length rdiag = n -> length wa = n -> j <= k < n -> 
  exists a' ipvt' rdiag' wa', exchange a ipvt rdiag wa j k = Ok (a', ipvt', rdiag', wa') /\
    shape m n a' /\ Permutation ipvt ipvt' /\ length rdiag' = n /\ length wa' = n /\
    (forall i, nth i a' [] = nth (tr j k i) a []) /\ (forall i, nth i ipvt' 0 = nth (tr j k i) ipvt 0) /\
    (forall i d, i < j -> nth i rdiag' d = nth i rdiag d) /\ (forall i d, i <> j -> nth i rdiag' d = nth (tr j k i) rdiag d).
Proof.
  intros S Li Lr Lw K. unfold exchange. destruct (Nat.eqb_spec k j) as [->|Ne].
  - exists a, ipvt, rdiag, wa. split; [reflexivity|]. split; [exact S|]. split; [apply Permutation_refl|]. 
    split; [exact Lr|]. split; [exact Lw|]. split; [|split; [|split]]; intros; rewrite ?tr_same; reflexivity.
  - pose proof (proj1 S) as La.
    destruct (nth_error ipvt j) as [pj|] eqn:Epj; [|apply nth_error_None in Epj; lia].
    destruct (nth_error ipvt k) as [pk|] eqn:Epk; [|apply nth_error_None in Epk; lia].
    rewrite (@get_nth _ [] a j), (@get_nth _ [] a k) by lia. cbn [bind]. rewrite set_lt by lia. cbn [bind]. rewrite set_lt by (rewrite upd_length; lia). cbn [bind].
    destruct (@get_lt _ rdiag j) as (rj & Erj); [lia|]. rewrite Erj. cbn [bind]. rewrite set_lt by lia. cbn [bind].
    destruct (@get_lt _ wa j) as (wj & ->); [lia|]. cbn [bind]. rewrite set_lt by lia. cbn [bind].
    unfold get. rewrite Epj, Epk. cbn [bind]. rewrite set_lt by lia. cbn [bind]. rewrite set_lt by (rewrite upd_length; lia). cbn [bind].
    do 4 eexists. split; [reflexivity|]. split; [apply shape_upd; [apply shape_upd; [exact S|]|]; eapply shape_col; eauto; lia|].
    split; [apply perm_upd2; auto; lia|]. split; [now rewrite upd_length|]. split; [now rewrite upd_length|]. split; [|split; [|split]].
    + intros i. apply nth_tr; auto; lia.
    + intros i. apply nth_tr; try lia; now apply nth_error_nth.
    + intros i d Hi. rewrite nth_upd. destruct (Nat.eqb_spec k i); [lia|]. reflexivity.
    + intros i d Hi. rewrite nth_upd. unfold tr. destruct (Nat.eqb_spec i j); [contradiction|]. rewrite (Nat.eqb_sym k i).
      destruct (Nat.eqb_spec i k) as [->|]; [|reflexivity]. assert (k <? length rdiag = true) as -> by (apply Nat.ltb_lt; lia). cbn [andb].
      unfold get in Erj. destruct (nth_error rdiag j) eqn:Q; [|discriminate]. injection Erj as <-. symmetry. now apply nth_error_nth.
Qed.

Lemma sub_ok (c : list T) lo hi : hi <= length c -> sub c lo hi = Ok (firstn (hi - lo) (skipn lo c)).
Proof. intros H. unfold sub. apply Nat.leb_le in H. now rewrite H. Qed.

Lemma update_norm_ok ck rdiag wa j k m n : j < m -> length ck = m -> length rdiag = n -> length wa = n -> j < k < n ->
  exists rdiag' wa', update_norm N enorm ck rdiag wa j k m = Ok (rdiag', wa') /\ length rdiag' = n /\ length wa' = n /\
    (forall i d, i <= j -> nth i rdiag' d = nth i rdiag d) /\ (forall i d, i <> k -> nth i rdiag' d = nth i rdiag d).
Proof.
  intros J Lc Lr Lw K. unfold update_norm. destruct (@get_lt _ rdiag k) as (rk & ->); [lia|]. cbn [bind].
  destruct (neqb N rk (nofZ N 0)); [exists rdiag, wa; auto 10|].
  destruct (@get_lt _ ck j) as (x & ->); [lia|]. cbn [bind]. cbv zeta. destruct (@get_lt _ wa k) as (wk & ->); [lia|]. cbn [bind].
  destruct (nleb N _ _).
  - rewrite sub_ok by lia. cbn [bind]. rewrite set_lt by lia. cbn [bind]. rewrite set_lt by lia. cbn [bind].
    do 2 eexists. split; [reflexivity|]. rewrite !upd_length. split; [lia|]. split; [lia|]. split; intros i d Hi; rewrite nth_upd;
    destruct (Nat.eqb_spec k i); try lia; reflexivity.
  - rewrite set_lt by lia. cbn [bind]. do 2 eexists. split; [reflexivity|]. rewrite !upd_length. split; [lia|]. split; [lia|]. split; intros i d Hi; rewrite nth_upd;
    destruct (Nat.eqb_spec k i); try lia; reflexivity.
Qed.

(** what one pass does: exchange of column [j] with a later one, then the
    reflection *)
Lemma qrfac_step_ok m n a ipvt rdiag wa j : j < m -> j < n -> shape m n a -> length ipvt = n -> length rdiag = n -> length wa = n ->
  exists a' ipvt' rdiag' wa', qrfac_step N enorm m n j (a, ipvt, rdiag, wa) = Ok (a', ipvt', rdiag', wa') /\
    shape m n a' /\ Permutation ipvt ipvt' /\ length rdiag' = n /\ length wa' = n /\
    exists k, j <= k < n /\ (forall i, nth i ipvt' 0 = nth (tr j k i) ipvt 0) /\ (forall i d, i < j -> nth i rdiag' d = nth i rdiag d) /\
      find_kmax N rdiag j n = Ok k /\
      (forall i d, j < i < n -> if neqb N (enorm (firstn (m - j) (skipn j (nth (tr j k j) a [])))) (nofZ N 0) then nth i rdiag' d = nth (tr j k i) rdiag d
        else exists r2 w2 r3 w3, length r2 = n /\ length w2 = n /\ update_norm N enorm (nth i a' []) r2 w2 j i m = Ok (r3, w3) /\ nth i r2 d = nth (tr j k i) rdiag d /\ nth i rdiag' d = nth i r3 d) /\
      let c i := nth (tr j k i) a [] in
      let aj := enorm (firstn (m - j) (skipn j (c j))) in
      if neqb N aj (nofZ N 0) then (forall i, nth i a' [] = c i) /\ (forall d, nth j rdiag' d = nneg N aj)
      else
        let aj' := if nltb N (nth j (c j) aj) (nofZ N 0) then nneg N aj else aj in
        (forall d, nth j rdiag' d = nneg N aj') /\
        exists cj, scale_col N (c j) j m aj' = Ok cj /\ nth j a' [] = cj /\
          (forall i, i < j -> nth i a' [] = c i) /\
          (forall i, j < i < n -> reflect N cj (c i) j m = Ok (nth i a' [])).
Proof.
  intros Jm Jn S Li Lr Lw. unfold qrfac_step.
  destruct (@find_kmax_ok rdiag j n) as (k & Ek & K); [lia|lia|]. rewrite Ek. cbn [bind].
  destruct (exchange_ok S Li Lr Lw K) as (a1 & i1 & r1 & w1 & -> & S1 & P1 & Lr1 & Lw1 & A1 & I1 & R1 & R1'). cbn [bind].
  pose proof (proj1 S1) as La1. pose proof (@shape_col _ _ _ j S1 Jn) as Lc.
  rewrite (@get_nth _ [] a1 j) by lia. cbn [bind]. rewrite sub_ok by lia. cbn [bind]. cbv zeta.
  set (aj := enorm (firstn (m - j) (skipn j (nth j a1 [])))).
  destruct (neqb N aj (nofZ N 0)) eqn:Z.
  - rewrite set_lt by lia. cbn [bind]. do 4 eexists. split; [reflexivity|]. split; [exact S1|]. split; [exact P1|]. split; [now rewrite upd_length|]. split; [exact Lw1|].
    exists k. split; [exact K|]. split; [exact I1|]. split; [|split; [reflexivity|split; [|rewrite <- !(A1 j); fold aj; rewrite Z; split]]].
    + intros i d Hi. rewrite nth_upd. destruct (Nat.eqb_spec j i); [lia|]. now apply R1.
    + intros i d Hi. rewrite <- (A1 j). fold aj. rewrite Z. rewrite nth_upd. destruct (Nat.eqb_spec j i); [lia|]. apply R1'. lia.
    + exact A1.
    + intros d. rewrite nth_upd, Nat.eqb_refl. assert (j <? length r1 = true) as -> by (apply Nat.ltb_lt; lia). reflexivity.
  - rewrite (@get_nth _ aj (nth j a1 []) j) by lia. cbn [bind]. set (aj' := if nltb N (nth j (nth j a1 []) aj) (nofZ N 0) then nneg N aj else aj).
    destruct (@scale_col_ok (nth j a1 []) j m aj') as (cj & Esc & Lcj & Pcj); [lia|exact Lc|]. rewrite Esc. cbn [bind].
    rewrite set_lt by lia. cbn [bind].
    match goal with |- context [for_from (Datatypes.S j) ?len ?body ?s0] =>
      destruct (@for_from_inv (list (list T) * list T * list T) (fun e '(a2, r2, w2) => shape m n a2 /\ length r2 = n /\ length w2 = n /\
        (forall i d, i <= j -> nth i r2 d = nth i r1 d) /\ nth j a2 [] = cj /\ (forall i, i < j -> nth i a2 [] = nth i a1 []) /\
        (forall i d, e <= i -> nth i r2 d = nth i r1 d) /\
        (forall i d, j < i < e -> exists r3 w3 r4 w4, length r3 = n /\ length w3 = n /\ update_norm N enorm (nth i a2 []) r3 w3 j i m = Ok (r4, w4) /\ nth i r3 d = nth i r1 d /\ nth i r2 d = nth i r4 d) /\
        (forall i, e <= i -> nth i a2 [] = nth i a1 []) /\ (forall i, j < i < e -> reflect N cj (nth i a1 []) j m = Ok (nth i a2 [])))
      body len (Datatypes.S j) s0) as ([[a2 r2] w2] & E & S2 & Lr2 & Lw2 & R2 & A2 & B2 & _ & U2 & _ & C2) end.
    + split; [now apply shape_upd|]. split; [exact Lr1|]. split; [exact Lw1|]. split; [reflexivity|]. split; [|split].
      * rewrite nth_upd, Nat.eqb_refl. assert (j <? length a1 = true) as -> by (apply Nat.ltb_lt; lia). reflexivity.
      * intros i Hi. rewrite nth_upd. destruct (Nat.eqb_spec j i); [lia|reflexivity].
      * split; [reflexivity|]. split; [intros; lia|]. split; [|intros i Hi; lia].
        intros i Hi. rewrite nth_upd. destruct (Nat.eqb_spec j i); [lia|reflexivity].
    + intros i [[a2 r2] w2] Hi (S2 & Lr2 & Lw2 & R2 & A2 & B2 & T2 & U2 & D2 & C2). pose proof (proj1 S2) as La2.
      rewrite (@get_nth _ [] a2 i) by lia. cbn [bind].
      destruct (@reflect_ok cj (nth i a2 []) j m) as (s & c' & _ & Er & Lc' & _); [lia|lia|eapply shape_col; eauto; lia|].
      rewrite Er. cbn [bind]. rewrite set_lt by lia. cbn [bind].
      destruct (@update_norm_ok c' r2 w2 j i m n) as (r3 & w3 & Eu & Lr3 & Lw3 & R3 & R3'); try lia. rewrite Eu. cbn [bind].
      eexists; split; [reflexivity|]. split; [now apply shape_upd|]. split; [exact Lr3|]. split; [exact Lw3|]. split; [|split; [|split; [|split; [|split; [|split]]]]].
      * intros q d Hq. rewrite R3 by lia. now apply R2.
      * rewrite nth_upd. destruct (Nat.eqb_spec i j); [lia|exact A2].
      * intros q Hq. rewrite nth_upd. destruct (Nat.eqb_spec i q); [lia|now apply B2].
      * intros q d Hq. rewrite R3' by lia. apply T2. lia.
      * intros q d Hq. rewrite nth_upd. destruct (Nat.eqb_spec i q) as [<-|Nq]; cbn [andb].
        -- assert (i <? length a2 = true) as -> by (apply Nat.ltb_lt; lia). exists r2, w2, r3, w3. split; [exact Lr2|]. split; [exact Lw2|]. split; [exact Eu|]. split; [apply T2; lia|reflexivity].
        -- destruct (U2 q d ltac:(lia)) as (ra & wa' & rb & wb & Q1 & Q2 & Q3 & Q4 & Q5). exists ra, wa', rb, wb. repeat (split; [assumption|]). rewrite R3' by lia. exact Q5.
      * intros q Hq. rewrite nth_upd. destruct (Nat.eqb_spec i q); [lia|]. apply D2. lia.
      * intros q Hq. rewrite nth_upd. destruct (Nat.eqb_spec i q) as [<-|].
        -- assert (i <? length a2 = true) as -> by (apply Nat.ltb_lt; lia). cbn [andb]. rewrite <- (D2 i) by lia. exact Er.
        -- cbn [andb]. apply C2. lia.
    + rewrite E. cbn [bind]. rewrite set_lt by lia. cbn [bind]. do 4 eexists. split; [reflexivity|]. split; [exact S2|]. split; [exact P1|]. split; [now rewrite upd_length|]. split; [exact Lw2|].
      exists k. split; [exact K|]. split; [exact I1|]. split; [|split; [reflexivity|split; [|rewrite <- !(A1 j); fold aj; rewrite Z; fold aj'; split]]].
      * intros i d Hi. rewrite nth_upd. destruct (Nat.eqb_spec j i); [lia|]. cbn [andb]. rewrite R2 by lia. now apply R1.
      * intros i d Hi. rewrite <- (A1 j). fold aj. rewrite Z. destruct (U2 i d ltac:(lia)) as (ra & wa' & rb & wb & Q1 & Q2 & Q3 & Q4 & Q5). exists ra, wa', rb, wb.
        split; [exact Q1|]. split; [exact Q2|]. split; [exact Q3|]. split; [rewrite Q4; apply R1'; lia|]. rewrite nth_upd. destruct (Nat.eqb_spec j i); [lia|]. exact Q5.
      * intros d. rewrite nth_upd, Nat.eqb_refl. assert (j <? length r2 = true) as -> by (apply Nat.ltb_lt; lia). reflexivity.
      * exists cj. split; [exact Esc|]. split; [exact A2|]. split.
        -- intros i Hi. rewrite B2 by assumption. apply A1.
        -- intros i Hi. rewrite <- A1. apply C2. lia.
Qed.

(** ---- any arithmetic: the factorisation stays inside its arrays and the pivot
    array is a permutation ---- *)
Lemma acnorm_ok m n a : shape m n a ->
  exists ac, for_ n (fun j ac => do c <- get a j; do s <- sub c 0 m; Ok (ac ++ [enorm s])) [] = Ok ac /\ length ac = n /\
    forall i d, i < n -> nth i ac d = enorm (nth i a []).
Proof.
  intros S. destruct (@for_inv (list T) (fun e ac => length ac = e /\ forall i d, i < e -> nth i ac d = enorm (nth i a []))
    (fun j ac => do c <- get a j; do s <- sub c 0 m; Ok (ac ++ [enorm s])) n []) as (ac & E & L & P).
  - split; [reflexivity|]. intros; lia.
  - intros i s Hi (L & P). pose proof (proj1 S) as La. pose proof (@shape_col _ _ _ i S Hi) as Lc.
    rewrite (@get_nth _ [] a i) by lia. cbn [bind]. rewrite sub_ok by lia. cbn [bind]. eexists; split; [reflexivity|].
    rewrite app_length. split; [cbn; lia|]. intros q d Hq. destruct (Nat.eq_dec q i) as [->|].
    + rewrite app_nth2 by lia. rewrite L, Nat.sub_diag. cbn [nth]. rewrite Nat.sub_0_r. cbn [skipn]. rewrite firstn_all2 by lia. reflexivity.
    + rewrite app_nth1 by lia. apply P. lia.
  - eauto.
Qed.

Lemma qrfac_ok m n a : shape m n a ->
  exists q ipvt rdiag acnorm, qrfac N enorm m n a = Ok (q, ipvt, rdiag, acnorm) /\
    shape m n q /\ Permutation (seq 0 n) ipvt /\ length rdiag = n /\ length acnorm = n /\ (forall i d, i < n -> nth i acnorm d = enorm (nth i a [])).
Proof.
  intros S. unfold qrfac. destruct (acnorm_ok S) as (ac & -> & Lac & Pac). cbn [bind].
  destruct (@for_inv (matrix T * list nat * list T * list T) (fun e '(q, ip, rd, wa) => shape m n q /\ Permutation (seq 0 n) ip /\ length rd = n /\ length wa = n)
    (qrfac_step N enorm m n) (Nat.min m n) (a, seq 0 n, ac, ac)) as ([[[q ip] rd] wa] & -> & P).
  - repeat split; auto; apply S.
  - intros i [[[q ip] rd] wa] Hi (Sq & Pp & Lr & Lw).
    assert (Li : length ip = n) by (rewrite <- (Permutation_length Pp), seq_length; reflexivity).
    destruct (@qrfac_step_ok m n q ip rd wa i) as (q' & ip' & rd' & wa' & E & S' & P' & L1 & L2 & _); try lia; try assumption.
    eexists; split; [exact E|]. split; [exact S'|]. split; [eapply Permutation_trans; eauto|]. auto.
  - cbn [bind]. destruct P as (Sq & Pp & Lr & Lw). exists q, ip, rd, ac. split; [reflexivity|]. auto.
Qed.
End G.
