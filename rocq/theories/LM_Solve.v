(** mp_qrsolv and mp_lmpar, solvers/mpfit.cpp:1561-2067, in any arithmetic: they stay
    inside their arrays, and what each loop leaves in them. *)
From Coq Require Import ZArith List Bool Lia Permutation.
From Verif Require Import Base Num Stats_Model DE_Model LM_Model DE_Proof LM_QR.
Import ListNotations.
Set Implicit Arguments. Unset Strict Implicit.
Local Open Scope nat_scope.

Section G.
Variable T : Type.
Variable N : Num T.
Notation z := (nofZ N 0).
Infix "+!" := (nadd N) (at level 50, left associativity).
Infix "*!" := (nmul N) (at level 40, left associativity).

(** entry of row [i], column [j] *)
Definition en (r : matrix T) (i j : nat) : T := nth i (nth j r []) z.
Definition vn (v : list T) (i : nat) : T := nth i v z.

Lemma get_vn v i : i < length v -> get v i = Ok (vn v i).
Proof. apply get_nth. Qed.
Lemma vn_upd v i x k : vn (upd v i x) k = if (i =? k) && (i <? length v) then x else vn v k.
Proof. apply nth_upd. Qed.
Lemma set_vn v i x : i < length v -> exists v', set v i x = Ok v' /\ length v' = length v /\
  forall k, vn v' k = if k =? i then x else vn v k.
Proof.
  intros H. rewrite set_lt by assumption. eexists. split; [reflexivity|]. split; [apply upd_length|]. intros k. rewrite vn_upd.
  apply Nat.ltb_lt in H. rewrite H, andb_true_r, Nat.eqb_sym. reflexivity.
Qed.

Lemma get2_ok m n r i j : shape m n r -> i < m -> j < n -> get2 r i j = Ok (en r i j).
Proof.
  intros S Hi Hj. unfold get2, en. rewrite (@get_nth _ [] r j) by (rewrite (proj1 S); exact Hj). cbn [bind].
  apply get_nth. rewrite (@shape_col T m n r j S Hj). exact Hi.
Qed.
Lemma set2_ok m n r i j v : shape m n r -> i < m -> j < n ->
  exists r', set2 r i j v = Ok r' /\ shape m n r' /\ forall a b, en r' a b = if (a =? i) && (b =? j) then v else en r a b.
Proof.
  intros S Hi Hj. unfold set2. pose proof (proj1 S) as La. pose proof (@shape_col T m n r j S Hj) as Lc.
  rewrite (@get_nth _ [] r j) by lia. cbn [bind]. rewrite set_lt by lia. cbn [bind]. rewrite set_lt by lia.
  eexists. split; [reflexivity|]. split; [apply shape_upd; [exact S|rewrite upd_length; exact Lc]|].
  intros a b. unfold en. rewrite nth_upd. assert (j <? length r = true) as -> by (apply Nat.ltb_lt; lia). rewrite andb_true_r.
  destruct (Nat.eqb_spec j b) as [<-|Ne].
  - rewrite nth_upd. assert (i <? length (nth j r []) = true) as -> by (apply Nat.ltb_lt; lia). rewrite andb_true_r, Nat.eqb_refl, andb_true_r, Nat.eqb_sym. reflexivity.
  - destruct (Nat.eqb_spec b j); [congruence|]. rewrite andb_false_r. reflexivity.
Qed.

(** accumulating lists *)
Lemma build_ok (g : nat -> T) (f : nat -> list T -> res (list T)) n :
  (forall i w, i < n -> f i w = Ok (w ++ [g i])) -> for_ n f [] = Ok (map g (seq 0 n)).
Proof.
  intros H. assert (E : exists w, for_ n f [] = Ok w /\ w = map g (seq 0 n)).
  { apply (@for_inv (list T) (fun e w => w = map g (seq 0 e))); [reflexivity|]. intros i w Hi ->. eexists. split; [now apply H|].
    rewrite seq_S, map_app. reflexivity. }
  destruct E as (w & -> & ->). reflexivity.
Qed.
Lemma vn_map g n i : i < n -> vn (map g (seq 0 n)) i = g i.
Proof.
  intros H. unfold vn. rewrite (nth_indep _ z (g 0)) by (rewrite map_length, seq_length; exact H).
  rewrite map_nth, seq_nth by exact H. reflexivity.
Qed.
(** sums of products *)
Lemma acc_ok (f : nat -> T -> res T) lo k s : (forall i s, lo <= i < lo + k -> exists s', f i s = Ok s') -> exists s', for_from lo k f s = Ok s'.
Proof.
  intros H. destruct (@for_from_inv T (fun _ _ => True) f k lo s) as (s' & E & _); eauto.
  intros i s0 Hi _. destruct (H i s0) as (s' & E); [lia|]. eauto.
Qed.

Section P.
Variable n : nat.
Definition perm (ipvt : list nat) : Prop := Permutation (seq 0 n) ipvt.
Lemma perm_length ip : perm ip -> length ip = n.
Proof. intros P. rewrite <- (Permutation_length P), seq_length. reflexivity. Qed.
Lemma perm_get ip j : perm ip -> j < n -> get ip j = Ok (nth j ip 0) /\ nth j ip 0 < n.
Proof.
  intros P J. pose proof (perm_length P) as L. split; [apply get_nth; lia|].
  assert (In (nth j ip 0) (seq 0 n)) by (eapply Permutation_in; [symmetry; exact P|]; apply nth_In; lia). apply in_seq in H. lia.
Qed.
Lemma perm_inj ip i j : perm ip -> i < n -> j < n -> nth i ip 0 = nth j ip 0 -> i = j.
Proof.
  intros P I J E. assert (D : NoDup ip) by (eapply Permutation_NoDup; [exact P|apply seq_NoDup]).
  pose proof (perm_length P). rewrite NoDup_nth in D. apply D; try lia. exact E.
Qed.
Lemma perm_onto ip l : perm ip -> l < n -> exists j, j < n /\ nth j ip 0 = l.
Proof.
  intros P L. assert (In l ip) by (eapply Permutation_in; [exact P|]; apply in_seq; lia).
  apply In_nth with (d := 0) in H. destruct H as (j & Hj & E). exists j. split; [rewrite <- (perm_length P); exact Hj|exact E].
Qed.
End P.

Section D.
Variable m n : nat.
Hypothesis NM : n <= m.

Lemma qrsolv_copy_ok r : shape m n r -> exists r', qrsolv_copy n r = Ok r' /\ shape m n r' /\
  forall a b, a < n -> b < n -> en r' a b = if a <=? b then en r a b else en r b a.
Proof.
  intros Sh. unfold qrsolv_copy.
  match goal with |- context [for_ n ?body r] => destruct (@for_inv (matrix T) (fun j r' => shape m n r' /\
    forall a b, a < n -> b < n -> en r' a b = if (b <? j) && (b <=? a) then en r b a else en r a b) body n r) as (r' & E & S' & P) end.
  - split; [exact Sh|]. intros a b Ha Hb. assert (b <? 0 = false) as -> by (apply Nat.ltb_ge; lia). reflexivity.
  - intros j r1 Hj (S1 & P1).
    match goal with |- context [for_from j (n - j) ?body r1] => destruct (@for_from_inv (matrix T) (fun e r' => shape m n r' /\
      forall a b, a < n -> b < n -> en r' a b = if ((b <? j) && (b <=? a)) || ((b =? j) && (j <=? a) && (a <? e)) then en r b a else en r a b) body (n - j) j r1) as (r2 & E2 & S2 & P2) end.
    + split; [exact S1|]. intros a b Ha Hb. rewrite P1 by assumption.
      destruct (Nat.ltb_spec b j), (Nat.leb_spec b a), (Nat.eqb_spec b j), (Nat.leb_spec j a), (Nat.ltb_spec a j); cbn [andb orb]; try lia; reflexivity.
    + intros i r2 Hi (S2 & P2). rewrite (@get2_ok m n r2 j i S2) by lia. cbn [bind].
      destruct (@set2_ok m n r2 i j (en r2 j i) S2) as (r3 & -> & S3 & P3); [lia|lia|]. eexists. split; [reflexivity|]. split; [exact S3|].
      intros a b Ha Hb. rewrite P3. destruct (Nat.eqb_spec a i) as [->|Na]; destruct (Nat.eqb_spec b j) as [->|Nb]; cbn [andb].
      * rewrite P2 by lia. destruct (Nat.eq_dec i j) as [->|Nij].
        { repeat match goal with |- context [if ?b then _ else _] => destruct b end; reflexivity. }
        destruct (Nat.ltb_spec i j), (Nat.ltb_spec j j), (Nat.eqb_spec i j), (Nat.leb_spec j i), (Nat.ltb_spec i (S i)); cbn [andb orb]; try lia; rewrite ?Nat.eqb_refl; reflexivity.
      * rewrite P2 by lia. destruct (Nat.eqb_spec b j); [lia|]. reflexivity.
      * rewrite P2 by lia. rewrite Nat.eqb_refl. destruct (Nat.ltb_spec a i), (Nat.ltb_spec a (S i)); try lia; reflexivity.
      * rewrite P2 by lia. destruct (Nat.eqb_spec b j); [lia|]. reflexivity.
    + exists r2. split; [exact E2|]. split; [exact S2|]. intros a b Ha Hb. rewrite P2 by assumption. replace (j + (n - j)) with n by lia.
      destruct (Nat.ltb_spec b j), (Nat.ltb_spec b (S j)), (Nat.leb_spec b a), (Nat.eqb_spec b j), (Nat.leb_spec j a), (Nat.ltb_spec a n); cbn [andb orb]; try lia; reflexivity.
  - exists r'. split; [exact E|]. split; [exact S'|]. intros a b Ha Hb. rewrite P by assumption.
    assert (b <? n = true) as -> by (apply Nat.ltb_lt; lia). cbn [andb].
    destruct (Nat.leb_spec b a), (Nat.leb_spec a b); try lia; try reflexivity. assert (a = b) by lia. subst. reflexivity.
Qed.

(** the rotation: cosine and sine *)
Definition rot (rkk sk : T) : T * T :=
  if nltb N (nabs N rkk) (nabs N sk) then
    let cotan := ndiv N rkk sk in
    let sin := ndiv N (p5 N) (nsqrt N (p25 N +! p25 N *! cotan *! cotan)) in (sin *! cotan, sin)
  else
    let tan := ndiv N sk rkk in
    let cos := ndiv N (p5 N) (nsqrt N (p25 N +! p25 N *! tan *! tan)) in (cos, cos *! tan).

Lemma givens_ok r sd wa q k : shape m n r -> length sd = n -> length wa = n -> k < n ->
  exists r' sd' wa' q', givens N n k (r, sd, wa, q) = Ok (r', sd', wa', q') /\ shape m n r' /\ length sd' = n /\ length wa' = n /\
    if neqb N (vn sd k) z then r' = r /\ sd' = sd /\ wa' = wa /\ q' = q
    else
      let c := fst (rot (en r k k) (vn sd k)) in
      let s := snd (rot (en r k k) (vn sd k)) in
      (forall a b, a < n -> b < n -> en r' a b = if b =? k then (if a =? k then c *! en r k k +! s *! vn sd k
                      else if k <? a then c *! en r a k +! s *! vn sd a else en r a k) else en r a b) /\
      (forall a, a < n -> vn sd' a = if k <? a then nneg N s *! en r a k +! c *! vn sd a else vn sd a) /\
      (forall a, a < n -> vn wa' a = if a =? k then c *! vn wa k +! s *! q else vn wa a) /\
      q' = nneg N s *! vn wa k +! c *! q.
Proof.
  intros Sr Ls Lw K. unfold givens. rewrite (@get_vn sd k) by lia. cbn [bind].
  destruct (neqb N (vn sd k) z); [do 4 eexists; split; [reflexivity|]; auto 10|].
  rewrite (@get2_ok m n r k k Sr) by lia. cbn [bind].
  match goal with |- context [let '(c, s) := ?e in _] => change e with (rot (en r k k) (vn sd k)) end.
  destruct (rot (en r k k) (vn sd k)) as (c, s). cbn [fst snd].
  destruct (@set2_ok m n r k k (c *! en r k k +! s *! vn sd k) Sr) as (r1 & -> & S1 & P1); [lia|lia|]. cbn [bind].
  rewrite (@get_vn wa k) by lia. cbn [bind]. cbv zeta.
  destruct (@set_vn wa k (c *! vn wa k +! s *! q)) as (wa1 & -> & Lw1 & W1); [lia|]. cbn [bind].
  match goal with |- context [for_from (S k) (n - S k) ?body (r1, sd)] =>
    destruct (@for_from_inv (matrix T * list T) (fun e '(r2, sd2) => shape m n r2 /\ length sd2 = n /\
      (forall a b, a < n -> b < n -> en r2 a b = if b =? k then (if a =? k then c *! en r k k +! s *! vn sd k
          else if (k <? a) && (a <? e) then c *! en r a k +! s *! vn sd a else en r a k) else en r a b) /\
      (forall a, a < n -> vn sd2 a = if (k <? a) && (a <? e) then nneg N s *! en r a k +! c *! vn sd a else vn sd a))
      body (n - S k) (S k) (r1, sd)) as ([r2 sd2] & E & S2 & Ls2 & P2 & D2) end.
  - split; [exact S1|]. split; [exact Ls|]. split.
    + intros a b Ha Hb. rewrite P1. destruct (Nat.eqb_spec b k) as [->|]; [|rewrite andb_false_r; reflexivity]. rewrite andb_true_r.
      destruct (Nat.eqb_spec a k); [reflexivity|]. destruct (Nat.ltb_spec k a), (Nat.ltb_spec a (S k)); cbn [andb]; try lia; reflexivity.
    + intros a Ha. destruct (Nat.ltb_spec k a), (Nat.ltb_spec a (S k)); cbn [andb]; try lia; reflexivity.
  - intros i [r2 sd2] Hi (S2 & Ls2 & P2 & D2). rewrite (@get2_ok m n r2 i k S2) by lia. cbn [bind]. rewrite (@get_vn sd2 i) by lia. cbn [bind].
    assert (X : en r2 i k = en r i k).
    { rewrite P2 by lia. rewrite Nat.eqb_refl. destruct (Nat.eqb_spec i k); [lia|]. rewrite Nat.ltb_irrefl, andb_false_r. reflexivity. }
    assert (Y : vn sd2 i = vn sd i) by (rewrite D2 by lia; rewrite Nat.ltb_irrefl, andb_false_r; reflexivity).
    rewrite X, Y.
    destruct (@set_vn sd2 i (nneg N s *! en r i k +! c *! vn sd i)) as (sd3 & -> & Ls3 & D3); [lia|]. cbn [bind].
    destruct (@set2_ok m n r2 i k (c *! en r i k +! s *! vn sd i) S2) as (r3 & -> & S3 & P3); [lia|lia|]. cbn [bind].
    eexists. split; [reflexivity|]. split; [exact S3|]. split; [lia|]. split.
    + intros a b Ha Hb. rewrite P3. destruct (Nat.eqb_spec b k) as [->|]; [|rewrite andb_false_r; rewrite P2 by assumption; destruct (Nat.eqb_spec b k); [lia|reflexivity]].
      rewrite andb_true_r. destruct (Nat.eqb_spec a i) as [->|].
      * destruct (Nat.eqb_spec i k); [lia|]. assert (k <? i = true) as -> by (apply Nat.ltb_lt; lia). assert (i <? S i = true) as -> by (apply Nat.ltb_lt; lia). reflexivity.
      * rewrite P2 by assumption. rewrite Nat.eqb_refl. destruct (Nat.ltb_spec a i), (Nat.ltb_spec a (S i)); try lia; reflexivity.
    + intros a Ha. rewrite D3. destruct (Nat.eqb_spec a i) as [->|].
      * assert (k <? i = true) as -> by (apply Nat.ltb_lt; lia). assert (i <? S i = true) as -> by (apply Nat.ltb_lt; lia). reflexivity.
      * rewrite D2 by assumption. destruct (Nat.ltb_spec a i), (Nat.ltb_spec a (S i)); try lia; reflexivity.
  - rewrite E. cbn [bind]. do 4 eexists. split; [reflexivity|]. split; [exact S2|]. split; [exact Ls2|]. split; [lia|].
    cbv zeta. split; [|split; [|split; [|reflexivity]]].
    + intros a b Ha Hb. rewrite P2 by assumption. replace (S k + (n - S k)) with n by lia. apply Nat.ltb_lt in Ha. rewrite Ha, andb_true_r. reflexivity.
    + intros a Ha. rewrite D2 by assumption. replace (S k + (n - S k)) with n by lia. apply Nat.ltb_lt in Ha. rewrite Ha, andb_true_r. reflexivity.
    + intros a Ha. apply W1.
Qed.

Lemma clear_ok sd j : length sd = n -> j < n -> exists sd', for_from j (n - j) (fun k sd => set sd k z) sd = Ok sd' /\ length sd' = n /\
  forall a, a < n -> vn sd' a = if j <=? a then z else vn sd a.
Proof.
  intros L J. destruct (@for_from_inv (list T) (fun e s => length s = n /\ forall a, a < n -> vn s a = if (j <=? a) && (a <? e) then z else vn sd a)
    (fun k sd => set sd k z) (n - j) j sd) as (s' & E & L' & P).
  - split; [exact L|]. intros a Ha. destruct (Nat.leb_spec j a), (Nat.ltb_spec a j); try lia; reflexivity.
  - intros i s Hi (Ls & P). destruct (@set_vn s i z) as (s1 & -> & L1 & P1); [lia|]. eexists. split; [reflexivity|]. split; [lia|].
    intros a Ha. rewrite P1. destruct (Nat.eqb_spec a i) as [->|].
    + assert (j <=? i = true) as -> by (apply Nat.leb_le; lia). assert (i <? S i = true) as -> by (apply Nat.ltb_lt; lia). reflexivity.
    + rewrite P by assumption. destruct (Nat.ltb_spec a i), (Nat.ltb_spec a (S i)); try lia; reflexivity.
  - exists s'. split; [exact E|]. split; [exact L'|]. intros a Ha. rewrite P by assumption. replace (j + (n - j)) with n by lia.
    apply Nat.ltb_lt in Ha. rewrite Ha, andb_true_r. reflexivity.
Qed.

Lemma eliminate_ok ip diag x j r sd wa : perm n ip -> length diag = n -> length x = n -> j < n -> shape m n r -> length sd = n -> length wa = n ->
  exists r' sd' wa', eliminate N n ip diag x j (r, sd, wa) = Ok (r', sd', wa') /\ shape m n r' /\ length sd' = n /\ length wa' = n /\
    exists r1 sd1 wa1, shape m n r1 /\ length sd1 = n /\
      (if neqb N (vn diag (nth j ip 0)) z then r1 = r /\ sd1 = sd /\ wa1 = wa
       else exists sd0 q, length sd0 = n /\
         (forall a, a < n -> vn sd0 a = if a =? j then vn diag (nth j ip 0) else if j <=? a then z else vn sd a) /\
         for_from j (n - j) (givens N n) (r, sd0, wa, z) = Ok (r1, sd1, wa1, q)) /\
      wa' = wa1 /\ (forall a, vn sd' a = if a =? j then en r1 j j else vn sd1 a) /\
      (forall a b, en r' a b = if (a =? j) && (b =? j) then vn x j else en r1 a b).
Proof.
  intros P Ld Lx J Sh Ls Lw. unfold eliminate. destruct (perm_get P J) as (-> & Hp). cbn [bind]. rewrite (@get_vn diag (nth j ip 0)) by lia. cbn [bind].
  set (dl := vn diag (nth j ip 0)).
  match goal with |- context [bind (if ?b then ?u else ?v) _] =>
    assert (H : exists r1 sd1 wa1, (if b then u else v) = Ok (r1, sd1, wa1) /\ shape m n r1 /\ length sd1 = n /\ length wa1 = n /\
      if b then r1 = r /\ sd1 = sd /\ wa1 = wa else exists sd0 q, length sd0 = n /\
         (forall a, a < n -> vn sd0 a = if a =? j then dl else if j <=? a then z else vn sd a) /\
         for_from j (n - j) (givens N n) (r, sd0, wa, z) = Ok (r1, sd1, wa1, q)) end.
  { destruct (neqb N dl z); [exists r, sd, wa; auto 10|].
    destruct (clear_ok Ls J) as (sd0 & -> & L0 & P0). cbn [bind]. destruct (@set_vn sd0 j dl) as (sd0' & -> & L0' & P0'); [lia|]. cbn [bind].
    destruct (@for_from_inv (matrix T * list T * list T * T) (fun _ '(r, sd, wa, _) => shape m n r /\ length sd = n /\ length wa = n)
      (givens N n) (n - j) j (r, sd0', wa, z)) as ([[[r1 sd1] wa1] q] & E & S1 & L1 & W1).
    - split; [exact Sh|]. split; [lia|exact Lw].
    - intros k [[[r1 sd1] wa1] q1] Hk (S1 & L1 & W1). destruct (@givens_ok r1 sd1 wa1 q1 k S1 L1 W1) as (r2 & sd2 & wa2 & q2 & E & S2 & L2 & W2 & _); [lia|].
      eexists. split; [exact E|]. split; [exact S2|]. split; [exact L2|exact W2].
    - exists r1, sd1, wa1. rewrite E. cbn [bind]. split; [reflexivity|]. split; [exact S1|]. split; [exact L1|]. split; [exact W1|].
      exists sd0', q. split; [lia|]. split; [|exact E]. intros a Ha. rewrite P0'. destruct (a =? j); [reflexivity|]. now apply P0. }
  destruct H as (r1 & sd1 & wa1 & -> & S1 & L1 & W1 & H). cbn [bind].
  rewrite (@get2_ok m n r1 j j S1) by lia. cbn [bind]. destruct (@set_vn sd1 j (en r1 j j)) as (sd2 & -> & L2 & P2); [lia|]. cbn [bind].
  rewrite (@get_vn x j) by lia. cbn [bind]. destruct (@set2_ok m n r1 j j (vn x j) S1) as (r2 & -> & S2 & P3); [lia|lia|]. cbn [bind].
  do 3 eexists. split; [reflexivity|]. split; [exact S2|]. split; [lia|]. split; [exact W1|].
  exists r1, sd1, wa1. split; [exact S1|]. split; [exact L1|]. split; [exact H|]. split; [reflexivity|]. split; [exact P2|exact P3].
Qed.

Lemma find_nsing_ok d wa : length d = n -> length wa = n -> exists ns wa', find_nsing N n d wa = Ok (ns, wa') /\ length wa' = n /\ ns <= n /\
  (forall j, j < ns -> neqb N (vn d j) z = false) /\ (ns < n -> neqb N (vn d ns) z = true) /\
  (forall i, i < n -> vn wa' i = if i <? ns then vn wa i else z).
Proof.
  intros Ld Lw. unfold find_nsing.
  match goal with |- context [for_ n ?body ?s0] => destruct (@for_inv (nat * list T) (fun e '(ns, wa') => length wa' = n /\ (ns = n \/ ns < e) /\
    (forall j, j < ns -> j < e -> neqb N (vn d j) z = false) /\ (ns < n -> neqb N (vn d ns) z = true) /\
    (forall i, i < n -> vn wa' i = if (ns <=? i) && (i <? e) then z else vn wa i)) body n s0) as ([ns wa'] & E & L & B & A1 & A2 & W) end.
  - split; [exact Lw|]. split; [now left|]. split; [intros; lia|]. split; [intros; lia|]. intros i Hi. destruct (Nat.leb_spec n i); [lia|reflexivity].
  - intros j [ns w] Hj (L & B & A1 & A2 & W). rewrite (@get_vn d j) by lia. cbn [bind]. cbv zeta.
    set (ns' := if neqb N (vn d j) z && (ns =? n) then j else ns).
    assert (Q : (ns' = n \/ ns' < S j) /\ (forall i, i < ns' -> i < S j -> neqb N (vn d i) z = false) /\ (ns' < n -> neqb N (vn d ns') z = true) /\
                (ns' <= j -> forall i, i < n -> i <> j -> ((ns' <=? i) && (i <? S j)) = ((ns <=? i) && (i <? j))) /\ (j < ns' -> ns = n /\ ns' = n)).
    { unfold ns'. destruct (neqb N (vn d j) z) eqn:Ez; cbn [andb]; [destruct (Nat.eqb_spec ns n) as [En|En]|].
      - split; [right; lia|]. split; [intros i Hi _; apply A1; lia|]. split; [intros _; exact Ez|]. split; [|intros; lia].
        intros _ i Hi Hij. destruct (Nat.leb_spec j i), (Nat.ltb_spec i (S j)), (Nat.leb_spec ns i), (Nat.ltb_spec i j); cbn [andb]; try lia; reflexivity.
      - split; [right; lia|]. split; [intros i Hi _; apply A1; lia|]. split; [exact A2|]. split; [|intros; lia].
        intros _ i Hi Hij. destruct (Nat.ltb_spec i (S j)), (Nat.ltb_spec i j); try lia; reflexivity.
      - split; [lia|]. split; [intros i Hi Hi'; destruct (Nat.eq_dec i j) as [->|]; [exact Ez|apply A1; lia]|]. split; [exact A2|]. split; [|intros; lia].
        intros _ i Hi Hij. destruct (Nat.ltb_spec i (S j)), (Nat.ltb_spec i j); try lia; reflexivity. }
    destruct Q as (Q1 & Q2 & Q3 & Q4 & Q5). destruct (Nat.ltb_spec ns' n) as [Hn|Hn].
    + destruct (@set_vn w j z) as (w' & -> & L' & W'); [lia|]. cbn [bind]. eexists. split; [reflexivity|]. split; [lia|]. split; [exact Q1|].
      split; [exact Q2|]. split; [exact Q3|]. intros i Hi. rewrite W'. destruct (Nat.eqb_spec i j) as [->|Nij].
      * assert (ns' <=? j = true) as -> by (apply Nat.leb_le; lia). assert (j <? S j = true) as -> by (apply Nat.ltb_lt; lia). reflexivity.
      * rewrite W by assumption. rewrite (Q4 ltac:(lia) i Hi Nij). reflexivity.
    + eexists. split; [reflexivity|]. split; [exact L|]. split; [exact Q1|]. split; [exact Q2|]. split; [exact Q3|].
      intros i Hi. rewrite W by assumption. destruct (Q5 ltac:(lia)) as (-> & ->). destruct (Nat.leb_spec n i); [lia|reflexivity].
  - exists ns, wa'. split; [exact E|]. split; [exact L|]. split; [lia|]. split; [intros j Hj; apply A1; lia|]. split; [exact A2|].
    intros i Hi. rewrite W by assumption. apply Nat.ltb_lt in Hi. rewrite Hi, andb_true_r, Nat.ltb_antisym. destruct (ns <=? i); reflexivity.
Qed.

(** each component in terms of the later ones *)
Lemma back_subst_ok ns r sd wa : ns <= n -> shape m n r -> length sd = n -> length wa = n ->
  exists w, back_subst N ns r sd wa = Ok w /\ length w = n /\ (forall i, ns <= i -> vn w i = vn wa i) /\
    forall j, j < ns -> exists sum, for_from (S j) (ns - S j) (fun i sum => do a <- get2 r i j; do x <- get w i; Ok (sum +! a *! x)) z = Ok sum /\
      vn w j = ndiv N (nsub N (vn wa j) sum) (vn sd j).
Proof.
  intros Hns Sh Ls Lw. unfold back_subst.
  match goal with |- context [for_ ns ?body wa] => destruct (@for_inv (list T) (fun k w => length w = n /\ (forall i, i < ns - k \/ ns <= i -> vn w i = vn wa i) /\
    forall j, j < ns -> ns - k <= j -> exists sum, for_from (S j) (ns - S j) (fun i sum => do a <- get2 r i j; do x <- get w i; Ok (sum +! a *! x)) z = Ok sum /\
      vn w j = ndiv N (nsub N (vn wa j) sum) (vn sd j)) body ns wa) as (w & E & L & A & P) end.
  - split; [exact Lw|]. split; [reflexivity|]. intros; lia.
  - intros k w Hk (L & A & P). cbv zeta. set (j := ns - k - 1).
    destruct (@acc_ok (fun i sum => do a <- get2 r i j; do x <- get w i; Ok (sum +! a *! x)) (S j) (ns - S j) z) as (sum & Es).
    { intros i s Hi. rewrite (@get2_ok m n r i j Sh) by lia. cbn [bind]. rewrite (@get_vn w i) by lia. cbn [bind]. eauto. }
    rewrite Es. cbn [bind]. rewrite (@get_vn w j) by lia. cbn [bind]. rewrite (@get_vn sd j) by lia. cbn [bind].
    destruct (@set_vn w j (ndiv N (nsub N (vn w j) sum) (vn sd j))) as (w' & -> & L' & W'); [lia|]. eexists. split; [reflexivity|]. split; [lia|]. split.
    + intros i Hi. rewrite W'. destruct (Nat.eqb_spec i j); [lia|]. apply A. lia.
    + intros i Hi Hik. assert (X : forall s, for_from (S i) (ns - S i) (fun q sum => do a <- get2 r q i; do x <- get w' q; Ok (sum +! a *! x)) s =
          for_from (S i) (ns - S i) (fun q sum => do a <- get2 r q i; do x <- get w q; Ok (sum +! a *! x)) s).
      { intros s. apply for_from_ext. intros q s0 Hq. destruct (get2 r q i); cbn [bind]; try reflexivity. rewrite !get_vn by lia. rewrite W'.
        destruct (Nat.eqb_spec q j); [lia|]. reflexivity. }
      rewrite X. rewrite W'. destruct (Nat.eqb_spec i j) as [->|Nij].
      * exists sum. split; [exact Es|]. rewrite A by lia. reflexivity.
      * apply P; lia.
  - exists w. split; [exact E|]. split; [exact L|]. split; [intros i Hi; apply A; lia|]. intros j Hj. apply P; lia.
Qed.

Lemma unpermute_ok ip wa x : perm n ip -> length wa = n -> length x = n -> exists x', unpermute n ip wa x = Ok x' /\ length x' = n /\
  forall j, j < n -> vn x' (nth j ip 0) = vn wa j.
Proof.
  intros P Lw Lx. unfold unpermute.
  match goal with |- context [for_ n ?body x] => destruct (@for_inv (list T) (fun e x' => length x' = n /\ forall j, j < e -> vn x' (nth j ip 0) = vn wa j) body n x) as (x' & E & L & A) end.
  - split; [exact Lx|]. intros; lia.
  - intros j x' Hj (L & A). destruct (perm_get P Hj) as (-> & Hp). cbn [bind]. rewrite (@get_vn wa j) by lia. cbn [bind].
    destruct (@set_vn x' (nth j ip 0) (vn wa j)) as (x2 & -> & L2 & A2); [lia|]. eexists. split; [reflexivity|]. split; [lia|].
    intros i Hi. rewrite A2. destruct (Nat.eqb_spec (nth i ip 0) (nth j ip 0)) as [Q|Q].
    + apply (@perm_inj n ip) in Q; [|assumption|lia|assumption]. now subst.
    + apply A. assert (i <> j) by congruence. lia.
  - exists x'. split; [exact E|]. split; [exact L|exact A].
Qed.

(** all of mp_qrsolv() *)
Lemma qrsolv_ok r ip diag qtb : shape m n r -> perm n ip -> length diag = n -> n <= length qtb ->
  exists r' x sd, qrsolv N n r ip diag qtb = Ok (r', x, sd) /\ shape m n r' /\ length x = n /\ length sd = n /\
    exists r0 x0 wa0 wa1 wa2 wa3 ns, shape m n r0 /\ length x0 = n /\ length wa0 = n /\ length wa1 = n /\ length wa2 = n /\ length wa3 = n /\ ns <= n /\
      (forall a b, a < n -> b < n -> en r0 a b = if a <=? b then en r a b else en r b a) /\
      (forall j, j < n -> vn x0 j = en r j j) /\ (forall j, j < n -> vn wa0 j = vn qtb j) /\
      for_ n (eliminate N n ip diag x0) (r0, zeros N n, wa0) = Ok (r', sd, wa1) /\
      (forall j, j < ns -> neqb N (vn sd j) z = false) /\ (ns < n -> neqb N (vn sd ns) z = true) /\
      (forall i, i < n -> vn wa2 i = if i <? ns then vn wa1 i else z) /\
      back_subst N ns r' sd wa2 = Ok wa3 /\
      (forall j, j < n -> vn x (nth j ip 0) = vn wa3 j).
Proof.
  intros Sh P Ld Lq. unfold qrsolv. destruct (qrsolv_copy_ok Sh) as (r0 & -> & S0 & R0). cbn [bind].
  rewrite (@build_ok (fun j => en r0 j j)) by (intros i w Hi; rewrite (@get2_ok m n r0 i i S0) by lia; reflexivity). cbn [bind].
  set (x0 := map (fun j => en r0 j j) (seq 0 n)). assert (Lx0 : length x0 = n) by (unfold x0; rewrite map_length, seq_length; reflexivity).
  rewrite sub_ok by exact Lq. cbn [bind]. rewrite Nat.sub_0_r. cbn [skipn]. set (wa0 := firstn n qtb). assert (Lw0 : length wa0 = n) by (unfold wa0; rewrite firstn_length; lia).
  destruct (@for_inv (matrix T * list T * list T) (fun _ '(r, sd, wa) => shape m n r /\ length sd = n /\ length wa = n)
    (eliminate N n ip diag x0) n (r0, zeros N n, wa0)) as ([[r' sd] wa1] & E & S' & Ls & Lw1).
  - split; [exact S0|]. split; [apply repeat_length|exact Lw0].
  - intros j [[r1 sd1] w1] Hj (S1 & L1 & W1). destruct (@eliminate_ok ip diag x0 j r1 sd1 w1 P Ld Lx0 Hj S1 L1 W1) as (r2 & sd2 & w2 & E & S2 & L2 & W2 & _).
    eexists. split; [exact E|]. split; [exact S2|]. split; [exact L2|exact W2].
  - rewrite E. cbn [bind]. destruct (find_nsing_ok Ls Lw1) as (ns & wa2 & -> & Lw2 & Hns & A1 & A2 & W2). cbn [bind].
    destruct (back_subst_ok Hns S' Ls Lw2) as (wa3 & Eb & Lw3 & _). rewrite Eb. cbn [bind].
    destruct (unpermute_ok P Lw3 Lx0) as (x & -> & Lx & X). cbn [bind]. do 3 eexists. split; [reflexivity|]. split; [exact S'|]. split; [exact Lx|]. split; [exact Ls|].
    exists r0, x0, wa0, wa1, wa2, wa3, ns. repeat (split; [assumption|]). split.
    { intros j Hj. unfold x0. rewrite vn_map by exact Hj. rewrite R0 by assumption. rewrite Nat.leb_refl. reflexivity. }
    split. { intros j Hj. unfold wa0, vn. rewrite <- (firstn_skipn n qtb) at 2. rewrite app_nth1 by (rewrite firstn_length; lia). reflexivity. }
    repeat (split; [assumption|]). exact X.
Qed.
End D.
End G.
