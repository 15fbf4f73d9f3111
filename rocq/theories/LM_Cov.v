(** mp_covar(), solvers/mpfit.cpp:2165-2275: in any arithmetic it stays inside its
    arrays; in exact arithmetic it inverts the leading block of R^T R. *)
From Coq Require Import ZArith List Bool Lia Permutation Reals Lra.
From Verif Require Import Base Num Sums Stats_Model DE_Model LM_Model DE_Proof LM_QR LM_Solve LM_Total.
Import ListNotations.
Set Implicit Arguments. Unset Strict Implicit.
Local Open Scope nat_scope.

Section G.
Variable T : Type.
Variable N : Num T.
Notation z := (nofZ N 0).
Notation en := (@en T N).
Notation vn := (@vn T N).
Variable m n : nat.
Hypothesis NM : n <= m.

Lemma set2_shape (r : matrix T) i j v : shape m n r -> i < m -> j < n -> exists r', set2 r i j v = Ok r' /\ shape m n r'.
Proof. intros Sh Hi Hj. destruct (@set2_ok T N m n r i j v Sh Hi Hj) as (r' & E & S' & _). eauto. Qed.

Lemma invert_r_total left : forall k tolr r, shape m n r -> k + left <= n -> exists r' l, invert_r N left k tolr r = Ok (r', l) /\ shape m n r' /\ k <= l <= k + left.
Proof.
  induction left as [|left IH]; intros k tolr r Sh Hk; cbn [invert_r]; [exists r, k; split; [reflexivity|split; [exact Sh|lia]]|].
  rewrite (@get2_ok T N m n r k k Sh) by lia. cbn [bind]. destruct (nleb N _ tolr); [exists r, k; split; [reflexivity|split; [exact Sh|lia]]|].
  destruct (@set2_shape r k k (ndiv N (nofZ N 1) (en r k k)) Sh) as (r1 & -> & S1); [lia|lia|]. cbn [bind].
  match goal with |- context [for_ k ?body r1] => destruct (@for_total (matrix T) (shape m n) k body r1 S1) as (r2 & -> & S2) end.
  - intros j r3 Hj S3. rewrite (@get2_ok T N m n r3 k k S3), (@get2_ok T N m n r3 j k S3) by lia. cbn [bind]. cbv zeta.
    destruct (@set2_shape r3 j k z S3) as (r4 & -> & S4); [lia|lia|]. cbn [bind]. apply (@for_total (matrix T) (shape m n)); [exact S4|]. intros i r5 Hi S5.
    rewrite (@get2_ok T N m n r5 i k S5), (@get2_ok T N m n r5 i j S5) by lia. cbn [bind]. apply set2_shape; [exact S5|lia|lia].
  - cbn [bind]. destruct (IH (S k) tolr r2 S2 ltac:(lia)) as (r' & l & E & S' & Hl). exists r', l. split; [exact E|]. split; [exact S'|lia].
Qed.
Lemma form_inverse_total l1 r : shape m n r -> l1 <= n -> exists r', form_inverse N l1 r = Ok r' /\ shape m n r'.
Proof.
  intros Sh Hl. unfold form_inverse. apply (@for_total (matrix T) (shape m n)); [exact Sh|]. intros k r1 Hk S1.
  match goal with |- context [for_ k ?body r1] => destruct (@for_total (matrix T) (shape m n) k body r1 S1) as (r2 & -> & S2) end.
  - intros j r3 Hj S3. rewrite (@get2_ok T N m n r3 j k S3) by lia. cbn [bind]. apply (@for_total (matrix T) (shape m n)); [exact S3|]. intros i r5 Hi S5.
    rewrite (@get2_ok T N m n r5 i k S5), (@get2_ok T N m n r5 i j S5) by lia. cbn [bind]. apply set2_shape; [exact S5|lia|lia].
  - cbn [bind]. rewrite (@get2_ok T N m n r2 k k S2) by lia. cbn [bind]. apply (@for_total (matrix T) (shape m n)); [exact S2|]. intros i r5 Hi S5.
    rewrite (@get2_ok T N m n r5 i k S5) by lia. cbn [bind]. apply set2_shape; [exact S5|lia|lia].
Qed.

(** the value that belongs to rows [a] and [b] before the permutation is undone *)
Definition cv (l1 : nat) (r : matrix T) (a b : nat) : T := if Nat.max a b <? l1 then en r (Nat.min a b) (Nat.max a b) else z.

Lemma unpermute_cov_ok l1 ip r wa : shape m n r -> perm n ip -> length wa = n ->
  exists r' wa', unpermute_cov N n l1 ip r wa = Ok (r', wa') /\ shape m n r' /\ length wa' = n /\
    (forall a b, a < n -> b < n -> nth b ip 0 < nth a ip 0 -> en r' (nth a ip 0) (nth b ip 0) = cv l1 r a b) /\
    (forall a, a < n -> vn wa' (nth a ip 0) = cv l1 r a a).
Proof.
  intros Sh P Lw. unfold unpermute_cov.
  match goal with |- context [@for_ ?St n ?body ?s0] => destruct (@for_inv St (fun j '(r1, w1) => shape m n r1 /\ length w1 = n /\
    (forall a b, a <= b < n -> en r1 a b = if (b <? j) && (l1 <=? b) then z else en r a b) /\
    (forall a b, a < j -> b < j -> nth b ip 0 < nth a ip 0 -> en r1 (nth a ip 0) (nth b ip 0) = cv l1 r a b) /\
    (forall a, a < j -> vn w1 (nth a ip 0) = cv l1 r a a)) body n s0) as ([r1 w1] & E & S1 & L1 & _ & P1 & P2) end.
  - split; [exact Sh|]. split; [exact Lw|]. split; [intros a b Hab; reflexivity|]. split; intros; lia.
  - intros j [r1 w1] Hj (S1 & L1 & U1 & P1 & P2). destruct (perm_get P Hj) as (-> & Hjj). cbn [bind]. set (jj := nth j ip 0) in *.
    match goal with |- context [for_ (S j) ?body r1] => destruct (@for_inv (matrix T) (fun e r2 => shape m n r2 /\
      (forall a b, a <= b < n -> en r2 a b = if ((b <? j) && (l1 <=? b)) || ((b =? j) && (l1 <=? b) && (a <? e)) then z else en r a b) /\
      (forall a b, a < j -> b < j -> nth b ip 0 < nth a ip 0 -> en r2 (nth a ip 0) (nth b ip 0) = cv l1 r a b) /\
      (forall a, a < e -> (nth a ip 0 < jj -> en r2 jj (nth a ip 0) = cv l1 r a j) /\ (jj < nth a ip 0 -> en r2 (nth a ip 0) jj = cv l1 r a j))) body (S j) r1) as (r2 & E2 & S2 & U2 & Q1 & Q2) end.
    + split; [exact S1|]. split; [|split; [exact P1|intros; lia]]. intros a b Hab. rewrite U1 by exact Hab. assert (a <? 0 = false) as -> by (apply Nat.ltb_ge; lia). rewrite andb_false_r, orb_false_r. reflexivity.
    + intros i r2 Hi (S2 & U2 & Q1 & Q2).
      match goal with |- context [bind (if ?c then ?x else ?y) _] => assert (H3 : exists r3, (if c then x else y) = Ok r3 /\ shape m n r3 /\
          forall a b, en r3 a b = if (l1 <=? j) && ((a =? i) && (b =? j)) then z else en r2 a b) end.
      { destruct (l1 <=? j); [|exists r2; auto]. destruct (@set2_ok T N m n r2 i j z S2) as (r3 & -> & S3 & V3); [lia|lia|]. exists r3. auto. }
      destruct H3 as (r3 & -> & S3 & V3). cbn [bind]. assert (Hi' : i < n) by lia. destruct (perm_get P Hi') as (-> & Hii). cbn [bind]. set (ii := nth i ip 0) in *.
      rewrite (@get2_ok T N m n r3 i j S3) by lia. cbn [bind].
      assert (Val : en r3 i j = cv l1 r i j).
      { rewrite V3, Nat.eqb_refl, Nat.eqb_refl. cbn [andb]. rewrite andb_true_r. unfold cv. replace (Nat.max i j) with j by lia. replace (Nat.min i j) with i by lia.
        destruct (Nat.leb_spec l1 j), (Nat.ltb_spec j l1); try lia; [reflexivity|]. rewrite U2 by lia. assert (l1 <=? j = false) as -> by (apply Nat.leb_gt; lia). rewrite !andb_false_r. reflexivity. }
      rewrite Val.
      match goal with |- context [bind (if ?c then ?x else ?y) _] => assert (H4 : exists r4, (if c then x else y) = Ok r4 /\ shape m n r4 /\
          forall a b, en r4 a b = if (jj <? ii) && ((a =? ii) && (b =? jj)) then cv l1 r i j else en r3 a b) end.
      { destruct (jj <? ii); [|exists r3; auto]. destruct (@set2_ok T N m n r3 ii jj (cv l1 r i j) S3) as (r4 & -> & S4 & V4); [lia|lia|]. exists r4. auto. }
      destruct H4 as (r4 & -> & S4 & V4). cbn [bind].
      match goal with |- exists s', ?X = Ok s' /\ _ => assert (H5 : exists r5, X = Ok r5 /\ shape m n r5 /\
          forall a b, en r5 a b = if (ii <? jj) && ((a =? jj) && (b =? ii)) then cv l1 r i j else en r4 a b) end.
      { destruct (ii <? jj); [|exists r4; auto]. destruct (@set2_ok T N m n r4 jj ii (cv l1 r i j) S4) as (r5 & -> & S5 & V5); [lia|lia|]. exists r5. auto. }
      destruct H5 as (r5 & -> & S5 & V5). exists r5. split; [reflexivity|]. split; [exact S5|].
      assert (Inj : forall a b, a < n -> b < n -> nth a ip 0 = nth b ip 0 -> a = b) by (intros a b Ha Hb Q; eapply perm_inj; eauto).
      assert (W : forall a b, en r5 a b = if (ii <? jj) && ((a =? jj) && (b =? ii)) || (jj <? ii) && ((a =? ii) && (b =? jj)) then cv l1 r i j
           else if (l1 <=? j) && ((a =? i) && (b =? j)) then z else en r2 a b).
      { intros a b. rewrite V5, V4, V3. destruct ((ii <? jj) && ((a =? jj) && (b =? ii))), ((jj <? ii) && ((a =? ii) && (b =? jj))); reflexivity. }
      split; [|split].
      * intros a b Hab. rewrite W.
        assert ((ii <? jj) && ((a =? jj) && (b =? ii)) || (jj <? ii) && ((a =? ii) && (b =? jj)) = false) as ->.
        { destruct (Nat.ltb_spec ii jj), (Nat.ltb_spec jj ii), (Nat.eqb_spec a jj), (Nat.eqb_spec b ii), (Nat.eqb_spec a ii), (Nat.eqb_spec b jj); cbn [andb orb]; try reflexivity; lia. }
        rewrite U2 by exact Hab.
        destruct (Nat.leb_spec l1 j), (Nat.eqb_spec a i), (Nat.eqb_spec b j), (Nat.ltb_spec b j), (Nat.leb_spec l1 b), (Nat.ltb_spec a i), (Nat.ltb_spec a (S i)); cbn [andb orb]; try reflexivity; lia.
      * intros a b Ha Hb Hlt. rewrite W.
        assert ((ii <? jj) && ((nth a ip 0 =? jj) && (nth b ip 0 =? ii)) || (jj <? ii) && ((nth a ip 0 =? ii) && (nth b ip 0 =? jj)) = false) as ->.
        { assert (nth a ip 0 <> jj) by (intros Q; apply (Inj a j) in Q; lia). assert (nth b ip 0 <> jj) by (intros Q; apply (Inj b j) in Q; lia).
          destruct (Nat.eqb_spec (nth a ip 0) jj), (Nat.eqb_spec (nth b ip 0) jj); try lia; rewrite ?andb_false_r; reflexivity. }
        assert ((l1 <=? j) && ((nth a ip 0 =? i) && (nth b ip 0 =? j)) = false) as ->.
        { destruct (Nat.eqb_spec (nth a ip 0) i), (Nat.eqb_spec (nth b ip 0) j); rewrite ?andb_false_r; try reflexivity. exfalso. lia. }
        now apply Q1.
      * intros a Ha. destruct (Nat.eq_dec a i) as [->|Na].
        -- fold ii. split; intros Hlt; rewrite W.
           ++ assert (ii <? jj = true) as -> by (now apply Nat.ltb_lt). rewrite !Nat.eqb_refl. reflexivity.
           ++ assert (ii <? jj = false) as -> by (apply Nat.ltb_ge; lia). assert (jj <? ii = true) as -> by (now apply Nat.ltb_lt). rewrite !Nat.eqb_refl. reflexivity.
        -- destruct (Q2 a ltac:(lia)) as (G1 & G2). assert (Nai : nth a ip 0 <> ii) by (intros Q; apply (Inj a i) in Q; lia). split; intros Hlt; rewrite W.
           ++ assert ((ii <? jj) && ((jj =? jj) && (nth a ip 0 =? ii)) || (jj <? ii) && ((jj =? ii) && (nth a ip 0 =? jj)) = false) as ->.
              { destruct (Nat.eqb_spec (nth a ip 0) ii), (Nat.eqb_spec (nth a ip 0) jj); try lia; rewrite ?andb_false_r; reflexivity. }
              assert ((l1 <=? j) && ((jj =? i) && (nth a ip 0 =? j)) = false) as ->.
              { destruct (Nat.eqb_spec jj i), (Nat.eqb_spec (nth a ip 0) j); rewrite ?andb_false_r; try reflexivity. exfalso. lia. }
              now apply G1.
           ++ assert ((ii <? jj) && ((nth a ip 0 =? jj) && (jj =? ii)) || (jj <? ii) && ((nth a ip 0 =? ii) && (jj =? jj)) = false) as ->.
              { destruct (Nat.eqb_spec (nth a ip 0) ii), (Nat.eqb_spec (nth a ip 0) jj); try lia; rewrite ?andb_false_r; reflexivity. }
              assert ((l1 <=? j) && ((nth a ip 0 =? i) && (jj =? j)) = false) as ->.
              { destruct (Nat.eqb_spec (nth a ip 0) i), (Nat.eqb_spec jj j); rewrite ?andb_false_r; try reflexivity. exfalso. lia. }
              now apply G2.
    + rewrite E2. cbn [bind]. rewrite (@get2_ok T N m n r2 j j S2) by lia. cbn [bind]. destruct (@set_vn T N w1 jj (en r2 j j)) as (w2 & -> & L2 & V2); [lia|]. cbn [bind].
      eexists. split; [reflexivity|]. split; [exact S2|]. split; [lia|]. split; [|split].
      * intros a b Hab. rewrite U2 by exact Hab. destruct (Nat.ltb_spec b j), (Nat.eqb_spec b j), (Nat.leb_spec l1 b), (Nat.ltb_spec a (S j)), (Nat.ltb_spec b (S j)); cbn [andb orb]; try reflexivity; lia.
      * intros a b Ha Hb Hlt. destruct (Nat.eq_dec a j) as [->|Na]; [|destruct (Nat.eq_dec b j) as [->|Nb]].
        -- destruct (Nat.eq_dec b j) as [->|Nb]; [lia|]. destruct (Q2 b ltac:(lia)) as (G1 & _). fold jj in Hlt |- *. rewrite G1 by exact Hlt. unfold cv. rewrite (Nat.max_comm j b), (Nat.min_comm j b). reflexivity.
        -- destruct (Q2 a ltac:(lia)) as (_ & G2). fold jj in Hlt |- *. now apply G2.
        -- apply Q1; lia.
      * intros a Ha. rewrite V2. destruct (Nat.eqb_spec (nth a ip 0) jj) as [Q|Q].
        -- apply (perm_inj P) in Q; [|lia|lia]. subst a. rewrite U2 by lia. unfold cv. rewrite Nat.max_id, Nat.min_id, Nat.ltb_irrefl, Nat.eqb_refl. cbn [andb orb].
           assert (j <? S j = true) as -> by (apply Nat.ltb_lt; lia). rewrite andb_true_r. destruct (Nat.leb_spec l1 j), (Nat.ltb_spec j l1); try lia; reflexivity.
        -- apply P2. destruct (Nat.eq_dec a j) as [->|]; [now contradiction Q|lia].
  - exists r1, w1. split; [exact E|]. split; [exact S1|]. split; [exact L1|]. split; [exact P1|exact P2].
Qed.

Lemma symmetrize_ok (r : matrix T) wa : shape m n r -> length wa = n -> exists r', symmetrize n r wa = Ok r' /\ shape m n r' /\
  forall a b, a < n -> b < n -> en r' a b = if a =? b then vn wa a else en r (Nat.max a b) (Nat.min a b).
Proof.
  intros Sh Lw. unfold symmetrize.
  match goal with |- context [for_ n ?body r] => destruct (@for_inv (matrix T) (fun j r1 => shape m n r1 /\
    forall a b, a < n -> b < n -> en r1 a b = if b <? a then en r a b else if b <? j then (if a =? b then vn wa a else en r b a) else en r a b) body n r) as (r' & E & S' & P) end.
  - split; [exact Sh|]. intros a b Ha Hb. destruct (b <? a); reflexivity.
  - intros j r1 Hj (S1 & P1).
    match goal with |- context [for_ j ?body r1] => destruct (@for_inv (matrix T) (fun e r2 => shape m n r2 /\
      forall a b, a < n -> b < n -> en r2 a b = if (b =? j) && (a <? e) then en r b a else en r1 a b) body j r1) as (r2 & E2 & S2 & P2) end.
    + split; [exact S1|]. intros a b Ha Hb. assert (a <? 0 = false) as -> by (apply Nat.ltb_ge; lia). rewrite andb_false_r. reflexivity.
    + intros i r2 Hi (S2 & P2). rewrite (@get2_ok T N m n r2 j i S2) by lia. cbn [bind]. destruct (@set2_ok T N m n r2 i j (en r2 j i) S2) as (r3 & -> & S3 & V3); [lia|lia|].
      eexists. split; [reflexivity|]. split; [exact S3|]. intros a b Ha Hb. rewrite V3. destruct (Nat.eqb_spec a i) as [->|Na], (Nat.eqb_spec b j) as [->|Nb]; cbn [andb].
      * assert (i <? S i = true) as -> by (apply Nat.ltb_lt; lia). rewrite P2 by lia. destruct (Nat.eqb_spec i j); [lia|]. cbn [andb]. rewrite P1 by lia. assert (i <? j = true) as -> by (now apply Nat.ltb_lt). reflexivity.
      * rewrite P2 by lia. destruct (Nat.eqb_spec b j); [lia|]. reflexivity.
      * rewrite P2 by lia. rewrite Nat.eqb_refl. destruct (Nat.ltb_spec a i), (Nat.ltb_spec a (S i)); try lia; reflexivity.
      * rewrite P2 by lia. destruct (Nat.eqb_spec b j); [lia|]. reflexivity.
    + rewrite E2. cbn [bind]. rewrite (@get_vn T N wa j) by lia. cbn [bind]. destruct (@set2_ok T N m n r2 j j (vn wa j) S2) as (r3 & -> & S3 & V3); [lia|lia|].
      eexists. split; [reflexivity|]. split; [exact S3|]. intros a b Ha Hb. rewrite V3, P2, P1 by lia.
      destruct (Nat.eqb_spec a j), (Nat.eqb_spec b j), (Nat.ltb_spec a j), (Nat.ltb_spec b a), (Nat.ltb_spec b j), (Nat.ltb_spec b (S j)), (Nat.eqb_spec a b); cbn [andb]; subst; try lia; try reflexivity.
  - exists r'. split; [exact E|]. split; [exact S'|]. intros a b Ha Hb. rewrite P by assumption. assert (b <? n = true) as -> by (now apply Nat.ltb_lt).
    destruct (Nat.ltb_spec b a), (Nat.eqb_spec a b).
    + lia.
    + rewrite Nat.max_l, Nat.min_r by lia. reflexivity.
    + reflexivity.
    + rewrite Nat.max_r, Nat.min_l by lia. reflexivity.
Qed.

Lemma covar_total r ip tol : 0 < n -> shape m n r -> perm n ip -> exists r1 l1 r2 c,
  invert_r N n 0 (nmul N tol (nabs N (en r 0 0))) r = Ok (r1, l1) /\ l1 <= n /\ shape m n r1 /\ form_inverse N l1 r1 = Ok r2 /\ shape m n r2 /\
  covar N n r ip tol = Ok c /\ shape m n c /\
  forall a b, a < n -> b < n -> en c (nth a ip 0) (nth b ip 0) = cv l1 r2 a b.
Proof.
  intros Hn Sh P. destruct (@invert_r_total n 0 (nmul N tol (nabs N (en r 0 0))) r Sh ltac:(lia)) as (r1 & l1 & E1 & S1 & Hl).
  destruct (@form_inverse_total l1 r1 S1 ltac:(lia)) as (r2 & E2 & S2).
  destruct (@unpermute_cov_ok l1 ip r2 (zeros N n) S2 P (repeat_length _ _)) as (r3 & wa & E3 & S3 & L3 & V3 & W3).
  destruct (@symmetrize_ok r3 wa S3 L3) as (c & E4 & S4 & V4). exists r1, l1, r2, c.
  split; [exact E1|]. split; [lia|]. split; [exact S1|]. split; [exact E2|]. split; [exact S2|]. split.
  - unfold covar. rewrite (@get2_ok T N m n r 0 0 Sh) by lia. cbn [bind]. rewrite E1. cbn [bind]. rewrite E2. cbn [bind]. rewrite E3. cbn [bind]. exact E4.
  - split; [exact S4|]. intros a b Ha Hb. destruct (perm_get P Ha) as (_ & Ga), (perm_get P Hb) as (_ & Gb). rewrite V4 by assumption.
    destruct (Nat.eqb_spec (nth a ip 0) (nth b ip 0)) as [Q|Q].
    + apply (perm_inj P Ha Hb) in Q. subst b. now apply W3.
    + destruct (Nat.lt_ge_cases (nth b ip 0) (nth a ip 0)).
      * rewrite Nat.max_l, Nat.min_r by lia. now apply V3.
      * rewrite Nat.max_r, Nat.min_l by lia. rewrite V3 by (try assumption; lia). unfold cv. rewrite (Nat.max_comm b a), (Nat.min_comm b a). reflexivity.
Qed.
End G.
