(** mp_covar() in exact arithmetic. *)
From Coq Require Import ZArith List Bool Lia Permutation Reals Lra.
From Verif Require Import Base Num Sums Stats_Model DE_Model LM_Model DE_Proof LM_QR LM_Solve LM_SolveReal LM_Total LM_Cov.
Import ListNotations.
Set Implicit Arguments. Unset Strict Implicit.
Local Open Scope R_scope.

Definition delta_ (a b : nat) : R := if (a =? b)%nat then 1 else 0.

Section E.
Variable m n : nat.
Hypothesis NM : (n <= m)%nat.

(** one column of the inverse of a triangular matrix *)
Lemma inv_col k r : shape m n r -> (k < n)%nat -> exists r', for_ k (fun j r =>
        do rkk <- get2 r k k; do rjk <- get2 r j k;
        let temp := nmul NumR rkk rjk in
        do r <- set2 r j k (nofZ NumR 0);
        for_ (S j) (fun i r => do a <- get2 r i k; do b <- get2 r i j; set2 r i k (nadd NumR a (nmul NumR (nneg NumR temp) b))) r) r = Ok r' /\ shape m n r' /\
  (forall i b, (b <> k \/ (k <= i)%nat) -> en r' i b = en r i b) /\
  forall i, (i < k)%nat -> en r' i k = - rsum k (fun l => if (i <=? l)%nat then en r k k * en r l k * en r i l else 0).
Proof.
  intros Sh Hk.
  match goal with |- context [@for_ ?St k ?body r] => destruct (@for_inv St (fun j r1 => shape m n r1 /\ (forall i b, (b <> k \/ (k <= i)%nat) -> en r1 i b = en r i b) /\
    forall i, (i < k)%nat -> en r1 i k = if (i <? j)%nat then - rsum j (fun l => if (i <=? l)%nat then en r k k * en r l k * en r i l else 0) else en r i k) body k r) as (r1 & E & S1 & O1 & V1) end.
  - split; [exact Sh|]. split; [reflexivity|]. reflexivity.
  - intros j r1 Hj (S1 & O1 & V1). rewrite (@get2_ok R NumR m n r1 k k S1), (@get2_ok R NumR m n r1 j k S1) by lia. cbn [bind]. cbv zeta.
    rewrite (O1 k k) by lia. rewrite (V1 j) by lia. rewrite Nat.ltb_irrefl. set (temp := nmul NumR (en r k k) (en r j k)).
    destruct (@set2_ok R NumR m n r1 j k (nofZ NumR 0) S1) as (r2 & -> & S2 & V2); [lia|lia|]. cbn [bind].
    match goal with |- context [@for_ ?St (S j) ?body r2] => destruct (@for_inv St (fun e r3 => shape m n r3 /\ (forall i b, (b <> k \/ (k <= i)%nat) -> en r3 i b = en r i b) /\
      forall i, (i < k)%nat -> en r3 i k = if (i <? e)%nat then en r2 i k + - temp * en r i j else en r2 i k) body (S j) r2) as (r3 & E3 & S3 & O3 & V3) end.
    + split; [exact S2|]. split; [|reflexivity]. intros i b Hib. rewrite V2. destruct (Nat.eqb_spec i j), (Nat.eqb_spec b k); cbn [andb]; try (apply O1; exact Hib). lia.
    + intros i r3 Hi (S3 & O3 & V3). rewrite (@get2_ok R NumR m n r3 i k S3), (@get2_ok R NumR m n r3 i j S3) by lia. cbn [bind]. rewrite (O3 i j) by lia.
      rewrite (V3 i) by lia. rewrite Nat.ltb_irrefl. match goal with |- context [set2 r3 i k ?v] => destruct (@set2_ok R NumR m n r3 i k v S3) as (r4 & -> & S4 & V4); [lia|lia|] end.
      eexists. split; [reflexivity|]. split; [exact S4|]. split.
      * intros i' b Hib. rewrite V4. destruct (Nat.eqb_spec i' i), (Nat.eqb_spec b k); cbn [andb]; try (apply O3; exact Hib). lia.
      * intros i' Hi'. rewrite V4, Nat.eqb_refl, andb_true_r. destruct (Nat.eqb_spec i' i) as [->|Ne].
        -- assert (i <? S i = true)%nat as -> by (apply Nat.ltb_lt; lia). reflexivity.
        -- rewrite V3 by lia. destruct (Nat.ltb_spec i' i), (Nat.ltb_spec i' (S i)); try lia; reflexivity.
    + rewrite E3. eexists. split; [reflexivity|]. split; [exact S3|]. split; [exact O3|]. intros i Hi. rewrite V3 by lia. rewrite V2, Nat.eqb_refl, andb_true_r, (V1 i) by lia.
      cbn [rsum]. unfold temp. cbn [nmul nofZ NumR]. destruct (Nat.eqb_spec i j) as [->|Ne].
      * assert (j <? S j = true)%nat as -> by (apply Nat.ltb_lt; lia). assert (j <=? j = true)%nat as -> by (apply Nat.leb_le; lia).
        rewrite rsum_zero; [ring|]. intros l Hl. destruct (Nat.leb_spec j l); [lia|reflexivity].
      * destruct (Nat.ltb_spec i (S j)), (Nat.ltb_spec i j), (Nat.leb_spec i j); try lia; [ring|reflexivity].
  - exists r1. split; [exact E|]. split; [exact S1|]. split; [exact O1|]. intros i Hi. rewrite V1 by exact Hi. assert (i <? k = true)%nat as -> by (now apply Nat.ltb_lt). reflexivity.
Qed.

Definition inverse_upto (k : nat) (r0 r : matrix R) : Prop :=
  (forall a b, (a < k)%nat -> (b < k)%nat -> rsum k (fun l => ut r0 a l * ut r l b) = delta_ a b) /\
  (forall a b, (a < k)%nat -> (b < k)%nat -> rsum k (fun l => ut r a l * ut r0 l b) = delta_ a b).

Lemma invert_exact r0 tolr : 0 <= tolr -> forall left k r r' l, shape m n r -> (k + left = n)%nat ->
  (forall i b, (i <= b)%nat -> (k <= b < n)%nat -> en r i b = en r0 i b) -> inverse_upto k r0 r -> (forall b, (b < k)%nat -> tolr < Rabs (en r0 b b)) ->
  invert_r NumR left k tolr r = Ok (r', l) ->
  (k <= l <= n)%nat /\ inverse_upto l r0 r' /\ (forall b, (b < l)%nat -> tolr < Rabs (en r0 b b)) /\ ((l < n)%nat -> Rabs (en r0 l l) <= tolr).
Proof.
  intros Tp. induction left as [|left IH]; intros k r r' l Sh Hk U (Ia & Ib) Dg E; cbn [invert_r] in E.
  - apply Ok_inj in E. injection E as <- <-. split; [lia|]. split; [split; assumption|]. split; [exact Dg|]. intros; lia.
  - rewrite (@get2_ok R NumR m n r k k Sh) in E by lia. cbn [bind] in E. rewrite (U k k) in E by lia. cbn [nleb nabs NumR] in E. destruct (Rleb (Rabs (en r0 k k)) tolr) eqn:Q.
    + apply Ok_inj in E. injection E as <- <-. split; [lia|]. split; [split; assumption|]. split; [exact Dg|]. intros _. now apply Rleb_true in Q.
    + apply Rleb_false in Q. assert (Nz : en r0 k k <> 0). { intros Z. rewrite Z, Rabs_R0 in Q. lra. }
      set (d := en r0 k k) in *.
      destruct (@set2_ok R NumR m n r k k (ndiv NumR (nofZ NumR 1) d) Sh) as (r1 & E1 & S1 & V1); [lia|lia|]. rewrite E1 in E. cbn [bind] in E.
      destruct (@inv_col k r1 S1 ltac:(lia)) as (r2 & E2 & S2 & O2 & V2).
      match type of E with bind ?X _ = _ => replace X with (@Ok (matrix R) r2) in E by (symmetry; exact E2) end. cbn [bind] in E.
      assert (D1 : en r1 k k = 1 / d) by (rewrite V1, Nat.eqb_refl; reflexivity).
      assert (Old : forall i b, (b < k)%nat -> en r2 i b = en r i b). { intros i b Hb. rewrite O2 by lia. rewrite V1. destruct (Nat.eqb_spec b k); [lia|]. rewrite andb_false_r. reflexivity. }
      assert (Colk : forall i, (i < k)%nat -> en r2 i k = - (1 / d) * rsum k (fun l => ut r i l * en r0 l k)).
      { intros i Hi. rewrite V2 by exact Hi. rewrite <- Ropp_mult_distr_l, <- rsum_scal. f_equal. apply rsum_ext. intros l0 Hl0. rewrite D1, !V1. destruct (Nat.eqb_spec l0 k), (Nat.eqb_spec i k); try lia. cbn [andb].
        unfold ut. destruct (Nat.leb_spec i l0); [|ring]. rewrite (U l0 k) by lia. ring. }
      assert (Dk : en r2 k k = 1 / d) by (rewrite O2 by lia; exact D1).
      assert (X : forall a l0, (l0 < k)%nat -> ut r2 a l0 = ut r a l0). { intros a l0 Hl0. unfold ut. destruct (a <=? l0)%nat; [now apply Old|reflexivity]. }
      assert (Xk : forall a, (a < k)%nat -> ut r2 a k = - (1 / d) * rsum k (fun l => ut r a l * en r0 l k)). { intros a Ha. unfold ut at 1. destruct (Nat.leb_spec a k); [|lia]. now apply Colk. }
      assert (Xkk : ut r2 k k = 1 / d) by (unfold ut; rewrite Nat.leb_refl; exact Dk).
      assert (Rk : forall l0, (l0 <= k)%nat -> ut r0 l0 k = en r0 l0 k) by (intros l0 Hl0; unfold ut; destruct (Nat.leb_spec l0 k); [reflexivity|lia]).
      assert (Low0 : forall b, (b < k)%nat -> ut r0 k b = 0) by (intros b Hb; unfold ut; destruct (Nat.leb_spec k b); [lia|reflexivity]).
      assert (Low2 : forall b, (b < k)%nat -> ut r2 k b = 0) by (intros b Hb; unfold ut; destruct (Nat.leb_spec k b); [lia|reflexivity]).
      destruct (IH (S k) r2 r' l S2) as (H1 & H2 & H3 & H4); [lia| | | |exact E|split; [lia|]; auto].
      * intros i b Hib Hb. rewrite O2 by lia. rewrite V1. destruct (Nat.eqb_spec b k); [lia|]. rewrite andb_false_r. apply U; lia.
      * split; intros a b Ha Hb; cbn [rsum].
        -- destruct (Nat.eq_dec b k) as [->|Nb]; [destruct (Nat.eq_dec a k) as [->|Na]|].
           ++ rewrite rsum_zero by (intros l0 Hl0; rewrite Low0 by exact Hl0; ring). rewrite Xkk, Rk by lia. fold d. unfold delta_. rewrite Nat.eqb_refl. field. exact Nz.
           ++ rewrite (@rsum_ext k _ (fun l0 => - (1 / d) * rsum k (fun j => ut r0 a l0 * ut r l0 j * en r0 j k))).
              2:{ intros l0 Hl0. rewrite Xk by exact Hl0. rewrite <- !rsum_scal. apply rsum_ext. intros; ring. }
              rewrite rsum_scal, rsum_swap. rewrite (@rsum_ext k _ (fun j => delta_ a j * en r0 j k)).
              2:{ intros j Hj. rewrite rsum_scal_r, Ia by lia. reflexivity. }
              rewrite (@rsum_single k a) by (first [lia | intros i Hi Ni; unfold delta_; destruct (Nat.eqb_spec a i); [lia|ring]]).
              rewrite Xkk, Rk by lia. unfold delta_. rewrite Nat.eqb_refl. destruct (Nat.eqb_spec a k); [lia|]. ring.
           ++ rewrite (@rsum_ext k _ (fun l0 => ut r0 a l0 * ut r l0 b)) by (intros l0 Hl0; rewrite X by lia; reflexivity). rewrite Low2 by lia. rewrite Rmult_0_r, Rplus_0_r.
              destruct (Nat.eq_dec a k) as [->|Na]; [|apply Ia; lia]. rewrite rsum_zero by (intros l0 Hl0; rewrite Low0 by lia; ring). unfold delta_. destruct (Nat.eqb_spec k b); [lia|reflexivity].
        -- destruct (Nat.eq_dec a k) as [->|Na].
           ++ rewrite rsum_zero by (intros l0 Hl0; rewrite Low2 by lia; ring). rewrite Xkk. unfold delta_. destruct (Nat.eqb_spec k b) as [<-|]; [rewrite Rk by lia; fold d; field; exact Nz|]. rewrite Low0 by lia. ring.
           ++ rewrite (@rsum_ext k _ (fun l0 => ut r a l0 * ut r0 l0 b)) by (intros l0 Hl0; rewrite X by lia; reflexivity). destruct (Nat.eq_dec b k) as [->|Nb].
              ** rewrite Xk, Rk by lia. rewrite (@rsum_ext k (fun l0 => ut r a l0 * ut r0 l0 k) (fun l0 => ut r a l0 * en r0 l0 k)) by (intros l0 Hl0; rewrite Rk by lia; reflexivity).
                 fold d. unfold delta_. destruct (Nat.eqb_spec a k); [lia|]. field. exact Nz.
              ** rewrite Low0 by lia. rewrite Rmult_0_r, Rplus_0_r. apply Ib; lia.
      * intros b Hb. destruct (Nat.eq_dec b k) as [->|]; [fold d; exact Q|apply Dg; lia].
Qed.

Lemma form_exact l1 r r' : shape m n r -> (l1 <= n)%nat -> form_inverse NumR l1 r = Ok r' ->
  forall a b, (a <= b < l1)%nat -> en r' a b = rsum l1 (fun l => ut r a l * ut r b l).
Proof.
  intros Sh Hl E. unfold form_inverse in E.
  assert (H := fun A B => @for_ok (matrix R) (fun k r1 => shape m n r1 /\ (forall i b, (k <= b)%nat -> en r1 i b = en r i b) /\
    forall i j, (i <= j < k)%nat -> en r1 i j = rsum k (fun l => ut r i l * ut r j l)) _ _ _ _ A B E). cbv beta in H.
  destruct H as (_ & _ & V).
  - split; [exact Sh|]. split; [reflexivity|]. intros; lia.
  - intros k r1 r3 Hk (S1 & O1 & V1) E1.
    match type of E1 with bind (for_ k ?body r1) _ = _ => destruct (@for_inv (matrix R) (fun e r2 => shape m n r2 /\ (forall i b, (k <= b)%nat -> en r2 i b = en r i b) /\
      forall i j, (i <= j < k)%nat -> en r2 i j = if (j <? e)%nat then en r1 i j + en r j k * en r i k else en r1 i j) body k r1) as (r2 & E2 & S2 & O2 & V2) end.
    + split; [exact S1|]. split; [exact O1|]. reflexivity.
    + intros j r2 Hj (S2 & O2 & V2). rewrite (@get2_ok R NumR m n r2 j k S2) by lia. cbn [bind]. rewrite (O2 j k) by lia.
      match goal with |- context [@for_ ?St (S j) ?body r2] => destruct (@for_inv St (fun e r4 => shape m n r4 /\ (forall i b, b <> j -> en r4 i b = en r2 i b) /\
        forall i, (i < k)%nat -> en r4 i j = if (i <? e)%nat then en r2 i j + en r j k * en r i k else en r2 i j) body (S j) r2) as (r4 & E4 & S4 & O4 & V4) end.
      * split; [exact S2|]. split; [reflexivity|]. reflexivity.
      * intros i r4 Hi (S4 & O4 & V4). rewrite (@get2_ok R NumR m n r4 i j S4), (@get2_ok R NumR m n r4 i k S4) by lia. cbn [bind]. rewrite (V4 i), Nat.ltb_irrefl, (O4 i k), (O2 i k) by lia.
        match goal with |- context [set2 r4 i j ?v] => destruct (@set2_ok R NumR m n r4 i j v S4) as (r5 & -> & S5 & V5); [lia|lia|] end.
        eexists. split; [reflexivity|]. split; [exact S5|]. split.
        -- intros i' b Hb. rewrite V5. destruct (Nat.eqb_spec b j); [lia|]. rewrite andb_false_r. now apply O4.
        -- intros i' Hi'. rewrite V5, Nat.eqb_refl, andb_true_r. destruct (Nat.eqb_spec i' i) as [->|Ne].
           ++ assert (i <? S i = true)%nat as -> by (apply Nat.ltb_lt; lia). reflexivity.
           ++ rewrite V4 by lia. destruct (Nat.ltb_spec i' i), (Nat.ltb_spec i' (S i)); try lia; reflexivity.
      * rewrite E4. eexists. split; [reflexivity|]. split; [exact S4|]. split.
        -- intros i b Hb. rewrite O4 by lia. now apply O2.
        -- intros i j' Hij. destruct (Nat.eq_dec j' j) as [->|Ne].
           ++ rewrite V4 by lia. assert (i <? S j = true)%nat as -> by (apply Nat.ltb_lt; lia). assert (j <? S j = true)%nat as -> by (apply Nat.ltb_lt; lia). rewrite V2, Nat.ltb_irrefl by lia. reflexivity.
           ++ rewrite O4, V2 by lia. destruct (Nat.ltb_spec j' j), (Nat.ltb_spec j' (S j)); try lia; reflexivity.
    + rewrite E2 in E1. cbn [bind] in E1. rewrite (@get2_ok R NumR m n r2 k k S2) in E1 by lia. cbn [bind] in E1. rewrite (O2 k k) in E1 by lia.
      assert (H := fun A B => @for_ok (matrix R) (fun e r4 => shape m n r4 /\ (forall i b, b <> k -> en r4 i b = en r2 i b) /\
        forall i, en r4 i k = if (i <? e)%nat then en r i k * en r k k else en r i k) _ _ _ _ A B E1). cbv beta in H. destruct H as (S3 & O3 & V3).
      * split; [exact S2|]. split; [reflexivity|]. intros i. apply O2. lia.
      * intros i r4 r5 Hi (S4 & O4 & V4) E5. rewrite (@get2_ok R NumR m n r4 i k S4) in E5 by lia. cbn [bind] in E5. rewrite (V4 i), Nat.ltb_irrefl in E5.
        match type of E5 with set2 r4 i k ?v = _ => destruct (@set2_ok R NumR m n r4 i k v S4) as (r6 & E6 & S6 & V6); [lia|lia|] end. rewrite E6 in E5. apply Ok_inj in E5. subst r6.
        split; [exact S6|]. split.
        -- intros i' b Hb. rewrite V6. destruct (Nat.eqb_spec b k); [lia|]. rewrite andb_false_r. now apply O4.
        -- intros i'. rewrite V6, Nat.eqb_refl, andb_true_r. destruct (Nat.eqb_spec i' i) as [->|Ne].
           ++ assert (i <? S i = true)%nat as -> by (apply Nat.ltb_lt; lia). reflexivity.
           ++ rewrite V4. destruct (Nat.ltb_spec i' i), (Nat.ltb_spec i' (S i)); try lia; reflexivity.
      * split; [exact S3|]. split.
        -- intros i b Hb. rewrite O3, O2 by lia. reflexivity.
        -- intros i j Hij. cbn [rsum]. destruct (Nat.eq_dec j k) as [->|Nj].
           ++ rewrite V3. assert (i <? S k = true)%nat as -> by (apply Nat.ltb_lt; lia). rewrite rsum_zero.
              ** unfold ut. rewrite Nat.leb_refl. destruct (Nat.leb_spec i k); [ring|lia].
              ** intros l Hl0. unfold ut at 2. destruct (Nat.leb_spec k l); [lia|]. ring.
           ++ rewrite O3, V2 by lia. assert (j <? k = true)%nat as -> by (apply Nat.ltb_lt; lia). rewrite V1 by lia. f_equal. unfold ut.
              destruct (Nat.leb_spec i k), (Nat.leb_spec j k); try lia. ring.
  - exact V.
Qed.

(** the covariance matrix: the inverse of the leading block of R^T R, zero elsewhere *)
Lemma covar_exact r ip tol c : (0 < n)%nat -> shape m n r -> perm n ip -> 0 <= tol -> covar NumR n r ip tol = Ok c ->
  exists l1 C, (l1 <= n)%nat /\ shape m n c /\
    (forall b, (b < l1)%nat -> tol * Rabs (en r 0 0) < Rabs (en r b b)) /\ ((l1 < n)%nat -> Rabs (en r l1 l1) <= tol * Rabs (en r 0 0)) /\
    (forall a b, (a < n)%nat -> (b < n)%nat -> en c (nth a ip 0%nat) (nth b ip 0%nat) = if (Nat.max a b <? l1)%nat then C a b else 0) /\
    (forall a, (a < l1)%nat -> 0 < C a a) /\ (forall a b, C a b = C b a) /\
    (forall a d, (a < l1)%nat -> (d < l1)%nat -> rsum l1 (fun b => rsum n (fun k => ut r k a * ut r k b) * C b d) = delta_ a d).
Proof.
  intros Hn Sh P Tp E. destruct (@covar_total R NumR m n NM r ip tol Hn Sh P) as (r1 & l1 & r2 & c' & E1 & Hl & S1 & E2 & S2 & E3 & S3 & V).
  rewrite E in E3. apply Ok_inj in E3. subst c'. cbn [nmul nabs NumR] in E1.
  assert (T0 : 0 <= tol * Rabs (en r 0 0)) by (apply Rmult_le_pos; [exact Tp|apply Rabs_pos]).
  destruct (@invert_exact r (tol * Rabs (en r 0 0)) T0 n 0%nat r r1 l1 Sh eq_refl) as (_ & (Ia & Ib) & Dg & St); [reflexivity|split; intros; lia|intros; lia|exact E1|].
  pose proof (@form_exact l1 r1 r2 S1 Hl E2) as F.
  exists l1, (fun a b => rsum l1 (fun l => ut r1 a l * ut r1 b l)).
  split; [exact Hl|]. split; [exact S3|]. split; [exact Dg|]. split; [exact St|]. split; [|split; [|split]].
  - intros a b Ha Hb. rewrite V by assumption. unfold cv. destruct (Nat.ltb_spec (Nat.max a b) l1); [|reflexivity]. fold (en r2 (Nat.min a b) (Nat.max a b)). rewrite F by lia.
    destruct (Nat.le_gt_cases a b); [rewrite Nat.min_l, Nat.max_r by lia; reflexivity|]. rewrite Nat.min_r, Nat.max_l by lia. apply rsum_ext. intros; ring.
  - intros a Ha. assert (Nz : ut r1 a a <> 0).
    { intros Z. pose proof (Ia a a Ha Ha) as Q. rewrite (@rsum_single l1 a) in Q.
      - rewrite Z in Q. unfold delta_ in Q. rewrite Nat.eqb_refl in Q. lra.
      - exact Ha.
      - intros i Hi Ni. unfold ut. destruct (Nat.leb_spec a i), (Nat.leb_spec i a); try lia; ring. }
    assert (ut r1 a a * ut r1 a a <= rsum l1 (fun l => ut r1 a l * ut r1 a l)) as Q.
    { pose proof (@rsum_le l1 (fun l => if (l =? a)%nat then ut r1 a a * ut r1 a a else 0) (fun l => ut r1 a l * ut r1 a l)) as Q.
      rewrite (@rsum_single l1 a) in Q; [|exact Ha|intros i Hi Ni; destruct (Nat.eqb_spec i a); [contradiction|reflexivity]]. rewrite Nat.eqb_refl in Q. apply Q.
      intros i Hi. destruct (Nat.eqb_spec i a) as [->|]; [lra|apply Rle_0_sqr]. }
    pose proof (Rsqr_pos_lt _ Nz) as Q2. unfold Rsqr in Q2. lra.
  - intros a b. apply rsum_ext. intros; ring.
  - intros a d Ha Hd.
    assert (Cut : forall b, (b < l1)%nat -> rsum n (fun k => ut r k a * ut r k b) = rsum l1 (fun k => ut r k a * ut r k b)).
    { intros b Hb. replace n with (l1 + (n - l1))%nat by lia. rewrite rsum_app. rewrite (@rsum_zero (n - l1)); [ring|]. intros i Hi. unfold ut at 1. destruct (Nat.leb_spec (l1 + i) a); [lia|ring]. }
    rewrite (@rsum_ext l1 _ (fun b => rsum l1 (fun k => rsum l1 (fun l => ut r k a * (ut r k b * ut r1 b l) * ut r1 d l)))).
    2:{ intros b Hb. rewrite Cut by exact Hb. rewrite <- rsum_scal_r. apply rsum_ext. intros k Hk. rewrite <- rsum_scal. apply rsum_ext. intros; ring. }
    rewrite rsum_swap. rewrite (@rsum_ext l1 _ (fun k => ut r k a * ut r1 d k)).
    + rewrite <- (Ib d a Hd Ha) at 1 || idtac. transitivity (delta_ d a); [|unfold delta_; rewrite Nat.eqb_sym; reflexivity]. rewrite <- (Ib d a Hd Ha). apply rsum_ext. intros; ring.
    + intros k Hk. rewrite rsum_swap. rewrite (@rsum_ext l1 _ (fun l => ut r k a * (delta_ k l * ut r1 d l))).
      * rewrite rsum_scal. f_equal. rewrite (@rsum_single l1 k); [unfold delta_; rewrite Nat.eqb_refl; ring|exact Hk|]. intros i Hi Ni. unfold delta_. destruct (Nat.eqb_spec k i); [lia|ring].
      * intros l Hl0. rewrite <- (Ia k l Hk Hl0). rewrite <- rsum_scal_r, <- rsum_scal. apply rsum_ext. intros; ring.
Qed.
End E.
