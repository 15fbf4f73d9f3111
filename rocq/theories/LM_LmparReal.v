(** mp_lmpar() in exact arithmetic: its result solves the normal equations damped by
    the parameter it returns. *)
From Coq Require Import ZArith List Bool Lia Reals Lra Permutation.
From Verif Require Import Base Num Sums Stats_Model Stats_Spec Stats_Proof DE_Model LM_Model LM_Spec DE_Proof LM_QR LM_Solve LM_SolveReal LM_Lmpar.
Import ListNotations.
Set Implicit Arguments. Unset Strict Implicit.
Local Open Scope R_scope.

Section E.
Variable m n : nat.
Hypothesis NM : (n <= m)%nat.

Lemma newton_exact r wa ns w : shape m n r -> length wa = n -> (ns <= n)%nat -> (forall j, (j < ns)%nat -> en r j j <> 0) ->
  newton_dir NumR ns r wa = Ok w ->
  (forall i, (ns <= i)%nat -> vn w i = vn wa i) /\
  (forall i, (i < ns)%nat -> rsum ns (fun b => ut r i b * vn w b) = vn wa i).
Proof.
  intros Sh L Hns D E. unfold newton_dir in E.
  assert (Q := fun A B => @for_ok (list R) (fun k w => length w = n /\ (forall i, (ns <= i)%nat -> vn w i = vn wa i) /\
    (forall i, (i < ns - k)%nat -> vn w i = vn wa i - rsum ns (fun b => if (ns - k <=? b)%nat then en r i b * vn w b else 0)) /\
    (forall i, (ns - k <= i < ns)%nat -> rsum ns (fun b => ut r i b * vn w b) = vn wa i)) _ _ _ _ A B E). cbv beta in Q.
  destruct Q as (_ & Q1 & _ & Q2).
  - split; [exact L|]. split; [reflexivity|]. rewrite Nat.sub_0_r. split; [|intros; lia]. intros i Hi. rewrite rsum_zero; [ring|]. intros b Hb. destruct (Nat.leb_spec ns b); [lia|reflexivity].
  - intros k w0 w' Hk (L0 & A1 & A2 & A3) E1. cbv zeta in E1. set (j := (ns - k - 1)%nat) in *.
    rewrite (@get_vn R NumR w0 j) in E1 by lia. cbn [bind] in E1. rewrite (@get2_ok R NumR m n r j j Sh) in E1 by lia. cbn [bind] in E1.
    destruct (@set_vn R NumR w0 j (ndiv NumR (vn w0 j) (en r j j))) as (w1 & Es & L1 & P1); [lia|]. rewrite Es in E1. cbn [bind] in E1.
    rewrite (@get_vn R NumR w1 j) in E1 by lia. cbn [bind] in E1.
    destruct (@subtract_ok R NumR m n NM r j (vn w1 j) w1 Sh) as (w2 & E2 & L2 & P2); [lia|lia|]. rewrite E2 in E1. apply Ok_inj in E1. subst w2.
    assert (Wj : vn w' j = vn w0 j / en r j j) by (rewrite P2, Nat.ltb_irrefl, P1, Nat.eqb_refl; reflexivity).
    assert (Wh : forall b, (j < b)%nat -> vn w' b = vn w0 b).
    { intros b Hb. rewrite P2. destruct (Nat.ltb_spec b j); [lia|]. rewrite P1. destruct (Nat.eqb_spec b j); [lia|reflexivity]. }
    assert (Wl : forall i, (i < j)%nat -> vn w' i = vn w0 i - en r i j * vn w' j).
    { intros i Hi. rewrite (P2 i). destruct (Nat.ltb_spec i j); [|lia]. rewrite (P1 i). destruct (Nat.eqb_spec i j); [lia|]. cbn [nsub nmul NumR].
      rewrite (P2 j), Nat.ltb_irrefl. reflexivity. }
    assert (Dj : en r j j <> 0) by (apply D; lia).
    replace (ns - S k)%nat with j by lia.
    assert (Su : forall i, rsum ns (fun b => if (j <=? b)%nat then en r i b * vn w' b else 0) = rsum ns (fun b => if (ns - k <=? b)%nat then en r i b * vn w0 b else 0) + en r i j * vn w' j).
    { intros i. rewrite (@rsum_update ns j (fun b => if (ns - k <=? b)%nat then en r i b * vn w0 b else 0) (fun b => if (j <=? b)%nat then en r i b * vn w' b else 0)); [|lia|].
      - rewrite Nat.leb_refl. destruct (Nat.leb_spec (ns - k) j); [lia|]. ring.
      - intros b Hb Nb. destruct (Nat.leb_spec j b), (Nat.leb_spec (ns - k) b); try lia; [|reflexivity]. rewrite Wh by lia. reflexivity. }
    split; [lia|]. split; [intros i Hi; rewrite Wh by lia; now apply A1|]. split.
    + intros i Hi. rewrite Wl by exact Hi. rewrite Su, A2 by lia. ring.
    + intros i Hi. destruct (Nat.eq_dec i j) as [->|Nij].
      * rewrite (@rsum_ext ns _ (fun b => if (j <=? b)%nat then en r j b * vn w' b else 0)).
        -- rewrite Su. specialize (A2 j ltac:(lia)). rewrite Wj. replace (en r j j * (vn w0 j / en r j j)) with (vn w0 j) by (field; exact Dj). lra.
        -- intros b Hb. unfold ut. destruct (j <=? b)%nat; ring.
      * rewrite (@rsum_ext ns _ (fun b => ut r i b * vn w0 b)); [apply A3; lia|]. intros b Hb. unfold ut. destruct (Nat.leb_spec i b); [|ring]. rewrite Wh by lia. reflexivity.
  - rewrite Nat.sub_diag in Q2. split; [exact Q1|]. intros i Hi. apply Q2. lia.
Qed.

(** a zero on the diagonal of R means that nothing is left below it *)
Definition pivoted (r : matrix R) : Prop := forall j i b, (j < n)%nat -> en r j j = 0 -> (j <= i <= b)%nat -> (b < n)%nat -> en r i b = 0.

Lemma newton_normal r d ns wa w ip x qtb : shape m n r -> pivoted r -> length d = n -> (forall j, (j < n)%nat -> vn d j = en r j j) -> length wa = n -> length w = n -> (ns <= n)%nat ->
  (forall j, (j < ns)%nat -> Reqb (vn d j) 0 = false) -> ((ns < n)%nat -> Reqb (vn d ns) 0 = true) ->
  (forall i, (i < n)%nat -> vn wa i = if (i <? ns)%nat then vn qtb i else 0) ->
  newton_dir NumR ns r wa = Ok w -> (forall j, (j < n)%nat -> vn x (nth j ip 0%nat) = vn w j) ->
  forall a, (a < n)%nat -> rsum n (fun b => rsum n (fun k => ut r k a * ut r k b) * vn x (nth b ip 0%nat)) = rsum n (fun k => ut r k a * vn qtb k).
Proof.
  intros Sh Pv Ld Hd L Lw Hns N1 N2 W E X a Ha.
  destruct (@newton_exact r wa ns w Sh L Hns) as (Z1 & Z2); [|exact E|].
  { intros j Hj Q. specialize (N1 j Hj). rewrite Hd, Q in N1 by lia. apply Reqb_false in N1. now apply N1. }
  assert (Low : forall k b, (ns <= k < n)%nat -> (b < n)%nat -> ut r k b = 0).
  { intros k b Hk Hb. unfold ut. destruct (Nat.leb_spec k b); [|reflexivity]. specialize (N2 ltac:(lia)). apply Reqb_true in N2. rewrite Hd in N2 by lia.
    apply (Pv ns k b); try lia. exact N2. }
  assert (Row : forall k, (k < n)%nat -> rsum n (fun b => ut r k b * vn w b) = if (k <? ns)%nat then vn qtb k else 0).
  { intros k Hk. destruct (Nat.ltb_spec k ns).
    - replace n with (ns + (n - ns))%nat by lia. rewrite rsum_app, Z2 by lia. rewrite rsum_zero.
      + rewrite W by lia. destruct (Nat.ltb_spec k ns); [ring|lia].
      + intros b Hb. rewrite Z1, W by lia. destruct (Nat.ltb_spec (ns + b) ns); [lia|]. ring.
    - apply rsum_zero. intros b Hb. rewrite Low by lia. ring. }
  rewrite (@rsum_ext n _ (fun b => rsum n (fun k => ut r k a * (ut r k b * vn w b)))).
  2:{ intros b Hb. rewrite X by exact Hb. rewrite <- rsum_scal_r. apply rsum_ext. intros; ring. }
  rewrite rsum_swap. apply rsum_ext. intros k Hk. rewrite rsum_scal, Row by exact Hk. destruct (Nat.ltb_spec k ns); [reflexivity|]. rewrite Low by lia. ring.
Qed.

Variable enorm : list R -> R.
Hypothesis Epos : forall v, 0 <= enorm v.

Lemma div2_nonneg u t : 0 <= u -> 0 <= u / t / t.
Proof. intros H. unfold Rdiv. rewrite Rmult_assoc. apply Rmult_le_pos; [exact H|]. apply Rle_0_sqr. Qed.

Lemma lmpar_exact r ip ifree diag qtb delta par r' par' x : shape m n r -> perm n ip -> places n ifree diag -> (n <= length qtb)%nat ->
  (forall j, (j < n)%nat -> 0 < dg NumR ifree diag j) -> 0 < delta -> 0 <= par ->
  lmpar NumR enorm n r ip ifree diag qtb delta par = Ok (r', par', x) ->
  shape m n r' /\ length x = n /\ 0 <= par' /\ (forall a b, (a <= b < n)%nat -> en r' a b = en r a b) /\
  (pivoted r -> forall a, (a < n)%nat ->
    rsum n (fun b => rsum n (fun k => ut r k a * ut r k b) * vn x (nth b ip 0%nat)) +
      par' * (dg NumR ifree diag (nth a ip 0%nat) * dg NumR ifree diag (nth a ip 0%nat)) * vn x (nth a ip 0%nat) =
    rsum n (fun k => ut r k a * vn qtb k)).
Proof.
  intros Sh P Pl Lq Dp Hd Hp E.
  assert (Dw : 0 < DWARF NumR).
  { unfold DWARF. cbn [ndec NumR]. apply Rdiv_lt_0_compat; [lra|]. apply IZR_lt. reflexivity. }
  assert (P1 : 0 < p1 NumR) by (unfold p1; cbn [ndec NumR]; apply Rdiv_lt_0_compat; [lra|apply IZR_lt; reflexivity]).
  assert (Dmax : forall a b, dmax1 NumR a b = Rmax a b).
  { intros a b. unfold dmax1. cbn [nleb NumR]. destruct (Rleb b a) eqn:Q; [apply Rleb_true in Q; rewrite Rmax_left; auto|apply Rleb_false in Q; rewrite Rmax_right; lra]. }
  assert (Dmin : forall a b, dmin1 NumR a b = Rmin a b).
  { intros a b. unfold dmin1. cbn [nleb NumR]. destruct (Rleb a b) eqn:Q; [apply Rleb_true in Q; rewrite Rmin_left; auto|apply Rleb_false in Q; rewrite Rmin_right; lra]. }
  destruct (@lmpar_ok R NumR enorm m n NM (fun p => 0 <= p) (fun p => 0 < p) (fun p => 0 <= p) (fun p => 0 <= p) r ip ifree diag qtb delta par Sh P Pl Lq) as (r1 & p1' & x1 & E1 & S1 & L1 & C).
  - intros p u A B. rewrite Dmax. cbn [neqb nofZ NumR]. destruct (Reqb p 0) eqn:Q; [pose proof (Rmax_l (DWARF NumR) (nmul NumR (p001 NumR) u)); lra|]. apply Reqb_false in Q. lra.
  - intros l p A B. rewrite Dmax. pose proof (Rmax_l l p). lra.
  - intros u p A B. rewrite Dmin. apply Rmin_glb; lra.
  - intros l p c A B. rewrite Dmax. pose proof (Rmax_l l (nadd NumR p c)). lra.
  - cbn [nofZ NumR]. lra.
  - intros fp t Q. cbn [nleb nmul ndiv NumR] in *. apply Rleb_false in Q. apply div2_nonneg.
    assert (0 < p1 NumR * delta) by (apply Rmult_lt_0_compat; assumption). apply Rlt_le. apply Rdiv_lt_0_compat; lra.
  - intros w. cbn [neqb nofZ ndiv NumR]. destruct (Reqb (enorm w / delta) 0).
    + rewrite Dmin. apply Rlt_le. apply Rdiv_lt_0_compat; [exact Dw|]. apply Rmin_glb_lt; assumption.
    + apply Rmult_le_pos; [apply Epos|]. apply Rlt_le. now apply Rinv_0_lt_compat.
  - intros l u w d A B. cbn [neqb nofZ ndiv NumR]. destruct (Reqb _ 0) eqn:Q.
    + destruct (Req_EM_T (enorm d) 0) as [Z|Z].
      * rewrite Z. unfold Rdiv. rewrite Rinv_0. lra.
      * apply Rmult_le_pos; [apply Epos|]. apply Rlt_le. apply Rinv_0_lt_compat. pose proof (Epos d). lra.
    + rewrite Dmin, Dmax. apply Rmin_glb; [|exact B]. pose proof (Rmax_l par l). lra.
  - rewrite E1 in E. apply Ok_inj in E. injection E as -> -> ->. split; [exact S1|]. split; [exact L1|].
    destruct C as [(-> & -> & d & ns & wa1 & w & Ld & Hdj & Lw1 & Lw & Hns & A1 & A2 & W1 & En & X)|(Pp & r0 & sd & S0 & Eq & Inv)].
    + cbn [nofZ NumR]. split; [lra|]. split; [reflexivity|]. intros Pv a Ha.
      rewrite (@newton_normal r d ns wa1 w ip x qtb Sh Pv Ld Hdj Lw1 Lw Hns A1 A2 W1 En X a Ha). ring.
    + split; [lra|].
      set (dd := fun p => map (fun j => nmul NumR (nsqrt NumR p) (dg NumR ifree diag j)) (seq 0 n)) in *.
      assert (Hdd : forall p j, (j < n)%nat -> vn (dd p) j = sqrt p * dg NumR ifree diag j) by (intros p j Hj; exact (vn_map NumR _ Hj)).
      assert (Ldd : forall p, length (dd p) = n) by (intros p; unfold dd; rewrite map_length, seq_length; reflexivity).
      assert (Ndd : forall p, 0 < p -> forall l, (l < n)%nat -> vn (dd p) l <> 0).
      { intros p Hpp l Hl. rewrite Hdd by exact Hl. pose proof (sqrt_lt_R0 p Hpp). pose proof (Dp l Hl). nra. }
      assert (U0 : forall a b, (a <= b < n)%nat -> en r0 a b = en r a b).
      { apply (Inv (fun r0 => forall a b, (a <= b < n)%nat -> en r0 a b = en r a b)); [reflexivity|]. intros r2 p2 r3 x3 sd3 S2 Hp2 H2 E2 a b Hab.
        destruct (@qrsolv_exact m n NM r2 ip (dd p2) qtb r3 x3 sd3 S2 P (Ldd p2) Lq (Ndd p2 Hp2) E2) as (_ & _ & _ & U & _). rewrite U by exact Hab. now apply H2. }
      destruct (@qrsolv_exact m n NM r0 ip (dd par') qtb r' x sd S0 P (Ldd par') Lq (Ndd par' Pp) Eq) as (_ & _ & _ & U & _ & Eqn).
      split; [intros a b Hab; rewrite U by exact Hab; now apply U0|]. intros _ a Ha. specialize (Eqn a Ha).
      assert (Ut : forall k b, (k < n)%nat -> (b < n)%nat -> ut r0 k b = ut r k b).
      { intros k b Hk Hb. unfold ut. destruct (Nat.leb_spec k b); [|reflexivity]. apply U0. lia. }
      pose proof (perm_get P Ha) as (_ & Hpa). rewrite Hdd in Eqn by exact Hpa.
      rewrite (@rsum_ext n (fun k => ut r k a * vn qtb k) (fun k => ut r0 k a * vn qtb k)) by (intros k Hk; now rewrite Ut). rewrite <- Eqn.
      f_equal.
      * apply rsum_ext. intros b Hb. f_equal. apply rsum_ext. intros k Hk. now rewrite !Ut.
      * pose proof (sqrt_sqrt par' (Rlt_le _ _ Pp)) as Sq. rewrite <- Sq at 1. ring.
Qed.
End E.
