(** Exact arithmetic: from the factored Jacobian to the step of the Levenberg-Marquardt method. *)
From Coq Require Import ZArith List Bool Lia Reals Lra Permutation.
From Verif Require Import Base Num Sums Stats_Model Stats_Spec Stats_Proof DE_Model LM_Model LM_Spec LM_StepSpec DE_Proof LM_Proof LM_QR LM_QRReal LM_RealProof LM_Solve LM_SolveReal LM_Lmpar LM_LmparReal LM_Total LM_Safe.
Import ListNotations.
Set Implicit Arguments. Unset Strict Implicit.
Local Open Scope R_scope.

(** ---- free parameters ---- *)
Lemma free_indices_list (pars : option (list (limits R))) n ifree : free_indices pars n = Ok ifree -> ifree = free_parameters pars n.
Proof.
  intros E. unfold free_parameters. revert E. unfold free_indices.
  apply (@for_ok (list nat) (fun k fr => fr = filter (fun j => match pars with None => true | Some ps => match nth_error ps j with Some p => negb (fixed p) | None => false end end) (seq 0 k))).
  - reflexivity.
  - intros i a b Hi -> E. rewrite seq_S, filter_app. cbn [filter plus]. destruct pars as [ps|].
    + apply bind_Ok in E. destruct E as (p & Ep & E). apply get_some in Ep. rewrite Ep. apply Ok_inj in E. subst b. destruct (fixed p); cbn [negb]; [now rewrite app_nil_r|reflexivity].
    + apply Ok_inj in E. subst b. reflexivity.
Qed.

(** ---- sums over a permutation ---- *)
Lemma rsuml_perm l l' : Permutation l l' -> rsuml l = rsuml l'.
Proof. induction 1; cbn [rsuml fold_right] in *; unfold rsuml in *; cbn [fold_right]; lra. Qed.
Lemma rsum_perm n ip (F : nat -> R) : perm n ip -> rsum n (fun b => F (nth b ip 0%nat)) = rsum n F.
Proof.
  intros P. rewrite <- (rsuml_map_seq n F). rewrite <- (rsuml_map_seq n (fun b => F (nth b ip 0%nat))).
  assert (E : map (fun b => F (nth b ip 0%nat)) (seq 0 n) = map F ip).
  { rewrite <- (map_map (fun b => nth b ip 0%nat) F). f_equal. pose proof (perm_length P) as L. rewrite <- L. clear.
    induction ip as [|x ip IH]; [reflexivity|]. cbn [length seq map nth]. f_equal. rewrite <- seq_shift, map_map. exact IH. }
  rewrite E. apply rsuml_perm. apply Permutation_map. apply Permutation_sym. exact P.
Qed.

(** ---- normal equations and the minimum ---- *)
Lemma normal_minimises m n f J lam D y : 0 <= lam ->
  (forall j, (j < n)%nat -> rsum m (fun i => (nth i f 0 + rsum n (fun l => J i l * y l)) * J i j) + lam * (D j * D j) * y j = 0) ->
  minimises (predicted m n f J lam D) y.
Proof.
  intros L H z. unfold predicted.
  set (e := fun j => z j - y j).
  assert (A : rsum m (fun i => (nth i f 0 + rsum n (fun j => J i j * z j)) ^ 2) =
    rsum m (fun i => (nth i f 0 + rsum n (fun j => J i j * y j)) ^ 2) +
    (2 * rsum m (fun i => (nth i f 0 + rsum n (fun j => J i j * y j)) * rsum n (fun j => J i j * e j)) + rsum m (fun i => (rsum n (fun j => J i j * e j)) ^ 2))).
  { rewrite <- rsum_scal, <- !rsum_plus. apply rsum_ext. intros i Hi.
    assert (E : rsum n (fun j => J i j * z j) = rsum n (fun j => J i j * y j) + rsum n (fun j => J i j * e j)).
    { rewrite <- rsum_plus. apply rsum_ext. intros j Hj. unfold e. ring. }
    rewrite E. ring. }
  assert (B : rsum n (fun j => (D j * z j) ^ 2) = rsum n (fun j => (D j * y j) ^ 2) + (2 * rsum n (fun j => D j * D j * y j * e j) + rsum n (fun j => (D j * e j) ^ 2))).
  { rewrite <- rsum_scal, <- !rsum_plus. apply rsum_ext. intros j Hj. unfold e. ring. }
  assert (C : rsum m (fun i => (nth i f 0 + rsum n (fun j => J i j * y j)) * rsum n (fun j => J i j * e j)) + lam * rsum n (fun j => D j * D j * y j * e j) = 0).
  { assert (E : rsum m (fun i => (nth i f 0 + rsum n (fun j => J i j * y j)) * rsum n (fun j => J i j * e j)) =
      rsum n (fun j => rsum m (fun i => (nth i f 0 + rsum n (fun l => J i l * y l)) * J i j) * e j)).
    { rewrite <- (@rsum_ext m (fun i => rsum n (fun j => (nth i f 0 + rsum n (fun l => J i l * y l)) * J i j * e j))).
      - rewrite rsum_swap. apply rsum_ext. intros j Hj. apply rsum_scal_r.
      - intros i Hi. rewrite <- rsum_scal. apply rsum_ext. intros j Hj. ring. }
    rewrite E, <- rsum_scal, <- rsum_plus. apply rsum_zero. intros j Hj. specialize (H j Hj).
    replace (rsum m (fun i => (nth i f 0 + rsum n (fun l => J i l * y l)) * J i j) * e j + lam * (D j * D j * y j * e j))
      with ((rsum m (fun i => (nth i f 0 + rsum n (fun l => J i l * y l)) * J i j) + lam * (D j * D j) * y j) * e j) by ring.
    rewrite H. ring. }
  rewrite A, B.
  assert (P1 : 0 <= rsum m (fun i => (rsum n (fun j => J i j * e j)) ^ 2)) by (apply rsum_nonneg; intros; apply pow2_ge_0).
  assert (P2 : 0 <= rsum n (fun j => (D j * e j) ^ 2)) by (apply rsum_nonneg; intros; apply pow2_ge_0).
  nra.
Qed.

(** ---- the factored Jacobian ---- *)
Section L.
Variable m n : nat.
Hypothesis NM : (n <= m)%nat.
Hypothesis Hm : (0 < m)%nat.

Definition lin (A : list (list R)) (f : list R) (r : matrix R) (ip : list nat) (qtf : list R) : Prop :=
  shape m n r /\ perm n ip /\ length qtf = n /\ pivoted n r /\
  (forall a b, (a < n)%nat -> (b < n)%nat -> rsum n (fun k => ut r k a * ut r k b) = inner m (nth (nth a ip 0%nat) A []) (nth (nth b ip 0%nat) A [])) /\
  (forall a, (a < n)%nat -> rsum n (fun k => ut r k a * vn qtf k) = inner m (nth (nth a ip 0%nat) A []) f) /\
  (forall p b, (p < n)%nat -> (p <= b < n)%nat -> rsum n (fun i => if (i <? p)%nat then 0 else ut r i b * ut r i b) <= en r p p * en r p p).

Lemma lin_upper A f r r' ip qtf : lin A f r ip qtf -> shape m n r' -> (forall a b, (a <= b < n)%nat -> en r' a b = en r a b) -> lin A f r' ip qtf.
Proof.
  intros (Sh & P & Lq & Pv & G & Q & Z) Sh' U.
  assert (V : forall k a, (k < n)%nat -> (a < n)%nat -> ut r' k a = ut r k a).
  { intros k a Hk Ha. unfold ut. destruct (Nat.leb_spec k a); [apply U; lia|reflexivity]. }
  split; [exact Sh'|]. split; [exact P|]. split; [exact Lq|]. split.
  { intros j i b Hj E Hi Hb. rewrite U by lia. rewrite U in E by lia. apply (Pv j); assumption. }
  split. { intros a b Ha Hb. rewrite <- G by assumption. apply rsum_ext. intros k Hk. now rewrite !V. }
  split. { intros a Ha. rewrite <- Q by assumption. apply rsum_ext. intros k Hk. now rewrite !V. }
  intros p b Hp Hb. rewrite U by lia. eapply Rle_trans; [|apply (Z p b Hp Hb)]. right. apply rsum_ext. intros i Hi. destruct (Nat.ltb_spec i p); [reflexivity|]. rewrite V by lia. reflexivity.
Qed.

Lemma lin_of_qr A f q ip rd ac r qtf : shape m n A -> length f = m -> (forall k, (k < n)%nat -> inner m (nth k A []) (nth k A []) < giant m * giant m) ->
  qrfac NumR (mp_enorm NumR) m n A = Ok (q, ip, rd, ac) -> apply_qt NumR m n q rd f = Ok (r, qtf) -> lin A f r ip qtf.
Proof.
  intros Sh Lf B E1 E2. pose proof (giant_pos Hm) as GP. pose proof (fun s H1 H2 => @enorm_small m s H1 H2) as Hen.
  destruct (qrfac_exact GP Hen Sh B E1) as (Shq & P & Lrd & _).
  destruct (qt_gradient GP Hen Sh B NM Lf E1) as (r1 & qtf1 & E3 & Shr & Lq & U & Gr). rewrite E2 in E3. apply Ok_inj in E3. injection E3 as <- <-.
  pose proof (qr_gram GP Hen Sh B E1) as G. pose proof (qrfac_pivoted GP Hen Sh B NM E1) as PV.
  assert (V : forall i k, (k < n)%nat -> ut r i k = upper q rd i k).
  { intros i k Hk. unfold ut. destruct (Nat.leb_spec i k) as [H|H].
    - unfold LM_Solve.en. change (nofZ NumR 0) with 0. apply U; assumption.
    - unfold upper. destruct (Nat.ltb_spec i k); [lia|]. destruct (Nat.eqb_spec i k); [lia|reflexivity]. }
  assert (Cut : forall F, (forall i, (n <= i)%nat -> F i = 0) -> rsum m F = rsum n F).
  { intros F H. replace m with (n + (m - n))%nat by lia. rewrite rsum_app. rewrite (@rsum_zero (m - n)%nat _) by (intros; apply H; lia). ring. }
  assert (Low0 : forall i k, (k < n)%nat -> (n <= i)%nat -> upper q rd i k = 0).
  { intros i k Hk Hi. unfold upper. destruct (Nat.ltb_spec i k); [lia|]. destruct (Nat.eqb_spec i k); [lia|reflexivity]. }
  assert (Dg : forall p, (p < n)%nat -> en r p p = nth p rd 0).
  { intros p Hp. pose proof (V p p Hp) as X. unfold ut in X. rewrite Nat.leb_refl in X. rewrite X. unfold upper. rewrite Nat.ltb_irrefl, Nat.eqb_refl. reflexivity. }
  assert (PV' : forall p b, (p < n)%nat -> (p <= b < n)%nat -> rsum n (fun i => if (i <? p)%nat then 0 else ut r i b * ut r i b) <= en r p p * en r p p).
  { intros p b Hp Hb. rewrite Dg by exact Hp. eapply Rle_trans; [|apply (PV p b Hp Hb)]. right. unfold low. rewrite Cut.
    - apply rsum_ext. intros i Hi. destruct (i <? p)%nat; [reflexivity|]. rewrite V by lia. reflexivity.
    - intros i Hi. destruct (i <? p)%nat; [reflexivity|]. rewrite Low0 by lia. ring. }
  split; [exact Shr|]. split; [exact P|]. split; [exact Lq|]. split.
  { intros j i b Hj E Hi Hb. pose proof (PV' j b Hj ltac:(lia)) as Q. rewrite E in Q. replace (0 * 0) with 0 in Q by ring.
    assert (Z : rsum n (fun i => if (i <? j)%nat then 0 else ut r i b * ut r i b) = 0).
    { apply Rle_antisym; [exact Q|]. apply rsum_nonneg. intros i0 _. destruct (i0 <? j)%nat; [lra|nra]. }
    assert (Z2 := @rsum_zero_terms n (fun i => if (i <? j)%nat then 0 else ut r i b * ut r i b)). cbv beta in Z2.
    specialize (Z2 ltac:(intros i0 _; destruct (i0 <? j)%nat; [lra|nra]) Z i ltac:(lia)). destruct (Nat.ltb_spec i j); [lia|].
    unfold ut in Z2. destruct (Nat.leb_spec i b); [|lia]. nra. }
  split. { intros a b Ha Hb. rewrite <- (G a b Ha Hb). rewrite Cut. - apply rsum_ext. intros i Hi. rewrite !V by assumption. reflexivity. - intros i Hi. rewrite Low0 by lia. ring. }
  split; [|exact PV'].
  intros a Ha. rewrite <- (Gr a Ha). replace n with (S a + (n - S a))%nat at 1 by lia. rewrite rsum_app.
  rewrite (@rsum_zero (n - S a)%nat _). 2:{ intros i Hi. unfold ut. destruct (Nat.leb_spec (S a + i) a); [lia|ring]. }
  rewrite Rplus_0_r. apply rsum_ext. intros i Hi. unfold ut. destruct (Nat.leb_spec i a); [|lia]. reflexivity.
Qed.

Definition mat (A : list (list R)) (i j : nat) : R := nth i (nth j A []) 0.
Lemma inner_mat A i j : inner m (nth i A []) (nth j A []) = rsum m (fun k => mat A k i * mat A k j).
Proof. reflexivity. Qed.

Lemma lin_step A f r ip qtf ifree diag delta par r' par' x : lin A f r ip qtf -> places n ifree diag ->
  (forall j, (j < n)%nat -> 0 < dg NumR ifree diag j) -> 0 < delta -> 0 <= par ->
  lmpar NumR (mp_enorm NumR) n r ip ifree diag qtf delta par = Ok (r', par', x) ->
  lin A f r' ip qtf /\ 0 <= par' /\ minimises (predicted m n f (mat A) par' (dg NumR ifree diag)) (fun j => - vn x j).
Proof.
  intros HL Pl Dp Hd Hp E. pose proof HL as (Sh & P & Lq & Pv & G & Q & Z).
  destruct (@lmpar_exact m n NM (mp_enorm NumR) R_norm r ip ifree diag qtf delta par r' par' x Sh P Pl ltac:(lia) Dp Hd Hp E) as (Sh' & Lx & P' & U & NE).
  split; [eapply lin_upper; eassumption|]. split; [exact P'|]. specialize (NE Pv).
  apply normal_minimises; [exact P'|]. intros j Hj.
  destruct (@perm_onto n ip j P Hj) as (a & Ha & <-). specialize (NE a Ha). rewrite (Q a Ha) in NE.
  assert (E1 : rsum n (fun b => rsum n (fun k => ut r k a * ut r k b) * vn x (nth b ip 0%nat)) =
     rsum n (fun l => inner m (nth (nth a ip 0%nat) A []) (nth l A []) * vn x l)).
  { rewrite <- (@rsum_perm n ip (fun l => inner m (nth (nth a ip 0%nat) A []) (nth l A []) * vn x l) P). apply rsum_ext. intros b Hb. rewrite G by assumption. reflexivity. }
  rewrite E1 in NE. clear E1.
  assert (E2 : rsum m (fun i => (nth i f 0 + rsum n (fun l => mat A i l * - vn x l)) * mat A i (nth a ip 0%nat)) =
     inner m (nth (nth a ip 0%nat) A []) f - rsum n (fun l => inner m (nth (nth a ip 0%nat) A []) (nth l A []) * vn x l)).
  { unfold inner. rewrite (@rsum_ext n _ (fun l => rsum m (fun i => mat A i (nth a ip 0%nat) * mat A i l * vn x l))).
    2:{ intros l Hl. rewrite <- rsum_scal_r. reflexivity. }
    rewrite rsum_swap, <- rsum_minus. apply rsum_ext. intros i Hi. fold (mat A i (nth a ip 0%nat)).
    rewrite (@rsum_ext n (fun l => mat A i l * - vn x l) (fun l => (-1) * (mat A i l * vn x l))) by (intros; ring). rewrite rsum_scal.
    rewrite (@rsum_ext n (fun l => mat A i (nth a ip 0%nat) * mat A i l * vn x l) (fun l => mat A i (nth a ip 0%nat) * (mat A i l * vn x l))) by (intros; ring).
    rewrite rsum_scal. ring. }
  rewrite E2. lra.
Qed.
End L.
