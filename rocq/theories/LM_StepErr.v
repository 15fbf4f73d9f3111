(** Exact arithmetic: the errors mpfit() reports. *)
From Coq Require Import ZArith List Bool Lia Reals Lra Permutation.
From Verif Require Import Base Num Sums Stats_Model Stats_Spec Stats_Proof DE_Model LM_Model LM_Spec LM_StepSpec DE_Proof LM_Proof LM_QR LM_QRReal LM_RealProof LM_Solve LM_SolveReal LM_Lmpar LM_LmparReal LM_Total LM_Safe LM_Cov LM_CovReal LM_StepMath LM_StepLimits LM_StepReal.
Import ListNotations.
Set Implicit Arguments. Unset Strict Implicit.
Local Open Scope R_scope.

Lemma quad_form m n (J : nat -> nat -> R) t : rsum m (fun i => (rsum n (fun l => t l * J i l)) ^ 2) = rsum n (fun l => rsum n (fun l' => t l * t l' * rsum m (fun i => J i l * J i l'))).
Proof.
  transitivity (rsum m (fun i => rsum n (fun l => rsum n (fun l' => t l * t l' * (J i l * J i l'))))).
  - apply rsum_ext. intros i Hi. replace (rsum n (fun l => t l * J i l) ^ 2) with (rsum n (fun l => t l * J i l) * rsum n (fun l => t l * J i l)) by ring.
    rewrite <- rsum_scal_r. apply rsum_ext. intros l Hl. rewrite <- rsum_scal. apply rsum_ext. intros l' Hl'. ring.
  - rewrite rsum_swap. apply rsum_ext. intros l Hl. rewrite rsum_swap. apply rsum_ext. intros l' Hl'. apply rsum_scal.
Qed.

Lemma rsum_cut n l1 (F : nat -> R) : (l1 <= n)%nat -> rsum n (fun b => if (b <? l1)%nat then F b else 0) = rsum l1 F.
Proof.
  intros H. replace n with (l1 + (n - l1))%nat by lia. rewrite rsum_app. rewrite (@rsum_zero (n - l1)%nat (fun i => if (l1 + i <? l1)%nat then _ else _)).
  - rewrite Rplus_0_r. apply rsum_ext. intros i Hi. destruct (Nat.ltb_spec i l1); [reflexivity|lia].
  - intros i Hi. destruct (Nat.ltb_spec (l1 + i) l1); [lia|reflexivity].
Qed.

Section L.
Variable m n : nat.
Hypothesis NM : (n <= m)%nat.
Hypothesis Hn : (0 < n)%nat.

Lemma errors_lin A f r ip qtf tol c : lin m n A f r ip qtf -> 0 <= tol -> covar NumR n r ip tol = Ok c ->
  let kept := fun j => Rltb 0 (en c j j) in
  (forall j k, (j < n)%nat -> (k < n)%nat -> kept j = true -> kept k = true ->
     rsum n (fun l => if kept l then rsum m (fun i => mat A i j * mat A i l) * en c l k else 0) = if Nat.eqb j k then 1 else 0) /\
  (forall j, (j < n)%nat -> kept j = false -> exists cf k, (k < n)%nat /\
     norm m (fun i => mat A i j - rsum n (fun l => if kept l then cf l * mat A i l else 0)) <= tol * norm m (fun i => mat A i k)).
Proof.
  intros (Sh & P & Lq & Pv & G & _ & PZ) Tp Ec kept.
  destruct (@covar_exact m n NM r ip tol c Hn Sh P Tp Ec) as (l1 & C & Hl1 & Shc & Dg & St & V & Cp & Cs & CI).
  assert (Kp : forall a, (a < n)%nat -> kept (nth a ip 0%nat) = (a <? l1)%nat).
  { intros a Ha. unfold kept. rewrite V by assumption. rewrite Nat.max_id. destruct (Nat.ltb_spec a l1); [apply Rltb_true; apply Cp; lia|apply Rltb_false; lra]. }
  assert (Gm : forall a b, (a < n)%nat -> (b < n)%nat -> rsum m (fun i => mat A i (nth a ip 0%nat) * mat A i (nth b ip 0%nat)) = rsum n (fun k => ut r k a * ut r k b)).
  { intros a b Ha Hb. rewrite G by assumption. reflexivity. }
  split.
  - intros j k Hj Hk Kj Kk. destruct (@perm_onto n ip j P Hj) as (a & Ha & <-). destruct (@perm_onto n ip k P Hk) as (d & Hd & <-).
    rewrite Kp in Kj, Kk by assumption. apply Nat.ltb_lt in Kj, Kk.
    rewrite <- (@rsum_perm n ip (fun l => if kept l then rsum m (fun i => mat A i (nth a ip 0%nat) * mat A i l) * en c l (nth d ip 0%nat) else 0) P).
    rewrite (@rsum_ext n _ (fun b => if (b <? l1)%nat then rsum n (fun k => ut r k a * ut r k b) * C b d else 0)).
    + rewrite rsum_cut by exact Hl1. rewrite CI by assumption. unfold delta_. destruct (Nat.eqb_spec a d) as [->|Na]; [now rewrite Nat.eqb_refl|].
      destruct (Nat.eqb_spec (nth a ip 0%nat) (nth d ip 0%nat)) as [Q|]; [|reflexivity]. apply (perm_inj P Ha Hd) in Q. contradiction.
    + intros b Hb. rewrite Kp by exact Hb. destruct (Nat.ltb_spec b l1); [|reflexivity]. rewrite Gm, V by lia. destruct (Nat.ltb_spec (Nat.max b d) l1); [reflexivity|lia].
  - intros j Hj Kj. destruct (@perm_onto n ip j P Hj) as (b0 & Hb0 & <-). rewrite Kp in Kj by exact Hb0. apply Nat.ltb_ge in Kj.
    (* coefficients in pivoted order *)
    set (g := fun d => rsum n (fun k => ut r k d * ut r k b0)).
    set (cc := fun a => rsum l1 (fun e => C a e * g e)).
    set (cf := fun l => rsum n (fun l' => if kept l' then en c l l' * rsum m (fun i => mat A i l' * mat A i (nth b0 ip 0%nat)) else 0)).
    assert (Cf : forall a, (a < l1)%nat -> cf (nth a ip 0%nat) = cc a).
    { intros a Ha. unfold cf. rewrite <- (@rsum_perm n ip (fun l' => if kept l' then en c (nth a ip 0%nat) l' * rsum m (fun i => mat A i l' * mat A i (nth b0 ip 0%nat)) else 0) P).
      rewrite (@rsum_ext n _ (fun e => if (e <? l1)%nat then C a e * g e else 0)); [apply rsum_cut; exact Hl1|]. intros e He. rewrite Kp by exact He. destruct (Nat.ltb_spec e l1); [|reflexivity].
      rewrite V by lia. destruct (Nat.ltb_spec (Nat.max a e) l1); [|lia]. rewrite Gm by lia. reflexivity. }
    exists cf, (nth 0 ip 0%nat). split; [apply (perm_get P Hn)|].
    (* the residual in pivoted coordinates *)
    set (t := fun l => if (l =? nth b0 ip 0%nat)%nat then 1 else if kept l then - cf l else 0).
    set (u := fun k => rsum n (fun a => t (nth a ip 0%nat) * ut r k a)).
    assert (Kb0 : kept (nth b0 ip 0%nat) = false) by (rewrite Kp by exact Hb0; apply Nat.ltb_ge; exact Kj).
    assert (Ta : forall a, (a < n)%nat -> t (nth a ip 0%nat) = if (a =? b0)%nat then 1 else if (a <? l1)%nat then - cc a else 0).
    { intros a Ha. unfold t. destruct (Nat.eqb_spec a b0) as [->|Na]; [now rewrite Nat.eqb_refl|]. destruct (Nat.eqb_spec (nth a ip 0%nat) (nth b0 ip 0%nat)) as [Q|_]; [apply (perm_inj P Ha Hb0) in Q; contradiction|].
      rewrite Kp by exact Ha. destruct (Nat.ltb_spec a l1); [rewrite Cf by assumption|]; reflexivity. }
    assert (Uk : forall k, u k = ut r k b0 - rsum l1 (fun a => cc a * ut r k a)).
    { intros k. unfold u. rewrite (@rsum_ext n _ (fun a => (if (a =? b0)%nat then ut r k b0 else 0) - (if (a <? l1)%nat then cc a * ut r k a else 0))).
      - rewrite rsum_minus, rsum_cut by exact Hl1. rewrite (@rsum_single n b0 (fun a => if (a =? b0)%nat then ut r k b0 else 0)); [now rewrite Nat.eqb_refl|exact Hb0|]. intros i Hi Ni. destruct (Nat.eqb_spec i b0); [contradiction|reflexivity].
      - intros a Ha. rewrite Ta by exact Ha. destruct (Nat.eqb_spec a b0) as [->|]; destruct (Nat.ltb_spec a l1) || destruct (Nat.ltb_spec b0 l1); try lia; ring. }
    assert (Ures : rsum m (fun i => (mat A i (nth b0 ip 0%nat) - rsum n (fun l => if kept l then cf l * mat A i l else 0)) ^ 2) = rsum n (fun k => u k ^ 2)).
    { rewrite (@rsum_ext m _ (fun i => (rsum n (fun l => t l * mat A i l)) ^ 2)).
      - rewrite quad_form. unfold u. rewrite quad_form.
        rewrite <- (@rsum_perm n ip (fun l => rsum n (fun l' => t l * t l' * rsum m (fun i => mat A i l * mat A i l'))) P). apply rsum_ext. intros a Ha.
        rewrite <- (@rsum_perm n ip (fun l' => t (nth a ip 0%nat) * t l' * rsum m (fun i => mat A i (nth a ip 0%nat) * mat A i l')) P). apply rsum_ext. intros b Hb. now rewrite Gm.
      - intros i Hi. f_equal. rewrite (@rsum_ext n (fun l => t l * mat A i l) (fun l => (if (l =? nth b0 ip 0)%nat then mat A i (nth b0 ip 0%nat) else 0) - (if kept l then cf l * mat A i l else 0))).
        + rewrite rsum_minus. f_equal. rewrite (@rsum_single n (nth b0 ip 0%nat)); [now rewrite Nat.eqb_refl|exact Hj|]. intros l Hl Nl. destruct (Nat.eqb_spec l (nth b0 ip 0%nat)); [contradiction|reflexivity].
        + intros l Hl. unfold t. destruct (Nat.eqb_spec l (nth b0 ip 0%nat)) as [->|]; [rewrite Kb0; ring|]. destruct (kept l); ring. }
    (* the first rows of the residual vanish *)
    assert (NE : forall d, (d < l1)%nat -> rsum n (fun k => ut r k d * u k) = 0).
    { intros d Hd. rewrite (@rsum_ext n _ (fun k => ut r k d * ut r k b0 - rsum l1 (fun a => cc a * (ut r k d * ut r k a)))).
      2:{ intros k Hk. rewrite Uk, Rmult_minus_distr_l. f_equal. rewrite <- rsum_scal. apply rsum_ext. intros; ring. }
      rewrite rsum_minus, rsum_swap. fold (g d).
      rewrite (@rsum_ext l1 _ (fun a => rsum l1 (fun e => rsum n (fun k => ut r k d * ut r k a) * C a e * g e))).
      2:{ intros a Ha. rewrite rsum_scal. unfold cc. rewrite <- rsum_scal_r. apply rsum_ext. intros e He. ring. }
      rewrite rsum_swap. rewrite (@rsum_ext l1 _ (fun e => delta_ d e * g e)).
      2:{ intros e He. rewrite rsum_scal_r. rewrite CI by assumption. reflexivity. }
      rewrite (@rsum_single l1 d); [|exact Hd|]. { unfold delta_. rewrite Nat.eqb_refl. ring. }
      intros i Hi Ni. unfold delta_. destruct (Nat.eqb_spec d i); [congruence|ring]. }
    assert (Dz : forall d, (d < l1)%nat -> ut r d d <> 0).
    { intros d Hd Z. specialize (Dg d Hd). unfold ut in Z. rewrite Nat.leb_refl in Z. rewrite Z, Rabs_R0 in Dg. pose proof (Rmult_le_pos tol (Rabs (en r 0 0)) Tp (Rabs_pos _)). lra. }
    assert (U0 : forall d, (d < l1)%nat -> u d = 0).
    { intros d. induction d as [d IH] using lt_wf_ind. intros Hd. specialize (NE d Hd). rewrite (@rsum_single n d) in NE.
      - apply Rmult_integral in NE. destruct NE as [Q|Q]; [exfalso; apply (Dz d Hd Q)|exact Q].
      - lia.
      - intros k Hk Nk. destruct (Nat.lt_ge_cases k d) as [Q|Q]; [rewrite IH by lia; ring|]. unfold ut at 1. destruct (Nat.leb_spec k d); [lia|ring]. }
    assert (U1 : forall k, (l1 <= k)%nat -> u k = ut r k b0).
    { intros k Hk. rewrite Uk. rewrite (@rsum_zero l1); [ring|]. intros a Ha. unfold ut. destruct (Nat.leb_spec k a); [lia|ring]. }
    assert (Le : rsum n (fun k => u k ^ 2) <= (tol * Rabs (en r 0 0)) * (tol * Rabs (en r 0 0))).
    { destruct (Nat.lt_ge_cases l1 n) as [Q|Q]; [|lia]. pose proof (PZ l1 b0 Q ltac:(lia)) as PZ1. specialize (St Q).
      eapply Rle_trans; [|eapply Rle_trans; [exact PZ1|]].
      - right. apply rsum_ext. intros k Hk. destruct (Nat.ltb_spec k l1); [rewrite U0 by assumption; ring|]. rewrite U1 by assumption. ring.
      - pose proof (Rabs_pos (en r l1 l1)).
        assert (QQ : en r l1 l1 * en r l1 l1 = Rabs (en r l1 l1) * Rabs (en r l1 l1)) by (unfold Rabs; destruct (Rcase_abs (en r l1 l1)); ring). rewrite QQ. apply Rmult_le_compat; assumption. }
    assert (N0 : norm m (fun i => mat A i (nth 0 ip 0%nat)) = Rabs (en r 0 0)).
    { unfold norm. rewrite Gm by lia. rewrite (@rsum_single n 0); [|exact Hn|].
      - unfold ut. cbn [Nat.leb]. apply sqrt_Rsqr_abs.
      - intros i Hi Ni. unfold ut. destruct (Nat.leb_spec i 0); [lia|ring]. }
    rewrite N0. unfold norm. rewrite (@rsum_ext m _ (fun i => (mat A i (nth b0 ip 0%nat) - rsum n (fun l => if kept l then cf l * mat A i l else 0)) ^ 2)) by (intros; ring).
    rewrite Ures. assert (T0 : 0 <= tol * Rabs (en r 0 0)) by (apply Rmult_le_pos; [exact Tp|apply Rabs_pos]).
    rewrite <- (sqrt_square (tol * Rabs (en r 0 0)) T0). apply sqrt_le_1_alt. exact Le.
Qed.
End L.

(** what is stored *)
Lemma x_errors_real npar n ifree c xe : length ifree = n -> NoDup ifree -> (forall j, (j < n)%nat -> (nth j ifree 0 < npar)%nat) -> (exists k, (n <= k)%nat /\ shape k n c) ->
  x_errors NumR npar n ifree c = Ok xe ->
  (forall p, ~ In p ifree -> nth p xe 0 = 0) /\ (forall j p, nth_error ifree j = Some p -> nth p xe 0 = if Rltb 0 (en c j j) then sqrt (en c j j) else 0).
Proof.
  intros Li ND Bi (kk & Hk & Sh) Ex. unfold x_errors in Ex.
  assert (H := fun A B => @for_ok (list R) (fun k xe => length xe = npar /\ (forall p, (forall j, (j < k)%nat -> nth_error ifree j <> Some p) -> nth p xe 0 = 0) /\
    (forall j p, (j < k)%nat -> nth_error ifree j = Some p -> nth p xe 0 = if Rltb 0 (en c j j) then sqrt (en c j j) else 0)) _ _ _ _ A B Ex). cbv beta in H.
  destruct H as (_ & H1 & H2).
  - split; [unfold zeros; apply repeat_length|]. split; [|intros; lia]. intros p _. unfold zeros. cbn [nofZ NumR]. destruct (Nat.lt_ge_cases p npar) as [Q|Q]; [apply nth_repeat|apply nth_overflow; rewrite repeat_length; exact Q].
  - intros k a b Hkn (L & Z & V) E1. rewrite (@get2_ok R NumR kk n c k k Sh ltac:(lia) Hkn) in E1. cbn [bind] in E1.
    assert (Ep : nth_error ifree k = Some (nth k ifree 0%nat)) by (apply nth_error_nth'; lia). set (p := nth k ifree 0%nat) in *. pose proof (Bi k Hkn) as Hp. fold p in Hp.
    assert (Eg : get ifree k = Ok p) by (unfold get; now rewrite Ep). rewrite Eg in E1. cbn [bind nltb nofZ nsqrt NumR] in E1.
    assert (Inj : forall j, nth_error ifree j = Some p -> j = k). { intros j Hj. assert (j < length ifree)%nat by (apply nth_error_Some; congruence). apply (proj1 (NoDup_nth_error ifree) ND); congruence. }
    destruct (Rltb 0 (en c k k)) eqn:Q.
    + destruct (@set_vn R NumR a p (sqrt (en c k k)) ltac:(lia)) as (b' & Es & Lb & Vb). rewrite Es in E1. apply Ok_inj in E1. subst b'.
      assert (Vb' : forall i, nth i b 0 = if (i =? p)%nat then sqrt (en c k k) else nth i a 0) by exact Vb.
      split; [lia|]. split.
      * intros i Hi. rewrite Vb'. destruct (Nat.eqb_spec i p) as [->|]; [exfalso; apply (Hi k); [lia|exact Ep]|]. apply Z. intros j Hj. apply Hi. lia.
      * intros j i Hj Hi. rewrite Vb'. destruct (Nat.eqb_spec i p) as [->|].
        -- rewrite (Inj j Hi), Q. reflexivity.
        -- apply V; [|exact Hi]. assert (j <> k) by (intros ->; congruence). lia.
    + apply Ok_inj in E1. subst b. split; [exact L|]. split.
      * intros i Hi. apply Z. intros j Hj. apply Hi. lia.
      * intros j i Hj Hi. destruct (Nat.eq_dec j k) as [->|Hne]; [|apply V; [lia|exact Hi]]. rewrite Q. rewrite Ep in Hi. injection Hi as <-. apply Z. intros j Hj' Hj2. apply Inj in Hj2. lia.
  - split.
    + intros p Np. apply H1. intros j _ Hj. apply Np. eapply nth_error_In; eassumption.
    + intros j p Hj. apply H2; [|exact Hj]. rewrite <- Li. apply nth_error_Some. congruence.
Qed.
