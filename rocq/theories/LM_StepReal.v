(** Exact arithmetic: every trial point of a run is a Levenberg-Marquardt step. *)
From Coq Require Import ZArith List Bool Lia Reals Lra Permutation.
From Verif Require Import Base Num Sums Stats_Model Stats_Spec Stats_Proof DE_Model LM_Model LM_Spec LM_StepSpec DE_Proof LM_Proof LM_QR LM_QRReal LM_RealProof LM_Solve LM_SolveReal LM_Lmpar LM_LmparReal LM_Total LM_Safe LM_StepMath LM_StepLimits.
Import ListNotations.
Set Implicit Arguments. Unset Strict Implicit.
Local Open Scope R_scope.

Lemma nth_error_some_nth {A} (l : list A) i x d : nth_error l i = Some x -> nth i l d = x.
Proof. intros H. now apply nth_error_nth. Qed.

Section G.
Variable funct : nat -> list R -> list R.
Variable interrupted : nat -> bool.
Variable m n : nat.
Hypothesis NM : (n <= m)%nat.
Hypothesis Hn : (0 < n)%nat.
Hypothesis Hf : forall k v, length (funct k v) = m.
Variable ifree : list nat.
Variable lims : option (list (limits R)).
Variable pars : option (list (limits R)).
Variable conf : mp_config R.
Variable xall : list R.
Hypothesis Li : length ifree = n.
Hypothesis ND : NoDup ifree.
Hypothesis Bi : forall j, (j < n)%nat -> (nth j ifree 0 < length xall)%nat.
Hypothesis Hl : lims_fit n lims.
Hypothesis Hq : forall j p, nth_error ifree j = Some p -> limits_of pars p = match lims with Some q => nth_error q j | None => None end.
Hypothesis HO : forall q i l, lims = Some q -> nth_error q i = Some l -> lim_order NumR l.
Hypothesis Hx : 0 < xtol conf.
Hypothesis Hs : 0 < stepfactor conf.
Hypothesis Ht : 0 < gtol conf.

Notation E := (mp_enorm NumR).
Notation sane := (@sane R m n xall).
Notation factored := (@factored R m n).

Definition L_ (s : lm_state R) : calls := rev (s_log s).
Definition Good (L : calls) : Prop := forall k v g, nth_error L k = Some (Trial, v, g) -> lm_step pars ifree m (gtol conf) L k v.

Lemma nth_error_ext_app {A} (l l' : list A) i x : nth_error l i = Some x -> nth_error (l ++ l') i = Some x.
Proof. intros H. rewrite nth_error_app1; [exact H|]. apply nth_error_Some. congruence. Qed.
Lemma jacobian_app L L' first base f J : jacobian L first m ifree base f J -> jacobian (L ++ L') first m ifree base f J.
Proof. intros H j p Hp. destruct (H j p Hp) as (h & g & H1 & H2 & H3). exists h, g. split; [exact H1|]. split; [now apply nth_error_ext_app|exact H3]. Qed.
Lemma around_app L L' b k base f J : around L m ifree b k base f J -> around (L ++ L') m ifree b k base f J.
Proof.
  intros ((w & H1 & H2) & H3 & H4 & H5). split; [exists w; split; [now apply nth_error_ext_app|exact H2]|]. split; [now apply jacobian_app|]. split; [exact H4|].
  intros i Hi. destruct (H5 i Hi) as (v & g & Hv). exists v, g. now apply nth_error_ext_app.
Qed.
Lemma around_trial L b base f J v g : around L m ifree b (length L) base f J -> around (L ++ [(Trial, v, g)]) m ifree b (S (length L)) base f J.
Proof.
  intros H. destruct (around_app [(Trial, v, g)] H) as (H1 & H2 & H3 & H4). split; [exact H1|]. split; [exact H2|]. split; [lia|].
  intros i Hi. destruct (Nat.eq_dec i (length L)) as [->|Q]; [|apply H4; lia]. exists v, g. rewrite nth_error_app2 by lia. now rewrite Nat.sub_diag.
Qed.
Lemma step_app L L' k v : lm_step pars ifree m (gtol conf) L k v -> lm_step pars ifree m (gtol conf) (L ++ L') k v.
Proof. intros (b & base & f & J & J' & H1 & H2). exists b, base, f, J, J'. split; [now apply around_app|exact H2]. Qed.
Lemma good_app L new : Good L -> (forall e, In e new -> fst (fst e) <> Trial) -> Good (L ++ new).
Proof.
  intros G H k v g Hk. destruct (Nat.lt_ge_cases k (length L)) as [Q|Q].
  - rewrite nth_error_app1 in Hk by exact Q. apply step_app. eapply G; eassumption.
  - rewrite nth_error_app2 in Hk by exact Q. apply nth_error_In in Hk. exfalso. apply (H _ Hk). reflexivity.
Qed.
Lemma good_trial L v g : Good L -> lm_step pars ifree m (gtol conf) L (length L) v -> Good (L ++ [(Trial, v, g)]).
Proof.
  intros G H k v' g' Hk. destruct (Nat.lt_ge_cases k (length L)) as [Q|Q].
  - rewrite nth_error_app1 in Hk by exact Q. apply step_app. eapply G; eassumption.
  - rewrite nth_error_app2 in Hk by exact Q. destruct (k - length L)%nat as [|d] eqn:D; [|destruct d; discriminate Hk]. cbn in Hk. injection Hk as <- <-.
    replace k with (length L) by lia. apply step_app. exact H.
Qed.

(** the base point of the current Jacobian, and the factored Jacobian *)
Definition Jac (steep : bool) (L : calls) (s : lm_state R) (base f : list R) : Prop :=
  exists b A Ap, around L m ifree b (length L) base f (mat A) /\ length f = m /\ shape m n A /\ shape m n Ap /\ unblocked pars m ifree base f (mat A) (mat Ap) /\
    (reasonable m n (mat Ap) -> lin m n Ap f (s_fjac s) (s_ipvt s) (s_qtf s)) /\
    (steep = true -> reasonable m n (mat Ap) -> inner m f f < giant m * giant m -> ~ stationary pars ifree m (gtol conf) base f (mat A)).

Definition posd (s : lm_state R) : Prop := (forall j, (j < n)%nat -> 0 < dg NumR ifree (s_diag s) j) /\ 0 <= s_xnorm s.
Definition core (s : lm_state R) : Prop :=
  sane s /\ good_x NumR n lims (s_x s) /\ s_fnorm s = E (s_fvec s) /\ 0 <= s_par s /\ Good (L_ s) /\
  exists xv b w, spread n ifree (s_x s) xall = Ok xv /\ nth_error (L_ s) b = Some (w, xv, s_fvec s) /\ (w = Start \/ w = Trial).
Definition last_call (s : lm_state R) : Prop := exists xv w L0, spread n ifree (s_x s) xall = Ok xv /\ L_ s = L0 ++ [(w, xv, s_fvec s)] /\ (w = Start \/ w = Trial).
Definition InvO (s : lm_state R) : Prop := core s /\ (s_iter s <> 1%Z -> posd s /\ 0 < s_delta s) /\ last_call s.
Definition InvI (s : lm_state R) : Prop := core s /\ factored s /\ posd s /\ 0 < s_delta s /\ exists xv, spread n ifree (s_x s) xall = Ok xv /\ Jac true (L_ s) s xv (s_fvec s).

(** the gradient test *)
Definition flat (s : lm_state R) : Prop :=
  exists xv b A Ap, spread n ifree (s_x s) xall = Ok xv /\ around (L_ s) m ifree b (length (L_ s)) xv (s_fvec s) (mat A) /\ unblocked pars m ifree xv (s_fvec s) (mat A) (mat Ap) /\
    (reasonable m n (mat Ap) -> inner m (s_fvec s) (s_fvec s) < giant m * giant m ->
     forall j, (j < n)%nat -> Rabs (slope m (s_fvec s) (mat Ap) j) <= gtol conf * sqrt (inner m (s_fvec s) (s_fvec s)) * sqrt (rsum m (fun i => mat Ap i j * mat Ap i j))).
Definition Post (s : lm_state R) (info : Z) : Prop := core s /\ factored s /\ (exists base f steep, Jac steep (L_ s) s base f /\ (spread n ifree (s_x s) xall = Ok base \/ last_call s)) /\ (info = MP_OK_DIR -> flat s) /\
  (info = MP_OK_DIR \/ maxiter conf = 0%Z \/ exists k v g, nth_error (L_ s) k = Some (Trial, v, g)).

Lemma spread_place x xv j p : spread n ifree x xall = Ok xv -> nth_error ifree j = Some p -> nth p xv 0 = vn x j /\ (p < length xall)%nat /\ (j < n)%nat.
Proof.
  intros Ex Hp. assert (j < n)%nat by (rewrite <- Li; apply nth_error_Some; congruence).
  destruct (spread_ok ND Ex) as (_ & S1 & _). destruct (S1 j p H Hp) as (S2 & S3 & S4). split; [|auto].
  unfold vn. change (nofZ NumR 0) with 0. destruct (nth_error x j) as [y|] eqn:Ey; [|apply nth_error_None in Ey; lia].
  rewrite (nth_error_some_nth 0 Ey). apply nth_error_some_nth. exact S2.
Qed.
Lemma place_nth j p : nth_error ifree j = Some p -> nth j ifree 0%nat = p.
Proof. apply nth_error_some_nth. Qed.
Lemma place_some j : (j < n)%nat -> nth_error ifree j = Some (nth j ifree 0%nat).
Proof. intros H. apply nth_error_nth'. lia. Qed.

Lemma any_none j p : any_limits lims = None -> nth_error ifree j = Some p -> forall l, limits_of pars p = Some l -> limited0 l = false /\ limited1 l = false.
Proof.
  intros A Hp l Q. rewrite (Hq Hp) in Q. unfold any_limits in A. destruct lims as [q|]; [|discriminate]. destruct (existsb _ q) eqn:Ex; [discriminate|].
  assert (H : limited0 l || limited1 l = false).
  { destruct (limited0 l || limited1 l) eqn:D; [|reflexivity]. assert (existsb (fun l => limited0 l || limited1 l) q = true) by (apply existsb_exists; exists l; split; [eapply nth_error_In; eassumption|exact D]). congruence. }
  apply orb_false_iff in H. exact H.
Qed.
Lemma any_some q : any_limits lims = Some q -> lims = Some q.
Proof. unfold any_limits. destruct lims as [q'|]; [|discriminate]. destruct (existsb _ q'); [congruence|discriminate]. Qed.

(** ---- the gradient ---- *)
Lemma grad_real Ap f q ip rd wa2 r qtf g : shape m n Ap -> length f = m -> reasonable m n (mat Ap) -> inner m f f < giant m * giant m ->
  (forall j, (j < n)%nat -> vn wa2 j = E (nth j Ap [])) -> length wa2 = n -> lin m n Ap f r ip qtf ->
  qrfac NumR E m n Ap = Ok (q, ip, rd, wa2) ->
  grad_norm NumR n r ip wa2 qtf (E f) = Ok g -> (forall j, (j < n)%nat -> Rabs (slope m f (mat Ap) j) <= g * sqrt (inner m f f) * sqrt (rsum m (fun i => mat Ap i j * mat Ap i j))) /\
    (g = 0 \/ exists j, (j < n)%nat /\ 0 < sqrt (inner m f f) * sqrt (rsum m (fun i => mat Ap i j * mat Ap i j)) /\ Rabs (slope m f (mat Ap) j) = g * (sqrt (inner m f f) * sqrt (rsum m (fun i => mat Ap i j * mat Ap i j)))).
Proof.
  intros Sh Lf Re Rf W Lw (Shr & P & Lq & _ & _ & GQ & _) _ Eg.
  assert (Hm : (0 < m)%nat) by lia.
  assert (Col : forall j, (j < n)%nat -> vn wa2 j = sqrt (rsum m (fun i => mat Ap i j * mat Ap i j))).
  { intros j Hj. rewrite W by exact Hj. rewrite (@col_norm m (nth j Ap []) Hm); [reflexivity| |].
    - destruct Sh as (L1 & L2). rewrite Forall_forall in L2. apply L2. apply nth_In. lia.
    - change (rsum m (fun i => mat Ap i j * mat Ap i j) < giant m * giant m). specialize (Re j Hj). unfold giant. rewrite <- Rsqr_pow2 in Re. exact Re. }
  assert (Nf : E f = sqrt (inner m f f)) by (apply col_norm; assumption).
  assert (Sl : forall j, slope m f (mat Ap) j = inner m (nth j Ap []) f).
  { intros j. unfold slope, inner. apply rsum_ext. intros i Hi. unfold mat. ring. }
  assert (CS : forall u v, (forall i, (i < m)%nat -> u i = 0) -> rsum m (fun i => u i * v i) = 0) by (intros u v H; apply rsum_zero; intros i Hi; rewrite H by exact Hi; ring).
  unfold grad_norm in Eg. cbn [neqb NumR nofZ] in Eg. rewrite Nf in Eg. destruct (Reqb (sqrt (inner m f f)) 0) eqn:Z.
  { apply Reqb_true in Z. apply Ok_inj in Eg. subst g. split; [|left; reflexivity]. intros j Hj.
    assert (I0 : inner m f f = 0). { apply sqrt_eq_0; [apply rsum_nonneg; intros; nra|exact Z]. }
    assert (F0 : forall i, (i < m)%nat -> nth i f 0 = 0).
    { intros i Hi. assert (Q := @rsum_zero_terms m (fun i => nth i f 0 * nth i f 0) ltac:(intros; nra) I0 i Hi). cbv beta in Q. nra. }
    unfold slope. rewrite CS by exact F0. rewrite Rabs_R0, Z. lra. }
  apply Reqb_false in Z. assert (Nf0 : 0 < sqrt (inner m f f)) . { pose proof (sqrt_pos (inner m f f)). lra. } set (nf := sqrt (inner m f f)) in *.
  assert (H := fun A B => @for_ok R (fun k g => 0 <= g /\ (forall a, (a < k)%nat -> Rabs (slope m f (mat Ap) (nth a ip 0%nat)) <= g * nf * sqrt (rsum m (fun i => mat Ap i (nth a ip 0%nat) * mat Ap i (nth a ip 0%nat)))) /\
    (g = 0 \/ exists j, (j < n)%nat /\ 0 < nf * sqrt (rsum m (fun i => mat Ap i j * mat Ap i j)) /\ Rabs (slope m f (mat Ap) j) = g * (nf * sqrt (rsum m (fun i => mat Ap i j * mat Ap i j))))) _ _ _ _ A B Eg). cbv beta in H.
  destruct H as (G0 & H & HG).
  - split; [lra|]. split; [intros; lia|left; reflexivity].
  - intros k g0 g1 Hk (G0 & IH & IG) E1. destruct (perm_get P Hk) as (P1 & P2). rewrite P1 in E1. cbn [bind] in E1.
    rewrite (@get_vn R NumR wa2 (nth k ip 0%nat) ltac:(rewrite Lw; exact P2)) in E1. cbn [bind] in E1. rewrite (Col _ P2) in E1.
    set (jj := nth k ip 0%nat) in *. set (cn := sqrt (rsum m (fun i => mat Ap i jj * mat Ap i jj))) in *.
    destruct (Reqb cn 0) eqn:Zc.
    + apply Ok_inj in E1. subst g1. split; [exact G0|]. split; [|exact IG]. intros a Ha. destruct (Nat.eq_dec a k) as [->|Hne]; [|apply IH; lia]. fold jj. fold cn.
      apply Reqb_true in Zc. assert (I0 : rsum m (fun i => mat Ap i jj * mat Ap i jj) = 0). { apply sqrt_eq_0; [apply rsum_nonneg; intros; nra|exact Zc]. }
      assert (F0 : forall i, (i < m)%nat -> mat Ap i jj = 0).
      { intros i Hi. assert (Q := @rsum_zero_terms m (fun i => mat Ap i jj * mat Ap i jj) ltac:(intros; nra) I0 i Hi). cbv beta in Q. nra. }
      unfold slope. rewrite (@rsum_zero m (fun i => nth i f 0 * mat Ap i jj)) by (intros i Hi; rewrite F0 by exact Hi; ring). rewrite Rabs_R0, Zc. lra.
    + apply Reqb_false in Zc. assert (Cp : 0 < cn). { assert (Q0 : 0 <= cn) by apply sqrt_pos. lra. }
      apply bind_Ok in E1. destruct E1 as (sum & Es & E1). apply Ok_inj in E1.
      assert (Hsum : sum = slope m f (mat Ap) jj / nf).
      { assert (Q := fun A B => @for_ok R (fun t v => v = rsum t (fun i => ut r i k * vn qtf i) / nf) _ _ _ _ A B Es). cbv beta in Q. rewrite Q.
        - rewrite Sl. unfold jj. rewrite <- (GQ k Hk). f_equal. replace n with (S k + (n - S k))%nat at 1 by lia. rewrite rsum_app.
          rewrite (@rsum_zero (n - S k)%nat (fun i => ut r (S k + i) k * vn qtf (S k + i))). 2:{ intros i Hi. unfold ut. destruct (Nat.leb_spec (S k + i) k); [lia|ring]. } ring.
        - cbn [rsum nofZ NumR]. field. lra.
        - intros i v v' Hi -> E2. rewrite (@get2_ok R NumR m n r i k Shr ltac:(lia) ltac:(lia)) in E2. cbn [bind] in E2. rewrite (@get_vn R NumR qtf i ltac:(lia)) in E2. cbn [bind] in E2.
          apply Ok_inj in E2. subst v'. cbn [nadd nmul ndiv NumR rsum]. unfold ut. destruct (Nat.leb_spec i k); [|lia]. field. lra. }
      cbn [nabs ndiv NumR] in E1.
      assert (D1 : g0 <= g1 /\ Rabs (sum / cn) <= g1 /\ (g1 = g0 \/ g1 = Rabs (sum / cn))). { subst g1. unfold dmax1. cbn [nleb NumR]. destruct (Rleb (Rabs (sum / cn)) g0) eqn:Q; [apply Rleb_true in Q|apply Rleb_false in Q]; (split; [lra|split; [lra|]]); first [left; reflexivity|right; reflexivity]. }
      destruct D1 as (D1 & D2 & D3). split; [lra|]. split.
      2: { destruct D3 as [-> | ->]; [exact IG|]. right. exists jj. split; [exact P2|]. fold cn. assert (Pq : 0 < nf * cn) by (apply Rmult_lt_0_compat; lra). split; [exact Pq|].
           rewrite Hsum. replace (slope m f (mat Ap) jj / nf / cn) with (slope m f (mat Ap) jj * / (nf * cn)) by (field; lra).
           rewrite Rabs_mult, (Rabs_pos_eq (/ (nf * cn))) by (left; apply Rinv_0_lt_compat; exact Pq). rewrite Rmult_assoc, Rinv_l by lra. ring. }
      clear D3. intros a Ha. destruct (Nat.eq_dec a k) as [->|Hne].
      * fold jj. fold cn. rewrite Hsum in D2. replace (slope m f (mat Ap) jj / nf / cn) with (slope m f (mat Ap) jj * / (nf * cn)) in D2 by (field; lra).
        rewrite Rabs_mult, (Rabs_pos_eq (/ (nf * cn))) in D2 by (left; apply Rinv_0_lt_compat; apply Rmult_lt_0_compat; lra).
        assert (Pq : 0 < nf * cn) by (apply Rmult_lt_0_compat; lra).
        apply (Rmult_le_compat_r (nf * cn)) in D2; [|lra]. rewrite Rmult_assoc, Rinv_l in D2 by lra. lra.
      * eapply Rle_trans; [apply IH; lia|]. rewrite !Rmult_assoc. apply Rmult_le_compat_r; [|exact D1]. apply Rmult_le_pos; [lra|apply sqrt_pos].
  - split; [|exact HG]. intros j Hj. destruct (@perm_onto n ip j P Hj) as (a & Ha & <-). apply H. exact Ha.
Qed.

Lemma jac_unblocked Jm Jp (x f : list R) xnew : shape m n Jm -> shape m n Jp -> length f = m -> length x = n -> spread n ifree x xall = Ok xnew ->
  match any_limits lims with
  | Some ql => forall j, (j < n)%nat -> exists sum, (lpeg NumR ql x j || upeg NumR ql x j = true -> dot NumR f (nth j Jm []) 0 m = Ok sum) /\
      nth j Jp [] = (if lpeg NumR ql x j && nltb NumR (nofZ NumR 0) sum || upeg NumR ql x j && nltb NumR sum (nofZ NumR 0) then zeros NumR m else nth j Jm [])
  | None => Jp = Jm end ->
  unblocked pars m ifree xnew f (mat Jm) (mat Jp).
Proof.
  intros Sh Shp Lf Lx Ex H j p Hp. destruct (spread_place Ex Hp) as (Xp & _ & Hj). rewrite Xp.
  destruct (any_limits lims) as [ql|] eqn:Ea.
  - pose proof (any_some Ea) as El. rewrite (Hq Hp), El. assert (Lq : (n <= length ql)%nat) by (rewrite El in Hl; exact Hl).
    destruct (nth_error ql j) as [l|] eqn:Ej; [|apply nth_error_None in Ej; lia].
    destruct (H j Hj) as (sum & Hsum & Hcol).
    assert (Sl : slope m f (mat Jm) j = low m 0 (ent f) (ent (nth j Jm []))).
    { unfold slope, low. apply rsum_ext. intros i Hi. reflexivity. }
    pose proof (@blocked_iff m ql x f (mat Jm) j l Ej) as BI.
    assert (Cond : (lpeg NumR ql x j && nltb NumR (nofZ NumR 0) sum || upeg NumR ql x j && nltb NumR sum (nofZ NumR 0)) =
       (lpeg NumR ql x j && Rltb 0 (slope m f (mat Jm) j) || upeg NumR ql x j && Rltb (slope m f (mat Jm) j) 0)).
    { destruct (lpeg NumR ql x j || upeg NumR ql x j) eqn:Q.
      - specialize (Hsum eq_refl). rewrite dot_exact in Hsum.
        + apply Ok_inj in Hsum. rewrite <- Hsum, Sl. reflexivity.
        + lia.
        + destruct Sh as (L1 & L2). rewrite Forall_forall in L2. rewrite (L2 (nth j Jm [])); [lia|]. apply nth_In. lia.
        + lia.
      - apply orb_false_iff in Q. destruct Q as (-> & ->). reflexivity. }
    rewrite Cond in Hcol. split.
    + intros B i Hi. apply BI in B. rewrite B in Hcol. unfold mat. rewrite Hcol. apply nth_repeat.
    + intros B i Hi. destruct (lpeg NumR ql x j && Rltb 0 (slope m f (mat Jm) j) || upeg NumR ql x j && Rltb (slope m f (mat Jm) j) 0) eqn:Q.
      * exfalso. apply B. apply BI. reflexivity.
      * unfold mat. rewrite Hcol. reflexivity.
  - subst Jp. split; [|reflexivity]. intros (l & Q & B). exfalso. destruct (any_none Ea Hp Q) as (A1 & A2). destruct B as [(B & _)|(B & _)]; congruence.
Qed.

Lemma finite_real r : all_finite NumR n r = Ok false -> False.
Proof.
  intros H. unfold all_finite in H. assert (Q := fun A B => @for_ok bool (fun _ b => b = true) _ _ _ _ A B H). cbv beta in Q. discriminate Q; [reflexivity|].
  intros i b b' _ -> H1. assert (Q1 := fun A B => @for_ok bool (fun _ b => b = true) _ _ _ _ A B H1). cbv beta in Q1. apply Q1; [reflexivity|].
  intros j c c' _ -> H2. apply bind_Ok in H2. destruct H2 as (v & _ & H2). apply Ok_inj in H2. subst c'. reflexivity.
Qed.

Lemma outer_real s s' e : InvO s -> outer_step NumR E funct m n ifree lims conf xall s = Ok (s', e) ->
  match e with None => InvI s' | Some (false, i) => Post s' i | Some (true, i) => False end.
Proof.
  intros ((Sa & Gx & Fn & Par & G & _) & Later & xv & w & L0 & Ex & EL & Hw) Eo.
  assert (Hm : (0 < m)%nat) by lia.
  destruct (@outer_total R NumR E funct m n NM Hf ifree lims conf xall Li ND Bi Hl s Sa) as (xnew & J & new & Jp & q & rd & wa2 & diag1 & s1 & e1 & E1 & Lxn & ShJ & Lnew & Hnew & ShJp & Hpeg & Eqr & Lrd & Lwa & Hwa & Eqt & Ld1 & Hd & Eo1 & X1 & X2 & X3 & X4 & X5 & X6 & X7 & Fac & Ld & He).
  rewrite Eo in Eo1. apply Ok_inj in Eo1. injection Eo1 as <- <-. rewrite Ex in E1. apply Ok_inj in E1. subst xnew.
  pose proof Sa as (Lx & Lf & Ldg).
  assert (LL : L_ s' = L_ s ++ new). { unfold L_. rewrite X7, rev_app_distr, rev_involutive. reflexivity. }
  assert (Len : length (L_ s) = length (s_log s)) by (unfold L_; apply rev_length).
  assert (Lb : length (L_ s) = S (length L0)) by (rewrite EL, app_length; cbn; lia).
  assert (Eb : nth_error (L_ s) (length L0) = Some (w, xv, s_fvec s)) by (rewrite EL, nth_error_app2 by lia; now rewrite Nat.sub_diag).
  set (b := length L0) in *.
  assert (Dn : forall k e, nth_error new k = Some e -> fst (fst e) = Derivative).
  { intros k e0 Hk. assert (k < n)%nat by (rewrite <- Lnew; apply nth_error_Some; congruence). destruct (Hnew k H) as (h & _ & Hk' & _). rewrite Hk in Hk'. injection Hk' as ->. reflexivity. }
  assert (Jac1 : jacobian (L_ s') (length (L_ s)) m ifree xv (s_fvec s) (mat J)).
  { intros j p Hp. assert (Hj : (j < n)%nat) by (rewrite <- Li; apply nth_error_Some; congruence).
    destruct (Hnew j Hj) as (h & Hh & Hk & Hc). rewrite (place_nth Hp) in Hh. unfold fd_point in Hk, Hc. rewrite (place_nth Hp) in Hk, Hc. eexists h, _. split; [eapply fd_nonzero; [apply fd_eps|exact Hh]|]. split.
    - rewrite LL, nth_error_app2 by lia. replace (length (L_ s) + j - length (L_ s))%nat with j by lia. exact Hk.
    - intros i Hi. exact (Hc i Hi). }
  assert (Ub : unblocked pars m ifree xv (s_fvec s) (mat J) (mat Jp)) by (eapply jac_unblocked; eassumption).
  assert (Eb' : nth_error (L_ s') b = Some (w, xv, s_fvec s)) by (rewrite LL; now apply nth_error_ext_app).
  assert (Hb : (b < length (L_ s))%nat) by (apply nth_error_Some; congruence).
  assert (Lin : reasonable m n (mat Jp) -> lin m n Jp (s_fvec s) (s_fjac s') (s_ipvt s') (s_qtf s')).
  { intros Re. eapply lin_of_qr; try eassumption. intros k Hk. specialize (Re k Hk). unfold giant. rewrite <- Rsqr_pow2 in Re. exact Re. }
  assert (Core : core s').
  { split; [unfold LM_Safe.sane; rewrite X1, X2; auto|]. split; [rewrite X1; exact Gx|]. split; [rewrite X3, X2; exact Fn|]. split; [rewrite X5; exact Par|]. split.
    - rewrite LL. apply good_app; [exact G|]. intros e0 He0. apply In_nth_error in He0. destruct He0 as (k & Hk). rewrite (Dn k e0 Hk). discriminate.
    - exists xv, b, w. rewrite X1, X2. auto. }
  assert (Ar : around (L_ s') m ifree b (length (L_ s')) xv (s_fvec s) (mat J)).
  { assert (length (L_ s') = S b + n)%nat by (rewrite LL, app_length; lia). split; [exists w; auto|]. split; [rewrite <- Lb; exact Jac1|]. split; [lia|]. intros i Hi. lia. }
  assert (JJ : forall st, (st = true -> reasonable m n (mat Jp) -> inner m (s_fvec s) (s_fvec s) < giant m * giant m -> ~ stationary pars ifree m (gtol conf) xv (s_fvec s) (mat J)) -> Jac st (L_ s') s' xv (s_fvec s')).
  { intros st Hst. rewrite X2. exists b, J, Jp. split; [exact Ar|]. split; [exact Lf|]. split; [exact ShJ|]. split; [exact ShJp|]. split; [exact Ub|]. split; [exact Lin|exact Hst]. }
  destruct e as [[[|] i]|].
  - destruct He as (He & _). exact (finite_real He).
  - destruct He as (Hg & Hd2 & Hi). split; [exact Core|]. split; [exact Fac|]. split; [exists xv, (s_fvec s'), false; split; [apply JJ; discriminate|left; rewrite X1; exact Ex]|].
    split; [|destruct Hi as [(-> & _)|(_ & Hi)]; [left; reflexivity|right; left; exact Hi]]. intros ->.
    destruct Hi as [(_ & Hle)|(Hi & _)]; [|discriminate Hi]. apply Rleb_true in Hle.
    exists xv, b, J, Jp. rewrite X1, X2. split; [exact Ex|]. split; [exact Ar|]. split; [exact Ub|].
    intros Re Rf j Hj. rewrite Fn in Hg. pose proof (@grad_real Jp (s_fvec s) q (s_ipvt s') rd wa2 (s_fjac s') (s_qtf s') (s_gnorm s') ShJp Lf Re Rf Hwa Lwa (Lin Re) Eqr Hg) as (Q & _). specialize (Q j Hj).
    eapply Rle_trans; [exact Q|]. rewrite !Rmult_assoc. apply Rmult_le_compat_r; [apply Rmult_le_pos; apply sqrt_pos|exact Hle].
  - destruct He as (Hg & Hd2 & Hgt). split; [exact Core|]. split; [exact Fac|].
    assert (PD : (forall j, (j < n)%nat -> 0 < dg NumR ifree diag1 j) /\ 0 <= s_xnorm s' /\ 0 < s_delta s').
    { destruct (Z.eqb_spec (s_iter s) 1) as [Q|Q].
      - destruct Hd as (D1 & D2 & D3). split; [|split].
        + intros j Hj. rewrite D1 by exact Hj. cbn [neqb nofZ NumR]. destruct (Reqb (vn wa2 j) 0) eqn:Z; [lra|]. apply Reqb_false in Z. rewrite Hwa in * by exact Hj. pose proof (R_norm (nth j Jp [])). lra.
        + rewrite D2. apply R_norm.
        + rewrite D3. cbn [neqb nofZ nmul NumR]. assert (Xn : 0 <= s_xnorm s') by (rewrite D2; apply R_norm).
          destruct (Reqb (stepfactor conf * s_xnorm s') 0) eqn:Z; [exact Hs|]. apply Reqb_false in Z. assert (0 <= stepfactor conf * s_xnorm s') by (apply Rmult_le_pos; lra). lra.
      - destruct Hd as (-> & -> & ->). destruct (Later Q) as ((P1 & P2) & P3). auto. }
    destruct PD as (PD1 & PD2 & PD3). split; [split; [|exact PD2]|].
    + intros j Hj. rewrite Hd2 by exact Hj. specialize (PD1 j Hj). unfold dmax1. cbn [nleb NumR]. destruct (Rleb (vn wa2 j) (dg NumR ifree diag1 j)) eqn:Z; [lra|]. apply Rleb_false in Z. lra.
    + split; [exact PD3|]. exists xv. split; [rewrite X1; exact Ex|]. apply JJ. intros _ Re Rf St.
      rewrite Fn in Hg. destruct (@grad_real Jp (s_fvec s) q (s_ipvt s') rd wa2 (s_fjac s') (s_qtf s') (s_gnorm s') ShJp Lf Re Rf Hwa Lwa (Lin Re) Eqr Hg) as (_ & Q). apply Rleb_false in Hgt.
      destruct Q as [Q|(j & Hj & Pq & Q)]; [lra|]. pose proof (place_some Hj) as Hp. destruct (Ub j _ Hp) as (U1 & U2).
      assert (Sz : slope m (s_fvec s) (mat Jp) j <> 0). { intros Z. rewrite Z, Rabs_R0 in Q. symmetry in Q. apply Rmult_integral in Q. lra. }
      destruct (St j _ Hp) as [B|B].
      * apply Sz. unfold slope. apply rsum_zero. intros i Hi. rewrite (U1 B i Hi). ring.
      * assert (NB : ~ blocked (limits_of pars (nth j ifree 0%nat)) (nth (nth j ifree 0%nat) xv 0) (slope m (s_fvec s) (mat J) j)).
        { intros Bl. apply Sz. unfold slope. apply rsum_zero. intros i Hi. rewrite (U1 Bl i Hi). ring. }
        unfold slope, norm, inner in *. rewrite (@rsum_ext m (fun i => nth i (s_fvec s) 0 * mat Jp i j) (fun i => nth i (s_fvec s) 0 * mat J i j)) in Q by (intros i Hi; now rewrite (U2 NB i Hi)).
        rewrite (@rsum_ext m (fun i => mat Jp i j * mat Jp i j) (fun i => mat J i j * mat J i j)) in Q, Pq by (intros i Hi; now rewrite (U2 NB i Hi)).
        rewrite Q, Rmult_assoc in B. apply Rmult_le_reg_r in B; [lra|exact Pq].
Qed.

Lemma p_vals : p1 NumR = / 10 /\ p5 NumR = / 2 /\ p25 NumR = / 4.
Proof.
  unfold p1, p5, p25. cbn [ndec NumR]. change (IZR (10 ^ 1)) with 10. change (IZR (10 ^ 2)) with 100. lra.
Qed.

(** the trial point *)
Lemma trial_reached s p w1 y alpha xv xnew : sane s -> good_x NumR n lims (s_x s) -> spread n ifree (s_x s) xall = Ok xv -> length p = n ->
  (let neg := map (fun j => nneg NumR (vn p j)) (seq 0 n) in
   match any_limits lims with
   | None => w1 = neg /\ y = map (fun j => nadd NumR (vn (s_x s) j) (vn neg j)) (seq 0 n) /\ alpha = nofZ NumR 1
   | Some q => exists w0, limit_step NumR n q (s_x s) neg = Ok (w0, alpha) /\ length w0 = n /\ move NumR n q (s_x s) w0 alpha = Ok (w1, y)
   end) -> length y = n -> spread n ifree y xall = Ok xnew ->
  reached pars ifree xv xnew (fun j => - vn p j) /\ good_x NumR n lims y.
Proof.
  intros (Lx & _) Gx Ex Lp H Ly Ey. cbv zeta in H. set (neg := map (fun j => nneg NumR (vn p j)) (seq 0 n)) in *.
  assert (Vn : forall j, (j < n)%nat -> vn neg j = - vn p j) by (intros j Hj; unfold neg; rewrite (@vn_map R NumR) by exact Hj; reflexivity).
  destruct (spread_ok ND Ex) as (Lxv & _ & X2). destruct (spread_ok ND Ey) as (Lxn & _ & Y2).
  assert (Same : forall p, ~ In p ifree -> nth_error xnew p = nth_error xv p).
  { intros p0 Np. rewrite X2, Y2; [reflexivity| |]; intros i _ Hi; apply Np; eapply nth_error_In; eassumption. }
  destruct (any_limits lims) as [q|] eqn:Ea.
  - destruct H as (w0 & E0 & L0 & E1). pose proof (any_some Ea) as El. assert (Lq : (n <= length q)%nat) by (rewrite El in Hl; exact Hl).
    destruct (@limited_step n q (s_x s) neg w0 alpha w1 y Lq ltac:(lia) ltac:(unfold neg; rewrite map_length, seq_length; reflexivity)) as (Ha & HC & Hit); [|assumption|assumption|].
    { intros j l Hj Ej. split; [|eapply HO; eassumption]. destruct Gx as (_ & Gx). apply inside_in. apply (Gx q j l _ El Ej).
      unfold vn. apply nth_error_nth'. lia. }
    split.
    + exists alpha, (fun j => vn w0 j). split; [exact Ha|]. split; [congruence|]. split; [exact Same|]. split.
      * intros j p0 Hp. destruct (spread_place Ex Hp) as (-> & _ & Hj). destruct (spread_place Ey Hp) as (-> & _ & _). rewrite (Hq Hp), El.
        destruct (HC j Hj) as (C1 & C2 & C3). rewrite Vn in C1, C2 by exact Hj. auto.
      * destruct Hit as [Hit|(j & Hj & He & Hli)]; [left; exact Hit|]. right. exists j, (nth j ifree 0%nat). pose proof (place_some Hj) as Hp. split; [exact Hp|].
        rewrite Vn in He by exact Hj. split; [exact He|]. destruct (spread_place Ex Hp) as (-> & _ & _). rewrite (Hq Hp), El. exact Hli.
    + split; [exact Ly|]. intros q' i l z Hq' Hi Hz. rewrite El in Hq'. injection Hq' as <-.
      destruct (@move_ok R NumR R_up R_lo R_irr R_ord n q (s_x s) w0 alpha w1 y (fun i l => HO El (i := i) (l := l)) E1) as (_ & M). eapply M; eassumption.
  - destruct H as (_ & Hy & _). split.
    + exists 1, (fun j => - vn p j). split; [lra|]. split; [congruence|]. split; [exact Same|]. split; [|left; reflexivity].
      intros j p0 Hp. destruct (spread_place Ex Hp) as (-> & _ & Hj). destruct (spread_place Ey Hp) as (-> & _ & _). split; [|split; [reflexivity|]].
      * intros (l & Q & B). exfalso. destruct (any_none Ea Hp Q) as (A1 & A2). destruct B as [(B & _)|(B & _)]; congruence.
      * left. rewrite Hy, (@vn_map R NumR) by exact Hj. cbn [nadd NumR]. rewrite Vn by exact Hj. ring.
    + split; [exact Ly|]. intros q' i l z Hq' Hi Hz. destruct (limited0 l || limited1 l) eqn:D.
      * exfalso. unfold any_limits in Ea. rewrite Hq' in Ea. assert (Q : existsb (fun l => limited0 l || limited1 l) q' = true) by (apply existsb_exists; exists l; split; [eapply nth_error_In; eassumption|exact D]). rewrite Q in Ea. discriminate.
      * apply orb_false_iff in D. destruct D as (D1 & D2). split; congruence.
Qed.

Lemma decide_next s a pr ra : match decide NumR interrupted conf s a pr ra with
  | Inner => xtol conf * s_xnorm s < s_delta s /\ ra < p0001 NumR
  | Outer => xtol conf * s_xnorm s < s_delta s /\ p0001 NumR <= ra
  | Stop i => i <> MP_OK_DIR end.
Proof.
  unfold decide. set (chi := nleb NumR (nabs NumR a) (ftol conf) && nleb NumR pr (ftol conf) && nleb NumR (nmul NumR (p5 NumR) ra) (nofZ NumR 1)).
  cbn [nleb nltb nmul NumR].
  destruct (Rleb (s_delta s) (xtol conf * s_xnorm s)) eqn:D.
  - destruct chi; cbn; discriminate.
  - apply Rleb_false in D. destruct chi; [cbn; discriminate|]. cbn [andb negb Z.eqb].
    match goal with |- context [if negb (?i =? 0)%Z then Stop ?i else _] => assert (Ni : i <> MP_OK_DIR) end.
    { repeat match goal with |- context [if ?b then _ else _] => destruct b end; discriminate. }
    match goal with |- context [if negb (?i =? 0)%Z then Stop ?i else _] => destruct (i =? 0)%Z end; cbn [negb]; [|exact Ni].
    destruct (Rltb ra (p0001 NumR)) eqn:R; [apply Rltb_true in R|apply Rltb_false in R]; split; lra.
Qed.

Lemma inner_real s s' nx : InvI s -> inner_step NumR E funct interrupted n ifree lims conf xall s = Ok (s', nx) ->
  match nx with Inner => InvI s' | Outer => InvO s' | Stop i => Post s' i end.
Proof.
  intros ((Sa & Gx & Fn & Par & G & _) & Fac & (Pd & Xn) & Dl & xv & Ex & JJ) Ei.
  assert (Hm : (0 < m)%nat) by lia.
  destruct (@sane_inner R NumR E funct interrupted m n NM Hf ifree lims conf xall Li Bi Hl s s' nx Sa Fac Ei) as (Sa' & Fac').
  destruct (@inner_total R NumR E funct interrupted m n NM ifree lims conf xall Li Bi Hl s Sa Fac) as (r' & par' & p & w1 & y & alpha & xnew & wr & s1 & n1 & El & Shr' & Lp & Hm1 & Lw1 & Ly & Ey & Lxn & Er & Ei1 & P).
  rewrite Ei in Ei1. apply Ok_inj in Ei1. injection Ei1 as <- <-. cbv zeta in P.
  set (g := funct (length (s_log s)) xnew) in *.
  set (t0 := if nleb NumR (nofZ NumR 0) _ then p5 NumR else _) in P.
  set (t1 := if nleb NumR (s_fnorm s) (nmul NumR (p1 NumR) (E g)) || nltb NumR t0 (p1 NumR) then p1 NumR else t0) in P.
  assert (T1 : / 10 <= t1). { unfold t1. destruct p_vals as (-> & _). destruct (nleb NumR (s_fnorm s) (nmul NumR (/ 10) (E g)) || nltb NumR t0 (/ 10)) eqn:Q; [lra|]. apply orb_false_iff in Q. destruct Q as (_ & Q). apply Rltb_false in Q. lra. }
  set (ratio := if neqb NumR _ (nofZ NumR 0) then nofZ NumR 0 else _) in P. clearbody t1 ratio. clear t0.
  destruct P as (Hlog & Hf1 & Hfj & Hip & Hqt & Hdg & Hgn & Hde & Hpa & Hacc & Hnx).
  assert (LL : L_ s' = L_ s ++ [(Trial, xnew, g)]) by (unfold L_; rewrite Hlog; reflexivity).
  destruct (@trial_reached s p w1 y alpha xv xnew Sa Gx Ex Lp Hm1 Ly Ey) as (HR & Gy).
  pose proof (@places_len R n ifree xall Li Bi (s_diag s) ltac:(apply Sa)) as Pl.
  destruct (@lmpar_exact m n NM E R_norm (s_fjac s) (s_ipvt s) ifree (s_diag s) (s_qtf s) (s_delta s) (s_par s) r' par' p ltac:(apply Fac) ltac:(apply Fac) Pl ltac:(destruct Fac as (_ & _ & ->); lia) Pd Dl Par El) as (_ & _ & Ppar & _ & _).
  assert (JJ' : Jac true (L_ s') s' xv (s_fvec s) /\ lm_step pars ifree m (gtol conf) (L_ s) (length (L_ s)) xnew).
  { destruct JJ as (b & A & Ap & Ar & Lf & H5 & H6 & H8 & H10 & H11). split.
    - exists b, A, Ap. split; [rewrite LL, app_length; cbn [length]; rewrite Nat.add_1_r; now apply around_trial|]. split; [exact Lf|]. split; [exact H5|]. split; [exact H6|]. split; [exact H8|].
      split; [|exact H11]. intros Re. specialize (H10 Re). rewrite Hfj, Hip, Hqt. apply (lin_step NM Hm H10 Pl Pd Dl Par El).
    - exists b, xv, (s_fvec s), (mat A), (mat Ap). rewrite Li. split; [exact Ar|]. split; [exact H8|]. split; [|intros Re Rf; apply (H11 eq_refl Re); unfold inner, giant; replace (_ * _) with ((13040000000000000000 / INR m) ^ 2) by ring; exact Rf].
      intros Re. specialize (H10 Re). destruct (lin_step NM Hm H10 Pl Pd Dl Par El) as (_ & Q1 & Q2).
      exists par', (dg NumR ifree (s_diag s)), (fun j => - vn p j). auto. }
  destruct JJ' as (JJ' & St).
  assert (G' : Good (L_ s')) by (rewrite LL; now apply good_trial).
  assert (Par' : 0 <= s_par s').
  { rewrite Hpa. cbn [nleb neqb nofZ ndiv nmul NumR]. destruct p_vals as (_ & -> & ->). destruct (Rleb ratio (/ 4)); [|destruct (Reqb par' 0 || Rleb (p75 NumR) ratio); lra].
    apply Rmult_le_pos; [exact Ppar|]. left. apply Rinv_0_lt_compat. lra. }
  assert (Lg : length (L_ s) = length (s_log s)) by (unfold L_; apply rev_length).
  assert (Core : core s').
  { split; [exact Sa'|]. destruct (nleb NumR (p0001 NumR) ratio); destruct Hacc as (A1 & A2 & A3 & A4 & A5).
    - split; [rewrite A1; exact Gy|]. split; [rewrite A3, A2; reflexivity|]. split; [exact Par'|]. split; [exact G'|]. exists xnew, (length (L_ s)), Trial. split; [rewrite A1; exact Ey|]. split; [|right; reflexivity].
      rewrite LL, nth_error_app2 by lia. rewrite Nat.sub_diag, A2. reflexivity.
    - split; [rewrite A1; exact Gx|]. split; [rewrite A3, A2; exact Fn|]. split; [exact Par'|]. split; [exact G'|].
      destruct JJ' as (b & A & Ap & ((w & H3 & H4) & _) & _). exists xv, b, w. rewrite A1, A2. auto. }
  assert (PD : posd s').
  { split; [rewrite Hdg; exact Pd|]. destruct (nleb NumR (p0001 NumR) ratio); destruct Hacc as (_ & _ & _ & _ & ->); [apply R_norm|exact Xn]. }
  assert (Dpos : xtol conf * s_xnorm s' < s_delta s' -> 0 < s_delta s').
  { intros Q. destruct PD as (_ & Q2). assert (0 <= xtol conf * s_xnorm s') by (apply Rmult_le_pos; lra). lra. }
  rewrite Hnx.
  match goal with |- match decide NumR interrupted conf s' ?a ?pr ratio with _ => _ end => pose proof (decide_next s' a pr ratio) as DN; destruct (decide NumR interrupted conf s' a pr ratio) eqn:Dd end.
  - destruct DN as (D1 & D2). split; [exact Core|]. split; [exact Fac'|]. split; [exact PD|]. split; [auto|].
    destruct (nleb NumR (p0001 NumR) ratio) eqn:Q; [apply Rleb_true in Q; lra|]. destruct Hacc as (A1 & A2 & _). exists xv. rewrite A1, A2. auto.
  - destruct DN as (D1 & D2). split; [exact Core|]. split; [auto|]. destruct (nleb NumR (p0001 NumR) ratio) eqn:Q; [|apply Rleb_false in Q; lra].
    destruct Hacc as (A1 & A2 & _). exists xnew, Trial, (L_ s). rewrite A1, A2. auto.
  - split; [exact Core|]. split; [exact Fac'|]. split; [exists xv, (s_fvec s), true; split; [exact JJ'|]|split; [intros ->; congruence|right; right; exists (length (L_ s)), xnew, g; rewrite LL, nth_error_app2, Nat.sub_diag by lia; reflexivity]].
    destruct (nleb NumR (p0001 NumR) ratio); destruct Hacc as (A1 & A2 & _); [right; exists xnew, Trial, (L_ s); rewrite A1, A2; auto|left; rewrite A1; exact Ex].
Qed.

Lemma run_real f : forall (ins : bool) s s' (c : bool) i, (if ins then InvI s else InvO s) -> run NumR E funct interrupted m n ifree lims conf xall f ins s = Ok (s', c, i) ->
  if c then False else Post s' i.
Proof.
  induction f as [|f IH]; intros ins s s' c i H Er; [discriminate|]. cbn [run] in Er. destruct ins.
  - apply bind_Ok in Er. destruct Er as ((s1, nx) & E1 & Er). pose proof (inner_real H E1) as Q. destruct nx; cbv beta iota in Er.
    + apply (IH true s1 s' c i Q Er).
    + apply (IH false s1 s' c i Q Er).
    + apply Ok_inj in Er. injection Er as <- <- <-. exact Q.
  - apply bind_Ok in Er. destruct Er as ((s1, e) & E1 & Er). pose proof (outer_real H E1) as Q. destruct e as [[cl i1]|]; cbv beta iota in Er.
    + apply Ok_inj in Er. injection Er as <- <- <-. destruct cl; exact Q.
    + apply (IH true s1 s' c i Q Er).
Qed.
End G.
