(** Exact arithmetic: the two loops of a Levenberg-Marquardt run come to an end. *)
From Coq Require Import ZArith List Bool Lia Reals Lra Permutation.
From Verif Require Import Base Num Sums Stats_Model Stats_Spec Stats_Proof DE_Model LM_Model LM_Spec LM_StepSpec DE_Proof LM_Proof LM_QR LM_QRReal LM_RealProof LM_Solve LM_SolveReal LM_Lmpar LM_LmparReal LM_Total LM_Safe LM_StepMath LM_StepLimits LM_StepReal LM_StepErr LM_StepFinal.
Import ListNotations.
Set Implicit Arguments. Unset Strict Implicit.
Local Open Scope R_scope.

Lemma sq_pos x a : In a x -> a <> 0 -> 0 < sum_of_squares x.
Proof.
  induction x as [|b t IH]; [intros []|]. intros H Ha. assert (E : sum_of_squares (b :: t) = b * b + sum_of_squares t) by reflexivity. rewrite E.
  pose proof (sq_nonneg t). destruct H as [->|H]; [|specialize (IH H Ha)]; nra.
Qed.
Lemma enorm_positive x a : In a x -> a <> 0 -> 0 < mp_enorm NumR x.
Proof.
  intros H Ha. pose proof (sq_pos H Ha) as P. destruct (mp_enorm_cases x) as (s1 & s2 & s3 & x1 & x3 & _ & I & ->).
  destruct I as (H1 & H2 & H3 & X1 & X3 & I1 & _ & E & _). apply sqrt_lt_R0.
  destruct (Reqb s1 0) eqn:Q; [lra|]. apply Reqb_false in Q. assert (x1 <> 0) by (intros Z; apply Q; auto).
  assert (0 < s1 * (x1 * x1)). { apply Rmult_lt_0_compat; [lra|]. apply Rmult_lt_0_compat; lra. } lra.
Qed.

Lemma run_more {T} (N : Num T) enorm funct interrupted m n ifree lims conf xall f : forall ins s k, run N enorm funct interrupted m n ifree lims conf xall f ins s <> Fuel ->
  run N enorm funct interrupted m n ifree lims conf xall (f + k) ins s = run N enorm funct interrupted m n ifree lims conf xall f ins s.
Proof.
  induction f as [|f IH]; intros ins s k H; [contradiction H; reflexivity|]. cbn [run Nat.add] in *. destruct ins.
  - destruct (inner_step _ _ _ _ _ _ _ _ _ s) as [[s1 [| |i]]| | |]; cbn [bind] in *; auto.
  - destruct (outer_step _ _ _ _ _ _ _ _ _ s) as [[s1 [[c i]|]]| | |]; cbn [bind] in *; auto.
Qed.

Section G.
Variable funct : nat -> list R -> list R.
Variable interrupted : nat -> bool.
Variable m n : nat.
Hypothesis NM : (n <= m)%nat.
Hypothesis Hn : (0 < n)%nat.
Hypothesis Hf : forall k v, length (funct k v) = m.
Variable ifree : list nat.
Variable lims : option (list (limits R)).
Variable pars : option (list (limits R)).
Variable conf : mp_config R.
Variable xall : list R.
Hypothesis Li : length ifree = n.
Hypothesis ND : NoDup ifree.
Hypothesis Bi : forall j, (j < n)%nat -> (nth j ifree 0 < length xall)%nat.
Hypothesis Hl : lims_fit n lims.
Hypothesis Hq : forall j p, nth_error ifree j = Some p -> limits_of pars p = match lims with Some q => nth_error q j | None => None end.
Hypothesis HO : forall q i l, lims = Some q -> nth_error q i = Some l -> lim_order NumR l.
Hypothesis Hx : 0 < xtol conf.
Hypothesis Hs : 0 < stepfactor conf.
Hypothesis Ht : 0 < gtol conf.
Hypothesis NZ : forall x, good_x NumR n lims x -> exists j, (j < n)%nat /\ vn x j <> 0.
Notation E := (mp_enorm NumR).
Notation InvO := (InvO m n ifree lims pars conf xall).
Notation InvI := (InvI m n ifree lims pars conf xall).
Notation run := (run NumR E funct interrupted m n ifree lims conf xall).

Lemma scaled_positive x d : good_x NumR n lims x -> (forall j, (j < n)%nat -> 0 < d j) -> 0 < E (map (fun j => nmul NumR (d j) (vn x j)) (seq 0 n)).
Proof.
  intros G P. destruct (NZ G) as (j & Hj & Z). apply (@enorm_positive _ (d j * vn x j)).
  - apply in_map_iff. exists j. split; [reflexivity|]. apply in_seq. lia.
  - apply Rmult_integral_contrapositive_currified; [specialize (P j Hj); lra|exact Z].
Qed.

Lemma outer_end s s' : InvO s -> (s_iter s <> 1%Z -> 0 < s_xnorm s) -> outer_step NumR E funct m n ifree lims conf xall s = Ok (s', None) -> 0 < s_xnorm s' /\ s_iter s' = s_iter s.
Proof.
  intros ((Sa & Gx & _) & Later & _) Xn Eo.
  destruct (@outer_total R NumR E funct m n NM Hf ifree lims conf xall Li ND Bi Hl s Sa) as (xnew & J & new & Jp & q & rd & wa2 & diag1 & s1 & e1 & E1 & Lxn & ShJ & Lnew & Hnew & ShJp & Hpeg & Eqr & Lrd & Lwa & Hwa & Eqt & Ld1 & Hd & Eo1 & X1 & X2 & X3 & X4 & X5 & X6 & X7 & Fac & Ld & He).
  rewrite Eo in Eo1. apply Ok_inj in Eo1. injection Eo1 as <- <-. split; [|exact X6].
  destruct (Z.eqb_spec (s_iter s) 1) as [Q|Q]; [|destruct Hd as (_ & -> & _); auto].
  destruct Hd as (D1 & D2 & _). rewrite D2. apply scaled_positive; [exact Gx|]. intros j Hj. rewrite D1 by exact Hj. cbn [neqb nofZ NumR].
  destruct (Reqb (vn wa2 j) 0) eqn:Z; [lra|]. apply Reqb_false in Z. rewrite Hwa in * by exact Hj. pose proof (R_norm (nth j Jp [])). lra.
Qed.

Lemma decide_outer s a pr ra : decide NumR interrupted conf s a pr ra = Outer -> (s_iter s < maxiter conf)%Z.
Proof.
  unfold decide. cbv zeta.
  set (b1 := nleb NumR (nabs NumR a) (ftol conf) && _ && _). set (b2 := nleb NumR (s_delta s) (nmul NumR (xtol conf) (s_xnorm s))).
  set (b3 := interrupted _). set (b4 := (0 <? maxfev conf)%Z && _). set (b5 := nleb NumR (nabs NumR a) (MACHEP0 NumR) && _ && _). set (b6 := nleb NumR (s_delta s) (nmul NumR (MACHEP0 NumR) (s_xnorm s))).
  set (b7 := nleb NumR (s_gnorm s) (MACHEP0 NumR)). set (b8 := nltb NumR ra (p0001 NumR)). clearbody b1 b2 b3 b4 b5 b6 b7 b8.
  destruct (Z.leb_spec (maxiter conf) (s_iter s)) as [D|D]; [|intros _; exact D]. clear.
  destruct b1, b2; cbn; try discriminate. destruct b7; cbn; [discriminate|]. destruct b6; cbn; [discriminate|]. destruct b5; cbn; discriminate.
Qed.

Lemma inner_end s s' nx : InvI s -> 0 < s_xnorm s -> inner_step NumR E funct interrupted n ifree lims conf xall s = Ok (s', nx) ->
  match nx with
  | Inner => s_xnorm s' = s_xnorm s /\ s_iter s' = s_iter s /\ s_delta s' <= / 2 * s_delta s /\ xtol conf * s_xnorm s' < s_delta s'
  | Outer => 0 < s_xnorm s' /\ s_iter s' = (s_iter s + 1)%Z /\ (s_iter s' < maxiter conf)%Z
  | Stop _ => True end.
Proof.
  intros ((Sa & Gx & Fn & Par & G & _) & Fac & (Pd & _) & Dl & xv & Ex & JJ) Xn Ei.
  destruct (@inner_total R NumR E funct interrupted m n NM ifree lims conf xall Li Bi Hl s Sa Fac) as (r' & par' & p & w1 & y & alpha & xnew & wr & s1 & n1 & El & Shr' & Lp & Hm1 & Lw1 & Ly & Ey & Lxn & Er & Ei1 & P).
  rewrite Ei in Ei1. apply Ok_inj in Ei1. injection Ei1 as <- <-. cbv zeta in P.
  destruct (@trial_reached m n NM Hn ifree lims pars xall Li ND Hl Hq HO s p w1 y alpha xv xnew Sa Gx Ex Lp Hm1 Ly Ey) as (_ & Gy).
  destruct P as (_ & _ & _ & _ & _ & Hdg & _ & Hde & _ & Hacc & Hnx).
  set (g := funct (length (s_log s)) xnew) in *.
  set (pnorm := E (map (fun j => nmul NumR (dg NumR ifree (s_diag s) j) (vn w1 j)) (seq 0 n))) in *.
  set (actred := if nltb NumR (nmul NumR (p1 NumR) (E g)) (s_fnorm s) then _ else _) in *.
  set (temp1 := ndiv NumR (nmul NumR (E wr) alpha) (s_fnorm s)) in *.
  set (temp2 := ndiv NumR (nmul NumR (nsqrt NumR (nmul NumR alpha par')) pnorm) (s_fnorm s)) in *.
  set (ratio := if neqb NumR _ (nofZ NumR 0) then nofZ NumR 0 else _) in *. clearbody ratio.
  match type of Hnx with nx = decide _ _ _ _ ?a ?pr _ => pose proof (decide_next interrupted conf s' a pr ratio) as DN; pose proof (@decide_outer s' a pr ratio) as DO end.
  rewrite <- Hnx in DN, DO. destruct nx as [| |i]; [| |exact I].
  - destruct DN as (D1 & D2). destruct p_vals as (P1 & P5 & P25). assert (P4 : p0001 NumR = / 10000). { unfold p0001. cbn [ndec NumR]. change (IZR (10 ^ 4)) with 10000. lra. }
    destruct (nleb NumR (p0001 NumR) ratio) eqn:Q; [apply Rleb_true in Q; lra|]. destruct Hacc as (_ & _ & _ & A4 & A5). split; [exact A5|]. split; [exact A4|]. split; [|exact D1].
    assert (Q1 : nleb NumR ratio (p25 NumR) = true) by (apply Rleb_true; lra). rewrite Q1 in Hde.
    set (t0 := if nleb NumR (nofZ NumR 0) actred then p5 NumR else _) in Hde.
    assert (T0 : t0 <= / 2).
    { unfold t0. rewrite P5. cbn [nleb nofZ ndiv nmul nadd nneg NumR]. destruct (Rleb 0 actred) eqn:A; [lra|]. apply Rleb_false in A.
      set (d := temp1 * temp1 + temp2 * temp2). assert (Dp : 0 <= d) by (unfold d; nra). clearbody d.
      replace (/ 2 * - d / (- d + / 2 * actred)) with (/ 2 * d / (d + / 2 * - actred)) by (field; lra).
      apply Rmult_le_reg_r with (d + / 2 * - actred); [lra|]. unfold Rdiv. rewrite Rmult_assoc, Rinv_l by lra. lra. }
    set (t1 := if nleb NumR (s_fnorm s) (nmul NumR (p1 NumR) (E g)) || nltb NumR t0 (p1 NumR) then p1 NumR else t0) in Hde.
    assert (T1 : / 10 <= t1 <= / 2).
    { unfold t1. rewrite P1. destruct (nleb NumR (s_fnorm s) (nmul NumR (/ 10) (E g)) || nltb NumR t0 (/ 10)) eqn:QQ; [lra|]. apply orb_false_iff in QQ. destruct QQ as (_ & QQ). apply Rltb_false in QQ. lra. }
    rewrite Hde. cbn [nmul ndiv NumR]. clearbody t1. rewrite P1 in *.
    assert (Pn : 0 <= pnorm) by apply R_norm.
    set (dl := if (s_iter s =? 1)%Z then dmin1 NumR (s_delta s) pnorm else s_delta s).
    assert (Dl1 : dl <= s_delta s). { unfold dl, dmin1. cbn [nleb NumR]. destruct (s_iter s =? 1)%Z; [|lra]. destruct (Rleb (s_delta s) pnorm) eqn:Z; [lra|]. apply Rleb_false in Z. lra. }
    assert (Mn : dmin1 NumR dl (pnorm / / 10) <= s_delta s). { unfold dmin1. cbn [nleb NumR]. destruct (Rleb dl (pnorm / / 10)) eqn:Z; [lra|]. apply Rleb_false in Z. lra. }
    set (mn := dmin1 NumR dl (pnorm / / 10)) in *. clearbody mn. nra.
  - destruct DN as (D1 & D2). destruct (nleb NumR (p0001 NumR) ratio) eqn:Q; [|apply Rleb_false in Q; lra]. destruct Hacc as (_ & _ & _ & A4 & A5). split; [|split; [exact A4|apply DO; reflexivity]].
    rewrite A5. apply scaled_positive; [exact Gy|exact Pd].
Qed.

Lemma ends (B : nat) : forall s, InvO s -> (s_iter s <> 1%Z -> 0 < s_xnorm s) -> (Z.to_nat (maxiter conf - s_iter s) <= B)%nat -> exists f, run f false s <> Fuel.
Proof.
  induction B as [B IHB] using lt_wf_ind. intros s I Xn HB.
  assert (Inn : forall K s1, InvI s1 -> 0 < s_xnorm s1 -> s_iter s1 = s_iter s -> s_delta s1 <= xtol conf * s_xnorm s1 * 2 ^ K -> exists f, run f true s1 <> Fuel).
  { induction K as [|K IHK]; intros s1 I1 X1 It1 D1;
    (destruct (inner_step NumR E funct interrupted n ifree lims conf xall s1) as [[s2 nx]| | |] eqn:Ei; [|exists 1%nat; cbn [LM_Model.run]; rewrite Ei; discriminate|exists 1%nat; cbn [LM_Model.run]; rewrite Ei; discriminate|]);
    try (exfalso; destruct I1 as ((Sa1 & _) & Fac1 & _); destruct (@inner_total R NumR E funct interrupted m n NM ifree lims conf xall Li Bi Hl s1 Sa1 Fac1) as (r' & par' & p & w1 & y & alpha & xnew & wr & s' & n1 & _ & _ & _ & _ & _ & _ & _ & _ & _ & Ei1 & _); congruence);
    pose proof (inner_end I1 X1 Ei) as En; pose proof (inner_real NM Hn Hf Li ND Bi Hl Hq HO Hx I1 Ei) as Re; destruct nx as [| |i].
    - exfalso. destruct En as (E1 & _ & E2 & E3). rewrite E1 in E3. cbn [pow] in D1. assert (0 < xtol conf * s_xnorm s1) by (apply Rmult_lt_0_compat; assumption). lra.
    - destruct En as (E1 & E2 & E3). destruct (IHB (Z.to_nat (maxiter conf - s_iter s2))) with (s := s2) as (f & Hf2); [lia|exact Re|auto|lia|]. exists (S f). cbn [LM_Model.run]. rewrite Ei. exact Hf2.
    - exists 1%nat. cbn [LM_Model.run]. rewrite Ei. discriminate.
    - destruct En as (E1 & E2 & E3 & E4). destruct (IHK s2) as (f & Hf2); [exact Re|lra|congruence| |exists (S f); cbn [LM_Model.run]; rewrite Ei; exact Hf2].
      rewrite E1. cbn [pow] in D1. lra.
    - destruct En as (E1 & E2 & E3). destruct (IHB (Z.to_nat (maxiter conf - s_iter s2))) with (s := s2) as (f & Hf2); [lia|exact Re|auto|lia|]. exists (S f). cbn [LM_Model.run]. rewrite Ei. exact Hf2.
    - exists 1%nat. cbn [LM_Model.run]. rewrite Ei. discriminate. }
  destruct (outer_step NumR E funct m n ifree lims conf xall s) as [[s1 e]| | |] eqn:Eo; [|exists 1%nat; cbn [LM_Model.run]; rewrite Eo; discriminate|exists 1%nat; cbn [LM_Model.run]; rewrite Eo; discriminate|].
  2: { exfalso. destruct I as ((Sa1 & _) & _). destruct (@outer_total R NumR E funct m n NM Hf ifree lims conf xall Li ND Bi Hl s Sa1) as (xnew & J & new & Jp & q & rd & wa2 & diag1 & s1 & e1 & E1 & Lxn & ShJ & Lnew & Hnew & ShJp & Hpeg & Eqr & Lrd & Lwa & Hwa & Eqt & Ld1 & Hd & Eo1 & _). congruence. }
  destruct e as [[c i]|]; [exists 1%nat; cbn [LM_Model.run]; rewrite Eo; discriminate|].
  destruct (outer_end I Xn Eo) as (E1 & E2). pose proof (outer_real NM Hn Hf Li ND Bi Hl Hq HO Hs Ht I Eo) as Re.
  destruct (Pow_x_infinity 2) with (b := s_delta s1 / (xtol conf * s_xnorm s1)) as (K & HK); [rewrite Rabs_pos_eq; lra|]. specialize (HK K (le_n K)).
  assert (C : 0 < xtol conf * s_xnorm s1) by (apply Rmult_lt_0_compat; assumption).
  destruct (Inn K s1 Re E1 E2) as (f & Hf1).
  - rewrite Rabs_pos_eq in HK by (apply pow_le; lra). apply Rge_le in HK. apply Rmult_le_compat_l with (r := xtol conf * s_xnorm s1) in HK; [|lra].
    replace (xtol conf * s_xnorm s1 * (s_delta s1 / (xtol conf * s_xnorm s1))) with (s_delta s1) in HK by (field; split; lra). exact HK.
  - exists (S f). cbn [LM_Model.run]. rewrite Eo. exact Hf1.
Qed.
End G.

Section F.
Variable funct : nat -> list R -> list R.
Variable interrupted : nat -> bool.
Variable m npar : Z.
Variable xall : list R.
Variable pars : option (list (limits R)).
Variable config : mp_config R.
Hypothesis Lx : length xall = Z.to_nat npar.
Hypothesis Hf : forall k v, length (funct k v) = Z.to_nat m.
Hypothesis Lp : forall ps, pars = Some ps -> (Z.to_nat npar <= length ps)%nat.
Notation E := (mp_enorm NumR).

Lemma mpfit_ends : (exists p l, In p (free_parameters pars (Z.to_nat npar)) /\ limits_of pars p = Some l /\ (limited0 l = true /\ 0 < lim0 l \/ limited1 l = true /\ lim1 l < 0)) ->
  exists fuel, forall more, mpfit NumR E funct interrupted (fuel + more) m npar xall pars config <> Fuel.
Proof.
  intros (p & l & Hp & Hl & Hz).
  destruct (@mpfit_setup R NumR E funct interrupted m npar xall pars config Lx Hf Lp) as [(e & H & _)|(ifree & lims & x0 & SU & H)].
  { exists 0%nat. intros more. rewrite H. discriminate. }
  pose proof (free_indices_list (su_free SU)) as Fr. destruct (su_n SU) as (Hn & NM). rewrite <- Fr in Hp.
  assert (Bi : forall j, (j < length ifree)%nat -> (nth j ifree 0 < length xall)%nat). { intros j Hj. assert (In (nth j ifree 0%nat) ifree) by (now apply nth_In). apply (su_in SU) in H0. apply H0. }
  destruct (su_conf SU) as (C1 & C2 & C3 & C4). apply Rleb_false in C2, C3, C4. cbn [nofZ NumR] in C2, C3, C4.
  apply In_nth_error in Hp. destruct Hp as (j & Hj). assert (Lj : (j < length ifree)%nat) by (apply nth_error_Some; congruence).
  assert (NZ : forall x, good_x NumR (length ifree) lims x -> exists j, (j < length ifree)%nat /\ vn x j <> 0).
  { intros x (Lxx & Gx). exists j. split; [exact Lj|]. pose proof (su_lims SU Hj) as Q. change (limits_of pars p = match lims with Some q => nth_error q j | None => None end) in Q.
    destruct lims as [q|]; [|congruence]. rewrite Hl in Q. destruct (nth_error x j) as [y|] eqn:Ey; [|apply nth_error_None in Ey; lia].
    destruct (Gx q j l y eq_refl (eq_sym Q) Ey) as (G0 & G1). unfold vn. rewrite (nth_error_some_nth _ Ey).
    destruct Hz as [(Z1 & Z2)|(Z1 & Z2)]; [specialize (G0 Z1); apply Rltb_false in G0|specialize (G1 Z1); apply Rltb_false in G1]; lra. }
  destruct (@ends funct interrupted (Z.to_nat m) (length ifree) NM Hn Hf ifree lims pars (merge_config NumR config) xall eq_refl (su_nd SU) Bi (su_fit SU) (su_lims SU) (su_order SU) C2 C4 C3 NZ
     _ _ (start_inv Lx Hf SU) ltac:(intros Q; exfalso; apply Q; reflexivity) (le_n _)) as (F & HF).
  exists F. intros more. specialize (H (F + more)%nat). cbv zeta in H. rewrite (run_more more HF) in H.
  destruct (run NumR E funct interrupted (Z.to_nat m) (length ifree) ifree lims (merge_config NumR config) xall F false (start_state NumR E funct npar xall (length ifree) x0)) as [[[s [|]] i]| | |]; try contradiction.
  - rewrite H. discriminate.
  - destruct H as (v & peg & c & xe & _ & _ & _ & _ & H). rewrite H. discriminate.
Qed.
End F.
