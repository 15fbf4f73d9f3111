(** The Levenberg-Marquardt solver: exact arithmetic, and the wrappers for LevMarFit. *)
From Coq Require Import ZArith List Bool Lia Reals Lra Permutation.
From Flocq Require Import Core.Core IEEE754.BinarySingleNaN.
From Verif Require Import Base Num Sums FloatFacts FloatOrder Stats_Model Stats_Spec Stats_Proof DE_Model LM_Model LM_Spec DE_Proof DE_FloatProof LM_Proof LM_FloatProof LM_QR LM_QRReal.
Import ListNotations.
Set Implicit Arguments. Unset Strict Implicit.
Local Open Scope R_scope.

Lemma machep_pos : 0 < MACHEP0 NumR < 1.
Proof.
  unfold MACHEP0. cbn [ndec NumR]. assert (0 < IZR (10 ^ 23)) by (apply IZR_lt; reflexivity).
  assert (IZR 22204460 < IZR (10 ^ 23)) by (apply IZR_lt; reflexivity). split.
  - apply Rdiv_lt_0_compat; lra.
  - apply Rmult_lt_reg_r with (IZR (10 ^ 23)); [lra|]. unfold Rdiv. rewrite Rmult_assoc, Rinv_l by lra. lra.
Qed.
Lemma R_up u y : nltb NumR u y = true -> nleb NumR (ulim1 NumR u) y = true.
Proof.
  intros H. apply Rltb_true in H. apply Rleb_true. unfold ulim1. pose proof machep_pos as M. set (e := MACHEP0 NumR) in *.
  cbn [nleb nofZ nsub nmul neqb NumR]. destruct (Rleb 0 u) eqn:A; [apply Rleb_true in A|apply Rleb_false in A];
    (destruct (Reqb u 0) eqn:B; [apply Reqb_true in B|apply Reqb_false in B]); nra.
Qed.
Lemma R_lo l y : nltb NumR y l = true -> nleb NumR y (llim1 NumR l) = true.
Proof.
  intros H. apply Rltb_true in H. apply Rleb_true. unfold llim1. pose proof machep_pos as M. set (e := MACHEP0 NumR) in *.
  cbn [nleb nofZ nadd nmul neqb NumR]. destruct (Rleb 0 l) eqn:A; [apply Rleb_true in A|apply Rleb_false in A];
    (destruct (Reqb l 0) eqn:B; [apply Reqb_true in B|apply Reqb_false in B]); nra.
Qed.
Lemma R_irr a : nltb NumR a a = false. Proof. apply Rltb_false. lra. Qed.
Lemma R_ord a b : nleb NumR a b = false -> nltb NumR a b = false.
Proof. intros H. apply Rleb_false in H. apply Rltb_false. lra. Qed.
Lemma R_trans a b c : nltb NumR a b = true -> nltb NumR b c = true -> nltb NumR a c = true.
Proof. intros A B. apply Rltb_true in A, B. apply Rltb_true. lra. Qed.
Lemma dec_pos z e : (0 < z)%Z -> (0 <= e)%Z -> 0 < ndec NumR z e.
Proof.
  intros Hz He. cbn [ndec NumR]. assert (0 < 10 ^ e)%Z by (apply Z.pow_pos_nonneg; lia).
  apply Rdiv_lt_0_compat; apply IZR_lt; lia.
Qed.
Lemma R_accept fnorm1 fnorm t1 t2 : 0 <= fnorm1 -> 0 <= fnorm ->
  let actred := if nltb NumR (nmul NumR (p1 NumR) fnorm1) fnorm
    then let temp := ndiv NumR fnorm1 fnorm in nsub NumR (nofZ NumR 1) (nmul NumR temp temp) else nneg NumR (nofZ NumR 1) in
  let prered := nadd NumR (nmul NumR t1 t1) (ndiv NumR (nmul NumR t2 t2) (p5 NumR)) in
  nleb NumR (p0001 NumR) (if neqb NumR prered (nofZ NumR 0) then nofZ NumR 0 else ndiv NumR actred prered) = true ->
  nltb NumR fnorm1 fnorm = true.
Proof.
  intros P1 P0 actred prered H. assert (Q1 : 0 < p1 NumR) by (apply dec_pos; lia). assert (Q5 : 0 < p5 NumR) by (apply dec_pos; lia).
  assert (Q4 : 0 < p0001 NumR) by (apply dec_pos; lia). apply Rleb_true in H. apply Rltb_true.
  assert (Pp : 0 <= prered).
  { unfold prered. cbn [nadd nmul ndiv NumR]. apply Rplus_le_le_0_compat; [nra|]. unfold Rdiv. apply Rmult_le_pos; [nra|]. left. now apply Rinv_0_lt_compat. }
  cbn [neqb nofZ NumR] in H. destruct (Reqb prered 0) eqn:E; [lra|]. apply Reqb_false in E.
  assert (Pa : 0 < actred).
  { cbn [ndiv NumR] in H. apply Rmult_lt_reg_r with (/ prered); [apply Rinv_0_lt_compat; lra|]. unfold Rdiv in H. lra. }
  unfold actred in Pa. cbn [nltb nmul nsub ndiv nneg nofZ NumR] in Pa.
  destruct (Rltb (p1 NumR * fnorm1) fnorm) eqn:L; [|lra]. apply Rltb_true in L.
  assert (F : 0 < fnorm) by nra. destruct (Rlt_le_dec fnorm1 fnorm) as [G|G]; [exact G|]. exfalso.
  cbv zeta in Pa. assert (1 <= fnorm1 / fnorm).
  { apply Rmult_le_reg_r with fnorm; [exact F|]. unfold Rdiv. rewrite Rmult_assoc, Rinv_l by lra. lra. }
  nra.
Qed.
Lemma R_norm v : 0 <= mp_enorm NumR v.
Proof. destruct (mp_enorm_bounds v) as ((A & _) & _). exact A. Qed.

Definition eps_default : R := sqrt (MACHEP0 NumR).

(** ---- numerical derivatives, exact arithmetic ---- *)
Lemma fd_exact eps (l : limits R) temp h : 0 < eps -> fd_step NumR eps (Some [l]) 0 temp = Ok h ->
  (limited0 l = true -> lim0 l <= temp) -> (limited1 l = true -> temp <= lim1 l) ->
  (limited0 l = true -> limited1 l = true -> forall x, lim0 l <= x <= lim1 l -> 2 * eps * Rabs x <= lim1 l - lim0 l /\ 2 * eps <= lim1 l - lim0 l) ->
  (limited0 l = true -> lim0 l <= temp + h) /\ (limited1 l = true -> temp + h <= lim1 l).
Proof.
  intros P E L0 L1 W. unfold fd_step in E. cbn [get nth_error bind nmul nabs neqb nofZ nsub nltb nneg NumR] in E.
  set (s := if Reqb (eps * Rabs temp) 0 then eps else eps * Rabs temp) in *.
  assert (Ps : 0 < s). { unfold s. destruct (Reqb (eps * Rabs temp) 0) eqn:Z; [exact P|]. apply Reqb_false in Z. pose proof (Rabs_pos temp). nra. }
  apply Ok_inj in E. destruct (limited1 l) eqn:E1; cbn [andb] in E.
  - destruct (Rltb (lim1 l - s) temp) eqn:C; [apply Rltb_true in C|apply Rltb_false in C]; subst h.
    + split; [|lra]. intros A. specialize (L0 A). specialize (L1 eq_refl). destruct (W A eq_refl temp (conj L0 L1)) as (W1 & W2).
      unfold s in *. destruct (Reqb (eps * Rabs temp) 0); lra.
    + split; [|lra]. intros A. specialize (L0 A). lra.
  - subst h. split; [|discriminate]. intros A. specialize (L0 A). lra.
Qed.

(** ---- the wrapper ---- *)
Section W.
Variable T : Type.
Variable N : Num T.
Variable funct : nat -> list T -> list T.
Variable interrupted : nat -> bool.
Variable fuel : nat.
Lemma rejected (m : Z) xall lims config info v r cs : (0 < m)%Z -> 
  mpfit N (mp_enorm N) funct interrupted fuel m (Z.of_nat (length xall)) xall (Some lims) config = Ok (info, v, r, cs) ->
  (exists j p, (j < length xall)%nat /\ nth_error lims j = Some p /\ fixed p = false) ->
  bad_limits (nltb N) (nleb N) lims xall -> (info = MP_ERR_BOUNDS \/ info = MP_ERR_INITBOUNDS) /\ v = xall /\ r = None /\ cs = [].
Proof.
  intros Hm E (j & p & Hj & Hp & Fp) (j' & p' & x' & Hp' & Hx' & Bad). unfold mpfit in E.
  assert (m <=? 0 = false)%Z as Em by (apply Z.leb_gt; lia). rewrite Em in E.
  assert (Z.of_nat (length xall) <=? 0 = false)%Z as En by (apply Z.leb_gt; lia). rewrite En in E.
  cbv zeta in E. rewrite Nat2Z.id in E. apply bind_Ok in E. destruct E as (ifree & Ei & E).
  destruct (free_indices_ok Ei) as (_ & Hin & _).
  assert (In j ifree) as Hj' by (apply Hin; split; [exact Hj|]; exists p; auto).
  destruct ifree as [|i0 ifree]; [destruct Hj'|]. cbn [length Nat.eqb] in E.
  apply bind_Ok in E. destruct E as (err & Ee & E). apply check_limits_ok in Ee. destruct err as [e|].
  - destruct Ee as (? & ? & ? & ? & ? & ? & Q). apply Ok_inj in E.
    pose proof (f_equal (fun t => fst (fst (fst t))) E) as E1. pose proof (f_equal (fun t => snd (fst (fst t))) E) as E2.
    pose proof (f_equal (fun t => snd (fst t)) E) as E3. pose proof (f_equal snd E) as E4. cbn [fst snd] in *. subst.
    split; [|auto]. tauto.
  - exfalso. assert (j' < length xall)%nat by (apply nth_error_Some; congruence).
    destruct (Ee j' p' x' H Hp' Hx') as (N1 & N2). tauto.
Qed.

Lemma decide_info conf s a p q info : decide N interrupted conf s a p q = Stop info -> (0 <= info)%Z.
Proof.
  unfold decide. cbv zeta. intros H.
  repeat match type of H with context [if ?c then _ else _] => destruct c; cbn in H; try discriminate H; try (injection H as <-; vm_compute; discriminate) end.
Qed.
Lemma run_info enorm m nfree ifree lims conf xall f : forall inside s s' c info,
  run N enorm funct interrupted m nfree ifree lims conf xall f inside s = Ok (s', c, info) -> info = MP_ERR_NAN \/ (0 <= info)%Z.
Proof.
  induction f as [|f IH]; intros inside s s' c info E; [discriminate|]. cbn [run] in E. destruct inside.
  - apply bind_Ok in E. destruct E as ([s1 nx] & E1 & E). destruct nx as [| |i].
    + eapply IH; eassumption.
    + eapply IH; eassumption.
    + apply Ok_inj in E. pose proof (f_equal snd E) as Q. cbn [snd] in Q. subst i. right.
      unfold inner_step in E1. repeat (apply bind_Ok in E1; let x := fresh "x" in let Hx := fresh "Hx" in destruct E1 as (x & Hx & E1); repeat match type of E1 with context [let '(_, _) := ?p in _] => is_var p; destruct p end).
      match type of E1 with (let '(_, _) := ?p in _) = _ => destruct p as [dl pr] end.
      apply bind_Ok in E1. destruct E1 as (s2 & _ & E1). apply Ok_inj in E1. pose proof (f_equal snd E1) as Q. cbn [snd] in Q. apply decide_info in Q. exact Q.
  - apply bind_Ok in E. destruct E as ([s1 e] & E1 & E). destruct e as [[cl i]|].
    + apply Ok_inj in E. pose proof (f_equal snd E) as Q. cbn [snd] in Q. subst i.
      unfold outer_step in E1. repeat (apply bind_Ok in E1; let x := fresh "x" in let Hx := fresh "Hx" in destruct E1 as (x & Hx & E1); repeat match type of E1 with context [let '(_, _) := ?p in _] => is_var p; destruct p end).
      match type of E1 with (if negb ?b then _ else _) = _ => destruct b end; cbn [negb] in E1.
      * apply bind_Ok in E1. destruct E1 as (g & _ & E1). cbv zeta in E1. destruct (nleb N g (gtol conf)).
        -- apply Ok_inj in E1. pose proof (f_equal snd E1) as Q. cbn [snd] in Q. injection Q as <- <-. right. vm_compute. discriminate.
        -- destruct (maxiter conf =? 0)%Z.
           ++ apply Ok_inj in E1. pose proof (f_equal snd E1) as Q. cbn [snd] in Q. injection Q as <- <-. right. vm_compute. discriminate.
           ++ apply bind_Ok in E1. destruct E1 as (dg & _ & E1). apply Ok_inj in E1. pose proof (f_equal snd E1) as Q. cbn [snd] in Q. discriminate.
      * apply Ok_inj in E1. pose proof (f_equal snd E1) as Q. cbn [snd] in Q. injection Q as <- <-. left. reflexivity.
    + eapply IH; eassumption.
Qed.

Lemma mpfit_codes enorm (m : Z) xall pars config info v r cs :
  mpfit N enorm funct interrupted fuel m (Z.of_nat (length xall)) xall pars config = Ok (info, v, r, cs) ->
  (info = MP_ERR_BOUNDS -> exists ps p, pars = Some ps /\ In p ps /\ empty_interval (nleb N) p) /\
  (info = MP_ERR_INITBOUNDS -> exists ps j p x, pars = Some ps /\ nth_error ps j = Some p /\ nth_error xall j = Some x /\ starts_outside (nltb N) p x).
Proof.
  intros E. unfold mpfit in E. rewrite Nat2Z.id in E.
  assert (EE : forall e, Ok (e, xall, None, []) = Ok (info, v, r, cs) -> info = e).
  { intros e Q. apply Ok_inj in Q. symmetry. exact (f_equal (fun t => fst (fst (fst t))) Q). }
  assert (Other : info <> MP_ERR_BOUNDS -> info <> MP_ERR_INITBOUNDS ->
    (info = MP_ERR_BOUNDS -> exists ps p, pars = Some ps /\ In p ps /\ empty_interval (nleb N) p) /\
    (info = MP_ERR_INITBOUNDS -> exists ps j p x, pars = Some ps /\ nth_error ps j = Some p /\ nth_error xall j = Some x /\ starts_outside (nltb N) p x)) by tauto.
  destruct (m <=? 0)%Z. { apply EE in E. apply Other; rewrite E; discriminate. }
  destruct (Z.of_nat (length xall) <=? 0)%Z. { apply EE in E. apply Other; rewrite E; discriminate. }
  cbv zeta in E. apply bind_Ok in E. destruct E as (ifree & Ei & E).
  destruct (length ifree =? 0)%nat. { apply EE in E. apply Other; rewrite E; discriminate. }
  apply bind_Ok in E. destruct E as (err & Ee & E). destruct err as [e|].
  { apply EE in E. subst e. destruct pars as [ps|]; [|discriminate]. apply check_limits_ok in Ee.
    destruct Ee as (j & p & x & Hj & Hp & Hx & [(-> & Q)|(-> & Q)]); split; intros H; try discriminate H.
    - exists ps, p. split; [reflexivity|]. split; [eapply nth_error_In; eassumption|exact Q].
    - exists ps, j, p, x. auto. }
  apply bind_Ok in E. destruct E as (lims & _ & E).
  match type of E with (if ?c then _ else _) = _ => destruct c end. { apply EE in E. apply Other; rewrite E; discriminate. }
  match type of E with (if ?c then _ else _) = _ => destruct c end. { apply EE in E. apply Other; rewrite E; discriminate. }
  unfold evaluate in E. apply bind_Ok in E. destruct E as (x0 & _ & E). apply bind_Ok in E. destruct E as ([[s c] i] & Er & E).
  apply run_info in Er. assert (i = info).
  { destruct c.
    - apply Ok_inj in E. exact (f_equal (fun t => fst (fst (fst t))) E).
    - do 4 (apply bind_Ok in E; destruct E as (? & _ & E)). apply Ok_inj in E. exact (f_equal (fun t => fst (fst (fst t))) E). }
  subst i. destruct Er as [->|Hi]; [apply Other; discriminate|]. apply Other; intros ->; apply Hi; reflexivity.
Qed.
End W.

Lemma epsfcn_default (T : Type) (N : Num T) ftol it fe np : nltb N (nofZ N 0) (nofZ N 0) = false ->
  let z := nofZ N 0 in epsfcn (merge_config N (mkConf ftol z z z z z it fe np)) = MACHEP0 N.
Proof. intros H z. unfold merge_config. cbn [epsfcn]. unfold z. now rewrite H. Qed.


(** the vectors used for numerical derivatives, exact arithmetic *)
Lemma derivative_within params lims ftol (limitsExist : bool) v :
  let pars := if limitsExist then Some lims else None in
  (forall l, In l lims -> fixed l = false -> limited0 l = true -> limited1 l = true ->
     2 * sqrt (22204460 / IZR (10 ^ 23)) * Rmax 1 (Rmax (Rabs (lim0 l)) (Rabs (lim1 l))) <= lim1 l - lim0 l) ->
  let z := nofZ NumR 0 in moved NumR params pars (merge_config NumR (mkConf ftol z z z z z 1000%Z 0%Z 0%Z)) v ->
  keeps pars params v /\ within Rltb pars v.
Proof.
  intros pars Wd z (base & j & l & temp & h & (Kl & K) & W & Hj & -> & Hm).
  assert (Hup : nth_error (upd base j (nadd NumR temp h)) j = Some (temp + h)).
  { rewrite nth_error_upd, Nat.eqb_refl. assert (j <? length base = true)%nat as -> by (apply Nat.ltb_lt, nth_error_Some; congruence). reflexivity. }
  assert (Hother : forall i, i <> j -> nth_error (upd base j (nadd NumR temp h)) i = nth_error base i).
  { intros i Hi. rewrite nth_error_upd. destruct (Nat.eqb_spec j i); [congruence|]. reflexivity. }
  destruct pars as [ps|] eqn:Ep.
  2:{ split; [split; [now rewrite upd_length|discriminate]|]. intros ps j' p x H. discriminate H. }
  assert (ps = lims) by (unfold pars in Ep; destruct limitsExist; congruence). subst ps.
  destruct Hm as (Hl & Fl & Hs).
  assert (Heps : nsqrt NumR (dmax1 NumR (epsfcn (merge_config NumR (mkConf ftol z z z z z 1000%Z 0%Z 0%Z))) (MACHEP0 NumR)) = sqrt (22204460 / IZR (10 ^ 23))).
  { rewrite epsfcn_default by apply R_irr. unfold dmax1. destruct (nleb NumR _ _); reflexivity. }
  rewrite Heps in Hs. clear Heps.
  set (eps := sqrt (22204460 / IZR (10 ^ 23))) in *.
  assert (Pe : 0 < eps) by (apply sqrt_lt_R0; apply Rdiv_lt_0_compat; [lra|apply IZR_lt; reflexivity]).
  destruct (W lims j l temp eq_refl Hl Hj Fl) as (W1 & W2).
  assert (L0 : limited0 l = true -> lim0 l <= temp) by (intros Q; apply Rltb_false; exact (W1 Q)).
  assert (L1 : limited1 l = true -> temp <= lim1 l) by (intros Q; apply Rltb_false; exact (W2 Q)).
  assert (Wl : limited0 l = true -> limited1 l = true -> forall x, lim0 l <= x <= lim1 l -> 2 * eps * Rabs x <= lim1 l - lim0 l /\ 2 * eps <= lim1 l - lim0 l).
  { intros Q0 Q1 x Hx. pose proof (Wd l (nth_error_In _ _ Hl) Fl Q0 Q1) as Wl.
    set (M := Rmax 1 (Rmax (Rabs (lim0 l)) (Rabs (lim1 l)))) in *.
    assert (M1 : 1 <= M) by apply Rmax_l.
    assert (Mx : Rabs x <= M).
    { apply Rle_trans with (Rmax (Rabs (lim0 l)) (Rabs (lim1 l))); [|apply Rmax_r].
      apply Rabs_le. pose proof (Rmax_l (Rabs (lim0 l)) (Rabs (lim1 l))). pose proof (Rmax_r (Rabs (lim0 l)) (Rabs (lim1 l))).
      pose proof (Rle_abs (lim1 l)). pose proof (Rle_abs (- lim0 l)). rewrite Rabs_Ropp in *. lra. }
    split; nra. }
  destruct (fd_exact Pe Hs L0 L1 Wl) as (A & B).
  split.
  - split; [now rewrite upd_length|]. intros ps i p [= <-] Hp Fp. rewrite Hother; [eapply K; eauto|]. intros ->. congruence.
  - intros ps i p x [= <-] Hp Hx Fp. destruct (Nat.eq_dec i j) as [->|Ne].
    + rewrite Hup in Hx. injection Hx as <-. assert (p = l) by congruence. subst p. split; intros Q; apply Rltb_false; auto.
    + rewrite Hother in Hx by assumption. exact (W lims i p x eq_refl Hp Hx Fp).
Qed.
Lemma eqb_exact (x y : F64) : f_eqb x y = true -> is_finite_strict y = true -> x = y.
Proof.
  intros H Fy. destruct y as [s'|s'| |s' m' e' Hy]; try discriminate Fy. clear Fy.
  destruct x as [s|s| |s m e Hx].
  - destruct s'; discriminate H.
  - destruct s, s'; discriminate H.
  - discriminate H.
  - unfold f_eqb in H. rewrite Beqb_correct in H by reflexivity. apply B2R_inj; [reflexivity|reflexivity|].
    destruct (Req_bool_spec (B2R (B754_finite s m e Hx : F64)) (B2R (B754_finite s' m' e' Hy : F64))); [assumption|discriminate].
Qed.
(** ---- QR with the program's norm ---- *)
Definition giant (m : nat) : R := 13040000000000000000 / INR m.
Lemma giant_pos m : (0 < m)%nat -> 0 < giant m.
Proof. intros H. apply lt_0_INR in H. apply Rdiv_lt_0_compat; lra. Qed.
Lemma enorm_small m s : (length s <= m)%nat -> Forall (fun x => Rabs x < giant m) s -> mp_enorm NumR s = sqrt (sum_of_squares s).
Proof.
  intros L F. apply mp_enorm_exact. left. destruct s as [|x s]; [constructor|]. set (l := x :: s) in *.
  eapply Forall_impl; [|exact F]. intros a Ha. cbv beta in Ha |- *. change (RGIANT NumR) with 13040000000000000000. eapply Rlt_le_trans; [exact Ha|]. unfold giant.
  assert (0 < INR (length l)) by (apply lt_0_INR; unfold l; cbn [length]; lia). apply le_INR in L.
  unfold Rdiv. apply Rmult_le_compat_l; [lra|]. now apply Rinv_le_contravar.
Qed.

Lemma col_norm m c : (0 < m)%nat -> length c = m -> inner m c c < giant m * giant m -> mp_enorm NumR c = sqrt (inner m c c).
Proof.
  intros Hm L H. pose proof (giant_pos Hm) as G. rewrite (@enorm_small m).
  - f_equal. pose proof (@sumsq_low m 0 c L (Nat.le_0_l m)) as Q. rewrite Nat.sub_0_r in Q. cbn [skipn] in Q. rewrite firstn_all2 in Q by lia.
    rewrite Q. unfold low, inner. apply rsum_ext. intros i _. reflexivity.
  - lia.
  - apply Forall_forall. intros x Hx. apply In_nth with (d := 0) in Hx. destruct Hx as (i & Hi & <-).
    pose proof (@ip_ge m i (ent c)) as Q. unfold ip, ent in Q. fold (inner m c c) in Q. rewrite <- L in Q at 1. specialize (Q Hi). apply Rabs_def1; nra.
Qed.
