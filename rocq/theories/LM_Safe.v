(** The two loops of mpfit(), solvers/mpfit.cpp:551-996, in any arithmetic: a pass of
    either loop always succeeds, and what it leaves in the local variables. *)
From Coq Require Import ZArith List Bool Lia Permutation.
From Verif Require Import Base Num Stats_Model DE_Model LM_Model DE_Proof LM_Proof LM_QR LM_Solve LM_Lmpar LM_Total.
Import ListNotations.
Set Implicit Arguments. Unset Strict Implicit.
Local Open Scope nat_scope.

Section G.
Variable T : Type.
Variable N : Num T.
Variable enorm : list T -> T.
Variable funct : nat -> list T -> list T.
Variable interrupted : nat -> bool.
Notation z := (nofZ N 0).
Notation one := (nofZ N 1).
Infix "+!" := (nadd N) (at level 50, left associativity).
Infix "*!" := (nmul N) (at level 40, left associativity).
Notation en := (@en T N).
Notation vn := (@vn T N).
Notation dg := (@dg T N).

Variable m n : nat.
Hypothesis NM : n <= m.
Hypothesis Hf : forall k v, length (funct k v) = m.
Variable ifree : list nat.
Variable lims : option (list (limits T)).
Variable conf : mp_config T.
Variable xall : list T.
Hypothesis Li : length ifree = n.
Hypothesis ND : NoDup ifree.
Hypothesis Bi : forall j, j < n -> nth j ifree 0 < length xall.
Hypothesis Hl : lims_fit n lims.

Definition sane (s : lm_state T) : Prop := length (s_x s) = n /\ length (s_fvec s) = m /\ length (s_diag s) = length xall.
Definition factored (s : lm_state T) : Prop := shape m n (s_fjac s) /\ perm n (s_ipvt s) /\ length (s_qtf s) = n.

Lemma places_len (diag : list T) : length diag = length xall -> places n ifree diag.
Proof. intros L. split; [exact Li|]. intros j Hj. rewrite L. now apply Bi. Qed.
Lemma any_limits_fit q : any_limits lims = Some q -> lims = Some q /\ n <= length q.
Proof.
  unfold any_limits. destruct lims as [l|]; [|discriminate]. destruct (existsb _ l); [|discriminate]. intros [= <-]. split; [reflexivity|exact Hl].
Qed.

Lemma outer_total s : sane s -> exists xnew J new Jp q rd wa2 diag1 s' e,
  spread n ifree (s_x s) xall = Ok xnew /\ length xnew = length xall /\ shape m n J /\ length new = n /\
  (forall j, j < n -> exists h, fd_step N (nsqrt N (dmax1 N (epsfcn conf) (MACHEP0 N))) lims j (vn xnew (nth j ifree 0)) = Ok h /\
      nth_error new j = Some (Derivative, fd_point N ifree xnew j h, funct (length (s_log s) + j) (fd_point N ifree xnew j h)) /\
      forall i, i < m -> vn (nth j J []) i = ndiv N (nsub N (vn (funct (length (s_log s) + j) (fd_point N ifree xnew j h)) i) (vn (s_fvec s) i)) h) /\
  shape m n Jp /\ match any_limits lims with None => Jp = J | Some ql => forall j, j < n -> exists sum,
      (lpeg N ql (s_x s) j || upeg N ql (s_x s) j = true -> dot N (s_fvec s) (nth j J []) 0 m = Ok sum) /\
      nth j Jp [] = if (lpeg N ql (s_x s) j && nltb N z sum) || (upeg N ql (s_x s) j && nltb N sum z) then zeros N m else nth j J [] end /\
  qrfac N enorm m n Jp = Ok (q, s_ipvt s', rd, wa2) /\ length rd = n /\ length wa2 = n /\ (forall j, j < n -> vn wa2 j = enorm (nth j Jp [])) /\
  apply_qt N m n q rd (s_fvec s) = Ok (s_fjac s', s_qtf s') /\
  length diag1 = length xall /\
  (if (s_iter s =? 1)%Z then (forall j, j < n -> dg ifree diag1 j = if neqb N (vn wa2 j) z then one else vn wa2 j) /\
      s_xnorm s' = enorm (map (fun j => dg ifree diag1 j *! vn (s_x s) j) (seq 0 n)) /\
      s_delta s' = (if neqb N (stepfactor conf *! s_xnorm s') z then stepfactor conf else stepfactor conf *! s_xnorm s')
   else diag1 = s_diag s /\ s_xnorm s' = s_xnorm s /\ s_delta s' = s_delta s) /\
  outer_step N enorm funct m n ifree lims conf xall s = Ok (s', e) /\
  s_x s' = s_x s /\ s_fvec s' = s_fvec s /\ s_fnorm s' = s_fnorm s /\ s_fnorm1 s' = s_fnorm1 s /\ s_par s' = s_par s /\ s_iter s' = s_iter s /\
  s_log s' = rev new ++ s_log s /\ factored s' /\ length (s_diag s') = length xall /\
  match e with
  | None => grad_norm N n (s_fjac s') (s_ipvt s') wa2 (s_qtf s') (s_fnorm s) = Ok (s_gnorm s') /\
      (forall j, j < n -> dg ifree (s_diag s') j = dmax1 N (dg ifree diag1 j) (vn wa2 j)) /\ nleb N (s_gnorm s') (gtol conf) = false
  | Some (true, i) => all_finite N n (s_fjac s') = Ok false /\ i = MP_ERR_NAN
  | Some (false, i) => grad_norm N n (s_fjac s') (s_ipvt s') wa2 (s_qtf s') (s_fnorm s) = Ok (s_gnorm s') /\ s_diag s' = diag1 /\
      (i = MP_OK_DIR /\ nleb N (s_gnorm s') (gtol conf) = true \/ i = 0%Z /\ maxiter conf = 0%Z)
  end.
Proof.
  intros (Lx & Lf & Ld). destruct (@spread_total T N m n NM ifree (s_x s) xall Li ltac:(lia) Bi) as (xnew & Ex & Lxn).
  destruct (@fdjac2_total T N funct m n NM Hf ifree xnew (s_fvec s) (epsfcn conf) lims (s_log s) Li ltac:(rewrite Lxn; exact Bi) ltac:(lia) Hl) as (J & new & EJ & SJ & Ln & PJ).
  assert (Hp : exists Jp, match any_limits lims with None => Ok J | Some q => peg_columns N m n q (s_x s) (s_fvec s) J end = Ok Jp /\ shape m n Jp /\
     match any_limits lims with None => Jp = J | Some ql => forall j, j < n -> exists sum,
      (lpeg N ql (s_x s) j || upeg N ql (s_x s) j = true -> dot N (s_fvec s) (nth j J []) 0 m = Ok sum) /\
      nth j Jp [] = if (lpeg N ql (s_x s) j && nltb N z sum) || (upeg N ql (s_x s) j && nltb N sum z) then zeros N m else nth j J [] end).
  { destruct (any_limits lims) as [ql|] eqn:Ea; [|exists J; auto]. destruct (any_limits_fit Ea) as (_ & Lq).
    destruct (@peg_total T N m n NM ql (s_x s) (s_fvec s) J Lq ltac:(lia) ltac:(lia) SJ) as (Jp & -> & SJp & P). exists Jp. auto. }
  destruct Hp as (Jp & Ep & SJp & PJp).
  destruct (@qrfac_ok T N enorm m n Jp SJp) as (q & ip & rd & wa2 & Eq & Sq & Pp & Lrd & Lwa2 & Pwa2).
  destruct (@apply_qt_total T N m n NM q rd (s_fvec s) Sq Lrd Lf) as (r & qtf & Er & Sr & Lqt).
  destruct (@all_finite_total T N m n NM r Sr) as (fin & Efin).
  destruct (@grad_norm_total T N m n NM r ip wa2 qtf (s_fnorm s) Sr Pp Lwa2 Lqt) as (g & Eg).
  assert (Hd : exists diag1 xn dl, (if (s_iter s =? 1)%Z then
      do diag <- initial_diag N n ifree wa2 (s_diag s);
      do wa3 <- scaled N n ifree diag (s_x s);
      let xnorm := enorm wa3 in
      let delta := stepfactor conf *! xnorm in
      Ok (diag, xnorm, if neqb N delta z then stepfactor conf else delta)
    else Ok (s_diag s, s_xnorm s, s_delta s)) = Ok (diag1, xn, dl) /\ length diag1 = length xall /\
    (if (s_iter s =? 1)%Z then (forall j, j < n -> dg ifree diag1 j = if neqb N (vn wa2 j) z then one else vn wa2 j) /\
      xn = enorm (map (fun j => dg ifree diag1 j *! vn (s_x s) j) (seq 0 n)) /\
      dl = (if neqb N (stepfactor conf *! xn) z then stepfactor conf else stepfactor conf *! xn)
     else diag1 = s_diag s /\ xn = s_xnorm s /\ dl = s_delta s)).
  { destruct (s_iter s =? 1)%Z; [|exists (s_diag s), (s_xnorm s), (s_delta s); auto].
    destruct (@initial_diag_total T N m n NM ifree wa2 (s_diag s) ND (places_len Ld) Lwa2) as (d & -> & Ld1 & Pd). cbn [bind]. rewrite Ld in Ld1.
    rewrite (@scaled_ok T N m n NM ifree d (s_x s) (places_len Ld1) Lx). cbn [bind]. cbv zeta. do 3 eexists. split; [reflexivity|]. auto. }
  destruct Hd as (diag1 & xn & dl & Ed & Ld1 & Pd).
  destruct (@rescale_total T N m n NM ifree wa2 diag1 ND (places_len Ld1) Lwa2) as (d2 & Ed2 & Ld2 & Pd2).
  assert (V : forall j, j < n -> vn wa2 j = enorm (nth j Jp [])) by (intros j Hj; apply Pwa2; exact Hj).
  set (mk := fun diag g => mkLM (s_x s) (s_fvec s) (s_fnorm s) (s_fnorm1 s) (s_par s) dl xn (s_iter s) diag r ip qtf g (rev new ++ s_log s)).
  exists xnew, J, new, Jp, q, rd, wa2, diag1.
  assert (E : outer_step N enorm funct m n ifree lims conf xall s =
    if negb fin then Ok (mk diag1 (s_gnorm s), Some (true, MP_ERR_NAN)) else
    if nleb N g (gtol conf) then Ok (mk diag1 g, Some (false, MP_OK_DIR)) else if (maxiter conf =? 0)%Z then Ok (mk diag1 g, Some (false, 0%Z)) else Ok (mk d2 g, None)).
  { unfold outer_step. rewrite Ex. cbn [bind]. rewrite EJ. cbn [bind]. rewrite Ep. cbn [bind]. rewrite Eq. cbn [bind].
    match goal with |- bind ?X _ = _ => replace X with (Ok (diag1, xn, dl)) by (symmetry; exact Ed) end. cbn [bind]. rewrite Er. cbn [bind].
    rewrite Efin. cbn [bind]. destruct (negb fin); [reflexivity|]. rewrite Eg. cbn [bind]. destruct (nleb N g (gtol conf)); [reflexivity|].
    destruct (maxiter conf =? 0)%Z; [reflexivity|]. rewrite Ed2. reflexivity. }
  assert (K : forall dd gg, length dd = length xall -> factored (mk dd gg) /\ length (s_diag (mk dd gg)) = length xall).
  { intros dd gg Ldd. split; [split; [exact Sr|split; [exact Pp|exact Lqt]]|exact Ldd]. }
  destruct (negb fin) eqn:Nf; [|destruct (nleb N g (gtol conf)) eqn:Gt; [|destruct (maxiter conf =? 0)%Z eqn:Mx]].
  - destruct (K diag1 (s_gnorm s) Ld1) as (K1 & K2). exists (mk diag1 (s_gnorm s)), (Some (true, MP_ERR_NAN)). apply negb_true_iff in Nf. subst fin. repeat (split; [assumption||reflexivity|]). reflexivity.
  - destruct (K diag1 g Ld1) as (K1 & K2). exists (mk diag1 g), (Some (false, MP_OK_DIR)). repeat (split; [assumption||reflexivity|]). left. split; [reflexivity|exact Gt].
  - destruct (K diag1 g Ld1) as (K1 & K2). exists (mk diag1 g), (Some (false, 0%Z)). repeat (split; [assumption||reflexivity|]). right. split; [reflexivity|now apply Z.eqb_eq].
  - destruct (K d2 g ltac:(lia)) as (K1 & K2). exists (mk d2 g), None. repeat (split; [assumption||reflexivity|]). exact Gt.
Qed.

(** what the inner loop does with the direction found by mp_lmpar() *)
Lemma inner_total s : sane s -> factored s -> exists r' par' p w1 y alpha xnew wr s' nx,
  lmpar N enorm n (s_fjac s) (s_ipvt s) ifree (s_diag s) (s_qtf s) (s_delta s) (s_par s) = Ok (r', par', p) /\ shape m n r' /\ length p = n /\
  (let neg := map (fun j => nneg N (vn p j)) (seq 0 n) in
   match any_limits lims with
   | None => w1 = neg /\ y = map (fun j => vn (s_x s) j +! vn neg j) (seq 0 n) /\ alpha = one
   | Some q => exists w0, limit_step N n q (s_x s) neg = Ok (w0, alpha) /\ length w0 = n /\ move N n q (s_x s) w0 alpha = Ok (w1, y)
   end) /\ length w1 = n /\ length y = n /\
  spread n ifree y xall = Ok xnew /\ length xnew = length xall /\ r_times N n r' (s_ipvt s) w1 = Ok wr /\
  inner_step N enorm funct interrupted n ifree lims conf xall s = Ok (s', nx) /\
  (let g := funct (length (s_log s)) xnew in
   let pnorm := enorm (map (fun j => dg ifree (s_diag s) j *! vn w1 j) (seq 0 n)) in
   let delta := if (s_iter s =? 1)%Z then dmin1 N (s_delta s) pnorm else s_delta s in
   let actred := if nltb N (p1 N *! enorm g) (s_fnorm s) then let temp := ndiv N (enorm g) (s_fnorm s) in nsub N one (temp *! temp) else nneg N one in
   let temp1 := ndiv N (enorm wr *! alpha) (s_fnorm s) in
   let temp2 := ndiv N (nsqrt N (alpha *! par') *! pnorm) (s_fnorm s) in
   let prered := temp1 *! temp1 +! ndiv N (temp2 *! temp2) (p5 N) in
   let dirder := nneg N (temp1 *! temp1 +! temp2 *! temp2) in
   let ratio := if neqb N prered z then z else ndiv N actred prered in
   let t0 := if nleb N z actred then p5 N else ndiv N (p5 N *! dirder) (dirder +! p5 N *! actred) in
   let t1 := if nleb N (s_fnorm s) (p1 N *! enorm g) || nltb N t0 (p1 N) then p1 N else t0 in
   s_log s' = (Trial, xnew, g) :: s_log s /\ s_fnorm1 s' = enorm g /\
   s_fjac s' = r' /\ s_ipvt s' = s_ipvt s /\ s_qtf s' = s_qtf s /\ s_diag s' = s_diag s /\ s_gnorm s' = s_gnorm s /\
   s_delta s' = (if nleb N ratio (p25 N) then t1 *! dmin1 N delta (ndiv N pnorm (p1 N)) else if neqb N par' z || nleb N (p75 N) ratio then ndiv N pnorm (p5 N) else delta) /\
   s_par s' = (if nleb N ratio (p25 N) then ndiv N par' t1 else if neqb N par' z || nleb N (p75 N) ratio then p5 N *! par' else par') /\
   (if nleb N (p0001 N) ratio then s_x s' = y /\ s_fvec s' = g /\ s_fnorm s' = enorm g /\ s_iter s' = (s_iter s + 1)%Z /\
       s_xnorm s' = enorm (map (fun j => dg ifree (s_diag s) j *! vn y j) (seq 0 n))
     else s_x s' = s_x s /\ s_fvec s' = s_fvec s /\ s_fnorm s' = s_fnorm s /\ s_iter s' = s_iter s /\ s_xnorm s' = s_xnorm s) /\
   nx = decide N interrupted conf s' actred prered ratio).
Proof.
  intros (Lx & Lf & Ld) (Sr & Pp & Lq). pose proof (places_len Ld) as Pl.
  destruct (@lmpar_ok T N enorm m n NM (fun _ => True) (fun _ => True) (fun _ => True) (fun _ => True) (s_fjac s) (s_ipvt s) ifree (s_diag s) (s_qtf s) (s_delta s) (s_par s) Sr Pp Pl ltac:(lia)) as (r' & par' & p & El & Sr' & Lp & _); try (intros; exact I).
  set (neg := map (fun j => nneg N (vn p j)) (seq 0 n)).
  assert (En : for_ n (fun j w => do v <- get p j; Ok (w ++ [nneg N v])) [] = Ok neg).
  { apply (@build_ok T (fun j => nneg N (vn p j))). intros i w Hi. rewrite (@get_vn T N p i) by lia. reflexivity. }
  assert (Lneg : length neg = n) by (unfold neg; rewrite map_length, seq_length; reflexivity).
  assert (Hm : exists w1 y alpha, match any_limits lims with
    | None => do wa2 <- for_ n (fun j w => do xj <- get (s_x s) j; do v <- get neg j; Ok (w ++ [xj +! v])) []; Ok (neg, wa2, one)
    | Some ls => do q <- limit_step N n ls (s_x s) neg; let '(wa1, alpha) := q in do q <- move N n ls (s_x s) wa1 alpha; let '(wa1, wa2) := q in Ok (wa1, wa2, alpha) end = Ok (w1, y, alpha) /\
    match any_limits lims with
    | None => w1 = neg /\ y = map (fun j => vn (s_x s) j +! vn neg j) (seq 0 n) /\ alpha = one
    | Some q => exists w0, limit_step N n q (s_x s) neg = Ok (w0, alpha) /\ length w0 = n /\ move N n q (s_x s) w0 alpha = Ok (w1, y) end /\ length w1 = n /\ length y = n).
  { destruct (any_limits lims) as [ls|] eqn:Ea.
    - destruct (any_limits_fit Ea) as (_ & Lls). destruct (@limit_step_total T N m n NM ls (s_x s) neg Lls ltac:(lia) Lneg) as (w0 & al & E0 & L0).
      destruct (@move_total T N m n NM ls (s_x s) w0 al Lls ltac:(lia) L0) as (w1 & y & E1 & L1 & Ly). exists w1, y, al. rewrite E0. cbn [bind]. rewrite E1. cbn [bind].
      split; [reflexivity|]. split; [exists w0; auto|auto].
    - rewrite (@build_ok T (fun j => vn (s_x s) j +! vn neg j)).
      2:{ intros i w Hi. rewrite (@get_vn T N (s_x s) i) by lia. cbn [bind]. rewrite (@get_vn T N neg i) by lia. reflexivity. }
      cbn [bind]. do 3 eexists. split; [reflexivity|]. split; [auto|]. split; [exact Lneg|]. rewrite map_length, seq_length. reflexivity. }
  destruct Hm as (w1 & y & alpha & Em & Pm & Lw1 & Ly).
  destruct (@spread_total T N m n NM ifree y xall Li ltac:(lia) Bi) as (xnew & Ex & Lxn).
  destruct (@r_times_total T N m n NM r' (s_ipvt s) w1 Sr' Pp Lw1) as (wr & Er & _).
  exists r', par', p, w1, y, alpha, xnew, wr.
  unfold inner_step. rewrite El. cbn [bind]. rewrite En. cbn [bind]. rewrite Em. cbn [bind]. rewrite (@scaled_ok T N m n NM ifree (s_diag s) w1 Pl Lw1). cbn [bind]. rewrite Ex. cbn [bind].
  unfold evaluate. rewrite Er. cbn [bind]. rewrite (@scaled_ok T N m n NM ifree (s_diag s) y Pl Ly). cbn [bind].
  cbv zeta. fold neg.
  set (g := funct (length (s_log s)) xnew). set (pn := enorm (map (fun j => dg ifree (s_diag s) j *! vn w1 j) (seq 0 n))).
  set (delta := if (s_iter s =? 1)%Z then dmin1 N (s_delta s) pn else s_delta s).
  set (actred := if nltb N (p1 N *! enorm g) (s_fnorm s) then _ else _).
  set (t1 := ndiv N (enorm wr *! alpha) (s_fnorm s)). set (t2 := ndiv N (nsqrt N (alpha *! par') *! pn) (s_fnorm s)).
  set (prered := t1 *! t1 +! ndiv N (t2 *! t2) (p5 N)). set (dirder := nneg N (t1 *! t1 +! t2 *! t2)). set (ratio := if neqb N prered z then z else ndiv N actred prered).
  destruct (nleb N ratio (p25 N)); [|destruct (neqb N par' z || nleb N (p75 N) ratio)]; (destruct (nleb N (p0001 N) ratio) eqn:Acc; cbn [bind]); do 2 eexists;
    repeat (split; [eassumption||reflexivity||(repeat (split; [reflexivity|]); reflexivity)|]); reflexivity.
Qed.

Lemma sane_outer s s' e : sane s -> outer_step N enorm funct m n ifree lims conf xall s = Ok (s', e) -> sane s' /\ factored s'.
Proof.
  intros Sa E. destruct (outer_total Sa) as (? & ? & ? & ? & ? & ? & ? & ? & s1 & e1 & _ & _ & _ & _ & _ & _ & _ & _ & _ & _ & _ & _ & _ & _ & E1 & Ex & Ef & _ & _ & _ & _ & _ & F & Ld & _).
  rewrite E in E1. apply Ok_inj in E1. injection E1 as -> ->. split; [|exact F]. destruct Sa as (A & B & C). split; [now rewrite Ex|]. split; [now rewrite Ef|exact Ld].
Qed.
Lemma sane_inner s s' nx : sane s -> factored s -> inner_step N enorm funct interrupted n ifree lims conf xall s = Ok (s', nx) -> sane s' /\ factored s'.
Proof.
  intros Sa F E. destruct (inner_total Sa F) as (r' & par' & p & w1 & y & alpha & xnew & wr & s1 & n1 & _ & Sr & _ & _ & _ & Ly & _ & _ & _ & E1 & P). cbv zeta in P.
  rewrite E in E1. apply Ok_inj in E1. injection E1 as -> ->. destruct P as (_ & _ & Efj & Eip & Eq & Ed & _ & _ & _ & Acc & _). destruct Sa as (A & B & C). destruct F as (_ & F2 & F3).
  split.
  - match type of Acc with (if ?b then _ else _) => destruct b end; destruct Acc as (Q1 & Q2 & _); (split; [rewrite Q1; assumption|]); (split; [rewrite Q2; try apply Hf; assumption|]); rewrite Ed; exact C.
  - split; [rewrite Efj; exact Sr|]. split; [rewrite Eip; exact F2|rewrite Eq; exact F3].
Qed.

Lemma run_total f : forall inside s, sane s -> (inside = true -> factored s) ->
  run N enorm funct interrupted m n ifree lims conf xall f inside s = Fuel \/
  exists s' c i, run N enorm funct interrupted m n ifree lims conf xall f inside s = Ok (s', c, i) /\ sane s' /\ factored s'.
Proof.
  induction f as [|f IH]; intros inside s Sa F; [left; reflexivity|]. cbn [run]. destruct inside.
  - specialize (F eq_refl). destruct (inner_total Sa F) as (r' & par' & p & w1 & y & alpha & xnew & wr & s1 & n1 & _ & _ & _ & _ & _ & _ & _ & _ & _ & E1 & _).
    rewrite E1. cbn [bind]. destruct (sane_inner Sa F E1) as (Sa1 & F1). destruct n1; [apply IH; auto|apply IH; auto|]. right. exists s1, false, info. auto.
  - destruct (outer_total Sa) as (? & ? & ? & ? & ? & ? & ? & ? & s1 & e1 & _ & _ & _ & _ & _ & _ & _ & _ & _ & _ & _ & _ & _ & _ & E1 & _).
    rewrite E1. cbn [bind]. destruct (sane_outer Sa E1) as (Sa1 & F1). destruct e1 as [[c i]|]; [|apply IH; auto]. right. exists s1, c, i. auto.
Qed.
End G.
