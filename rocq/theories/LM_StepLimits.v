(** Exact arithmetic: limits, difference quotients and columns of blocked parameters. *)
From Coq Require Import ZArith List Bool Lia Reals Lra Permutation.
From Verif Require Import Base Num Sums Stats_Model Stats_Spec Stats_Proof DE_Model LM_Model LM_Spec LM_StepSpec DE_Proof LM_Proof LM_QR LM_QRReal LM_RealProof LM_Solve LM_SolveReal LM_Lmpar LM_LmparReal LM_Total LM_Safe LM_StepMath.
Import ListNotations.
Set Implicit Arguments. Unset Strict Implicit.
Local Open Scope R_scope.

Lemma eps_mach : MACHEP0 NumR = eps. Proof. reflexivity. Qed.
Lemma eps_pos : 0 < eps < 1. Proof. rewrite <- eps_mach. apply machep_pos. Qed.

Definition inside (l : limits R) (x : R) : Prop := (limited0 l = true -> lim0 l <= x) /\ (limited1 l = true -> x <= lim1 l).
Lemma inside_in l x : in_lims NumR l x -> inside l x.
Proof. intros (A & B). split; intros H; [specialize (A H)|specialize (B H)]; [apply Rltb_false in A|apply Rltb_false in B]; lra. Qed.

(** ---- one component of the limited step ---- *)
Definition lw (l : limits R) (x w : R) : R :=
  let w1 := if limited0 l && Rleb x (lim0 l) && Rltb w 0 then 0 else w in
  if limited1 l && Rleb (lim1 l) x && Rltb 0 w1 then 0 else w1.
Definition la (l : limits R) (x w a : R) : R :=
  let d := Rltb (MACHEP0 NumR) (Rabs w) in let w := lw l x w in
  let a := if d && limited0 l && Rltb (x + w) (lim0 l) then dmin1 NumR a ((lim0 l - x) / w) else a in
  if d && limited1 l && Rltb (lim1 l) (x + w) then dmin1 NumR a ((lim1 l - x) / w) else a.

Lemma lw_out l x w : inside l x -> (outward (Some l) x w -> lw l x w = 0) /\ (~ outward (Some l) x w -> lw l x w = w).
Proof.
  intros (I0 & I1). unfold lw.
  destruct (limited0 l && Rleb x (lim0 l) && Rltb w 0) eqn:E1.
  - apply andb_true_iff in E1. destruct E1 as (E1 & E3). apply andb_true_iff in E1. destruct E1 as (E1 & E2). apply Rleb_true in E2. apply Rltb_true in E3.
    assert (H0 : Rltb 0 0 = false) by (apply Rltb_false; lra). rewrite H0, andb_false_r. split; [reflexivity|]. intros NO. exfalso. apply NO. exists l. split; [reflexivity|]. left. auto.
  - destruct (limited1 l && Rleb (lim1 l) x && Rltb 0 w) eqn:E2.
    + apply andb_true_iff in E2. destruct E2 as (E2 & E4). apply andb_true_iff in E2. destruct E2 as (E2 & E3). apply Rleb_true in E3. apply Rltb_true in E4.
      split; [reflexivity|]. intros NO. exfalso. apply NO. exists l. split; [reflexivity|]. right. auto.
    + split; [|reflexivity]. intros (l' & Q & [(A & B & C)|(A & B & C)]); injection Q as <-.
      * rewrite A in E1. apply Rleb_true in B. apply Rltb_true in C. rewrite B, C in E1. discriminate.
      * rewrite A in E2. apply Rleb_true in B. apply Rltb_true in C. rewrite B, C in E2. discriminate.
Qed.

Lemma div_neg a b : a < 0 -> b < 0 -> 0 < a / b.
Proof. intros A B. replace (a / b) with ((- a) / (- b)) by (field; lra). apply Rdiv_lt_0_compat; lra. Qed.

Lemma la_ok l x w a : inside l x -> 0 < a <= 1 -> let w' := lw l x w in let a' := la l x w a in
  0 < a' <= a /\ (eps < Rabs w -> (limited0 l = true -> lim0 l <= x + a' * w') /\ (limited1 l = true -> x + a' * w' <= lim1 l)) /\
  (a' = a \/ (eps < Rabs w /\ is_limit (Some l) (x + a' * w'))).
Proof.
  intros HI Ha. pose proof HI as (I0 & I1). cbv zeta. unfold la. fold eps. rewrite eps_mach. cbv zeta.
  destruct (lw_out w HI) as (LO & LN). set (w' := lw l x w) in *.
  assert (N0 : limited0 l = true -> x = lim0 l -> 0 <= w').
  { intros A B. destruct (Rlt_le_dec w 0) as [H|H].
    - rewrite LO; [lra|]. exists l. split; [reflexivity|]. left. repeat split; auto; lra.
    - assert (W : w' = 0 \/ w' = w). { unfold w', lw. destruct (limited0 l && Rleb x (lim0 l) && Rltb w 0); destruct (limited1 l && Rleb (lim1 l) x && _); auto. }
      destruct W; lra. }
  assert (N1 : limited1 l = true -> x = lim1 l -> w' <= 0).
  { intros A B. destruct (Rlt_le_dec 0 w) as [H|H].
    - rewrite LO; [lra|]. exists l. split; [reflexivity|]. right. repeat split; auto; lra.
    - assert (W : w' = 0 \/ w' = w). { unfold w', lw. destruct (limited0 l && Rleb x (lim0 l) && Rltb w 0); destruct (limited1 l && Rleb (lim1 l) x && _); auto. }
      destruct W; lra. }
  destruct (Rltb eps (Rabs w)) eqn:D; cbn [andb].
  2:{ apply Rltb_false in D. split; [lra|]. split; [intros; lra|]. left; reflexivity. }
  apply Rltb_true in D.
  (* lower limit *)
  assert (Step0 : exists a0, (if limited0 l && Rltb (x + w') (lim0 l) then dmin1 NumR a ((lim0 l - x) / w') else a) = a0 /\ 0 < a0 <= a /\
     (limited0 l = true -> lim0 l <= x + a0 * w') /\ (a0 = a \/ (w' < 0 /\ is_limit (Some l) (x + a0 * w')))).
  { eexists. split; [reflexivity|]. destruct (limited0 l) eqn:L0; cbn [andb].
    2:{ split; [lra|]. split; [discriminate|]. left; reflexivity. }
    specialize (I0 eq_refl). specialize (N0 eq_refl). destruct (Rltb (x + w') (lim0 l)) eqn:E.
    - apply Rltb_true in E. assert (w' < 0) by lra. assert (x <> lim0 l) by (intros Q; specialize (N0 Q); lra).
      assert (P : 0 < (lim0 l - x) / w') by (apply div_neg; lra). unfold dmin1. cbn [nleb NumR]. destruct (Rleb a ((lim0 l - x) / w')) eqn:E2.
      + apply Rleb_true in E2. split; [lra|]. split; [|left; reflexivity]. intros _.
        assert (a * w' >= (lim0 l - x) / w' * w') by nra. replace ((lim0 l - x) / w' * w') with (lim0 l - x) in H1 by (field; lra). lra.
      + apply Rleb_false in E2. split; [lra|]. replace (x + (lim0 l - x) / w' * w') with (lim0 l) by (field; lra). split; [intros; lra|].
        right. split; [assumption|]. exists l. split; [reflexivity|]. left. auto.
    - apply Rltb_false in E. split; [lra|]. split; [|left; reflexivity]. intros _. destruct (Rlt_le_dec w' 0); nra. }
  destruct Step0 as (a0 & -> & Ha0 & C0 & T0).
  destruct (limited1 l) eqn:L1; cbn [andb].
  2:{ split; [lra|]. split; [intros _; split; [exact C0|discriminate]|]. destruct T0 as [->|(_ & T0)]; [left; reflexivity|right; split; assumption]. }
  specialize (I1 eq_refl). specialize (N1 eq_refl). destruct (Rltb (lim1 l) (x + w')) eqn:E.
  - apply Rltb_true in E. assert (0 < w') by lra. assert (x <> lim1 l) by (intros Q; specialize (N1 Q); lra).
    assert (P : 0 < (lim1 l - x) / w') by (apply Rdiv_lt_0_compat; lra). destruct T0 as [->|(T0 & _)]; [|lra].
    unfold dmin1. cbn [nleb NumR]. destruct (Rleb a ((lim1 l - x) / w')) eqn:E2.
    + apply Rleb_true in E2. split; [lra|]. split; [|left; reflexivity]. intros _. split; [exact C0|]. intros _.
      assert (a * w' <= (lim1 l - x) / w' * w') by nra. replace ((lim1 l - x) / w' * w') with (lim1 l - x) in H1 by (field; lra). lra.
    + apply Rleb_false in E2. split; [lra|]. replace (x + (lim1 l - x) / w' * w') with (lim1 l) by (field; lra). split.
      * intros _. split; [|intros; lra]. intros L0. specialize (I0 L0). lra.
      * right. split; [assumption|]. exists l. split; [reflexivity|]. right. auto.
  - apply Rltb_false in E. split; [lra|]. split.
    + intros _. split; [exact C0|]. intros _. destruct (Rlt_le_dec 0 w'); nra.
    + destruct T0 as [->|(_ & T0)]; [left; reflexivity|right; split; assumption].
Qed.

(** containment is kept when the step is shortened *)
Lemma shorter x w a b lo : 0 < a <= b -> lo <= x -> lo <= x + b * w -> lo <= x + a * w.
Proof. intros A B C. destruct (Rlt_le_dec w 0); nra. Qed.
Lemma shorter' x w a b hi : 0 < a <= b -> x <= hi -> x + b * w <= hi -> x + a * w <= hi.
Proof. intros A B C. destruct (Rlt_le_dec 0 w); nra. Qed.

Section L.
Variable n : nat.

Lemma limit_step_real q x wa w0 alpha : (n <= length q)%nat -> (n <= length x)%nat -> length wa = n ->
  (forall j l, (j < n)%nat -> nth_error q j = Some l -> inside l (vn x j)) ->
  limit_step NumR n q x wa = Ok (w0, alpha) ->
  length w0 = n /\ 0 < alpha <= 1 /\
  (forall j l, (j < n)%nat -> nth_error q j = Some l -> vn w0 j = lw l (vn x j) (vn wa j) /\
     (eps < Rabs (vn wa j) -> (limited0 l = true -> lim0 l <= vn x j + alpha * vn w0 j) /\ (limited1 l = true -> vn x j + alpha * vn w0 j <= lim1 l))) /\
  (alpha = 1 \/ exists j, (j < n)%nat /\ eps < Rabs (vn wa j) /\ is_limit (nth_error q j) (vn x j + alpha * vn w0 j)).
Proof.
  intros Lq Lx Lw HI E. unfold limit_step in E.
  assert (H := fun A B => @for_ok (list R * R) (fun k '(w, a) => length w = n /\ 0 < a <= 1 /\ (forall j, (k <= j)%nat -> vn w j = vn wa j) /\
    (forall j l, (j < k)%nat -> nth_error q j = Some l -> vn w j = lw l (vn x j) (vn wa j) /\
     (eps < Rabs (vn wa j) -> (limited0 l = true -> lim0 l <= vn x j + a * vn w j) /\ (limited1 l = true -> vn x j + a * vn w j <= lim1 l))) /\
    (a = 1 \/ exists j, (j < k)%nat /\ eps < Rabs (vn wa j) /\ is_limit (nth_error q j) (vn x j + a * vn w j))) _ _ _ _ A B E). cbv beta in H.
  cbv beta iota in H.
  destruct H as (H1 & H2 & _ & H3 & H4).
  - split; [exact Lw|]. split; [cbn [nofZ NumR]; lra|]. split; [reflexivity|]. split; [intros; lia|]. left; reflexivity.
  - intros k (w, a) (w1, a1) Hk (L & Ha & Later & Conj & Hit) E1. cbv beta iota in E1.
    destruct (nth_error q k) as [l|] eqn:El; [|apply nth_error_None in El; lia].
    assert (Gl : get q k = Ok l) by (unfold get; now rewrite El). rewrite Gl in E1. cbn [bind] in E1.
    rewrite (@get_vn R NumR x k ltac:(lia)) in E1. cbn [bind] in E1.
    rewrite (@get_vn R NumR w k ltac:(lia)) in E1. cbn [bind] in E1. rewrite (Later k (le_n _)) in E1.
    cbn [nleb nltb nabs nofZ nadd nsub ndiv NumR] in E1.
    change (if limited1 l && Rleb (lim1 l) (vn x k) && Rltb 0 (if limited0 l && Rleb (vn x k) (lim0 l) && Rltb (vn wa k) 0 then 0 else vn wa k) then 0
      else if limited0 l && Rleb (vn x k) (lim0 l) && Rltb (vn wa k) 0 then 0 else vn wa k) with (lw l (vn x k) (vn wa k)) in E1.
    destruct (@set_vn R NumR w k (lw l (vn x k) (vn wa k)) ltac:(lia)) as (w' & Es & Lw' & Vw). rewrite Es in E1. cbn [bind] in E1.
    apply Ok_inj in E1. injection E1 as E1 E2. subst w1.
    change (la l (vn x k) (vn wa k) a = a1) in E2.
    pose proof (HI k l Hk El) as Ik. destruct (@la_ok l (vn x k) (vn wa k) a Ik Ha) as (A1 & A2 & A3). rewrite E2 in A1, A2, A3. clear E2.
    assert (Vk : vn w' k = lw l (vn x k) (vn wa k)) by (rewrite Vw, Nat.eqb_refl; reflexivity).
    assert (Vo : forall j, j <> k -> vn w' j = vn w j) by (intros j Hj; rewrite Vw; destruct (Nat.eqb_spec j k); [congruence|reflexivity]).
    split; [lia|]. split; [lra|]. split; [intros j Hj; rewrite Vo by lia; apply Later; lia|]. split.
    + intros j l0 Hj El0. destruct (Nat.eq_dec j k) as [->|Hne].
      * rewrite El in El0. injection El0 as <-. rewrite Vk. split; [reflexivity|exact A2].
      * rewrite Vo by exact Hne. destruct (Conj j l0 ltac:(lia) El0) as (C1 & C2). split; [exact C1|]. intros He. destruct (C2 He) as (C3 & C4).
        pose proof (HI j l0 ltac:(lia) El0) as (I0 & I1). split; intros Q.
        -- eapply shorter; [exact A1|auto|auto].
        -- eapply shorter'; [exact A1|auto|auto].
    + destruct A3 as [->|(A3 & A4)].
      * destruct Hit as [Hit|(j & Hj & He & Hl)]; [left; exact Hit|]. right. exists j. split; [lia|]. split; [exact He|]. rewrite Vo by lia. exact Hl.
      * right. exists k. split; [lia|]. split; [exact A3|]. rewrite Vk, El. exact A4.
  - split; [exact H1|]. split; [exact H2|]. split; [exact H3|]. exact H4.
Qed.

Definition clamp (l : limits R) (y : R) : R :=
  let y1 := if limited1 l && Rleb (ulim1 NumR (lim1 l)) y then lim1 l else y in
  if limited0 l && Rleb y1 (llim1 NumR (lim0 l)) then lim0 l else y1.

Lemma ulim_near u : u - eps * (1 + Rabs u) <= ulim1 NumR u <= u.
Proof.
  unfold ulim1. pose proof eps_pos as M. rewrite eps_mach. cbn [nleb nofZ nsub nmul neqb NumR].
  unfold Rabs. destruct (Rcase_abs u); (destruct (Rleb 0 u) eqn:A; [apply Rleb_true in A|apply Rleb_false in A]);
    (destruct (Reqb u 0) eqn:B; [apply Reqb_true in B|apply Reqb_false in B]); nra.
Qed.
Lemma llim_near u : u <= llim1 NumR u <= u + eps * (1 + Rabs u).
Proof.
  unfold llim1. pose proof eps_pos as M. rewrite eps_mach. cbn [nleb nofZ nadd nmul neqb NumR].
  unfold Rabs. destruct (Rcase_abs u); (destruct (Rleb 0 u) eqn:A; [apply Rleb_true in A|apply Rleb_false in A]);
    (destruct (Reqb u 0) eqn:B; [apply Reqb_true in B|apply Reqb_false in B]); nra.
Qed.

Lemma clamp_near l y : lim_order NumR l -> (limited0 l = true -> lim0 l - eps <= y) -> (limited1 l = true -> y <= lim1 l + eps) ->
  clamp l y = y \/ (is_limit (Some l) (clamp l y) /\ Rabs (clamp l y - y) <= 2 * eps * (1 + Rabs (clamp l y))).
Proof.
  intros O B0 B1. pose proof eps_pos as M. unfold clamp. cbv zeta.
  destruct (limited1 l && Rleb (ulim1 NumR (lim1 l)) y) eqn:E1.
  - apply andb_true_iff in E1. destruct E1 as (L1 & E1). apply Rleb_true in E1. specialize (B1 L1). pose proof (ulim_near (lim1 l)) as U1.
    destruct (limited0 l && Rleb (lim1 l) (llim1 NumR (lim0 l))) eqn:E2.
    + apply andb_true_iff in E2. destruct E2 as (L0 & E2). apply Rleb_true in E2. specialize (B0 L0). right. split; [exists l; split; [reflexivity|left; auto]|].
      specialize (O L0 L1). apply Rleb_false in O. pose proof (llim_near (lim0 l)) as U2. pose proof (Rabs_pos (lim0 l)).
      apply Rabs_le. split; nra.
    + right. split; [exists l; split; [reflexivity|right; auto]|]. pose proof (Rabs_pos (lim1 l)). apply Rabs_le. split; nra.
  - destruct (limited0 l && Rleb y (llim1 NumR (lim0 l))) eqn:E2; [|left; reflexivity].
    apply andb_true_iff in E2. destruct E2 as (L0 & E2). apply Rleb_true in E2. specialize (B0 L0). right. split; [exists l; split; [reflexivity|left; auto]|].
    pose proof (llim_near (lim0 l)) as U2. pose proof (Rabs_pos (lim0 l)). apply Rabs_le. split; nra.
Qed.

Lemma move_real q x w0 alpha w1 y : (n <= length q)%nat -> (n <= length x)%nat -> length w0 = n ->
  move NumR n q x w0 alpha = Ok (w1, y) -> length y = n /\
  forall j l, (j < n)%nat -> nth_error q j = Some l -> vn y j = clamp l (vn x j + alpha * vn w0 j).
Proof.
  intros Lq Lx Lw E. unfold move in E.
  assert (H := fun A B => @for_ok (list R * list R) (fun k '(w, y) => length w = n /\ length y = k /\ (forall j, (k <= j)%nat -> vn w j = vn w0 j) /\
    (forall j l, (j < k)%nat -> nth_error q j = Some l -> vn y j = clamp l (vn x j + alpha * vn w0 j))) _ _ _ _ A B E). cbv beta iota in H.
  destruct H as (_ & H1 & _ & H2).
  - split; [exact Lw|]. split; [reflexivity|]. split; [reflexivity|]. intros; lia.
  - intros k (w, a) (w', a') Hk (L & La & Later & HC) E1. cbv beta iota in E1.
    destruct (nth_error q k) as [l|] eqn:El; [|apply nth_error_None in El; lia].
    assert (Gl : get q k = Ok l) by (unfold get; now rewrite El). rewrite Gl in E1. cbn [bind] in E1.
    rewrite (@get_vn R NumR x k ltac:(lia)) in E1. cbn [bind] in E1.
    rewrite (@get_vn R NumR w k ltac:(lia)) in E1. cbn [bind] in E1. rewrite (Later k (le_n _)) in E1.
    destruct (@set_vn R NumR w k (nmul NumR (vn w0 k) alpha) ltac:(lia)) as (w'' & Es & Lw' & Vw). rewrite Es in E1. cbn [bind] in E1.
    apply Ok_inj in E1. injection E1 as E1 E2. subst w'' a'.
    split; [lia|]. split; [rewrite app_length; cbn [length]; lia|]. split.
    + intros j Hj. rewrite Vw. destruct (Nat.eqb_spec j k); [lia|]. apply Later. lia.
    + intros j l0 Hj El0. unfold LM_Solve.vn. destruct (Nat.eq_dec j k) as [->|Hne].
      * rewrite app_nth2 by lia. rewrite La, Nat.sub_diag. cbn [nth]. rewrite El in El0. injection El0 as <-. unfold clamp. cbn [nleb nadd nmul NumR].
        rewrite (Rmult_comm alpha). reflexivity.
      * rewrite app_nth1 by lia. apply (HC j l0); [lia|exact El0].
  - split; [exact H1|exact H2].
Qed.

(** the limited step as a whole *)
Lemma limited_step q x wa w0 alpha w1 y : (n <= length q)%nat -> (n <= length x)%nat -> length wa = n ->
  (forall j l, (j < n)%nat -> nth_error q j = Some l -> inside l (vn x j) /\ lim_order NumR l) ->
  limit_step NumR n q x wa = Ok (w0, alpha) -> move NumR n q x w0 alpha = Ok (w1, y) ->
  0 < alpha <= 1 /\
  (forall j, (j < n)%nat -> (outward (nth_error q j) (vn x j) (vn wa j) -> vn w0 j = 0) /\ (~ outward (nth_error q j) (vn x j) (vn wa j) -> vn w0 j = vn wa j) /\
     (vn y j = vn x j + alpha * vn w0 j \/ (is_limit (nth_error q j) (vn y j) /\ Rabs (vn y j - (vn x j + alpha * vn w0 j)) <= 2 * eps * (1 + Rabs (vn y j))))) /\
  (alpha = 1 \/ exists j, (j < n)%nat /\ eps < Rabs (vn wa j) /\ is_limit (nth_error q j) (vn x j + alpha * vn w0 j)).
Proof.
  intros Lq Lx Lw HI E1 E2.
  destruct (@limit_step_real q x wa w0 alpha Lq Lx Lw (fun j l Hj Hl => proj1 (HI j l Hj Hl)) E1) as (L0 & Ha & HC & Hit).
  destruct (@move_real q x w0 alpha w1 y Lq Lx L0 E2) as (Ly & HM).
  split; [exact Ha|]. split; [|exact Hit]. intros j Hj.
  destruct (nth_error q j) as [l|] eqn:El; [|apply nth_error_None in El; lia].
  destruct (HI j l Hj El) as (I & O). destruct (HC j l Hj El) as (C1 & C2). destruct (lw_out (vn wa j) I) as (W1 & W2). rewrite <- C1 in W1, W2.
  split; [exact W1|]. split; [exact W2|]. rewrite (HM j l Hj El).
  assert (Sm : Rabs (vn wa j) <= eps -> Rabs (vn w0 j) <= eps).
  { intros H. rewrite C1. unfold lw. pose proof eps_pos. assert (Z : Rabs 0 <= eps) by (rewrite Rabs_R0; lra).
    destruct (limited0 l && Rleb (vn x j) (lim0 l) && Rltb (vn wa j) 0); destruct (limited1 l && Rleb (lim1 l) (vn x j) && _); assumption. }
  apply clamp_near; [exact O| |]; intros Q; destruct I as (I0 & I1); destruct (Rlt_le_dec eps (Rabs (vn wa j))) as [G|G].
  - destruct (C2 G) as (C3 & _). specialize (C3 Q). pose proof eps_pos. lra.
  - specialize (Sm G). specialize (I0 Q). pose proof eps_pos.
    assert (- eps <= vn w0 j <= eps). { revert Sm. unfold Rabs. destruct (Rcase_abs (vn w0 j)); lra. } nra.
  - destruct (C2 G) as (_ & C3). specialize (C3 Q). pose proof eps_pos. lra.
  - specialize (Sm G). specialize (I1 Q). pose proof eps_pos.
    assert (- eps <= vn w0 j <= eps). { revert Sm. unfold Rabs. destruct (Rcase_abs (vn w0 j)); lra. } nra.
Qed.
End L.

(** ---- the step of the difference quotients ---- *)
Lemma fd_nonzero ep (lims : option (list (limits R))) j temp h : 0 < ep -> fd_step NumR ep lims j temp = Ok h -> h <> 0.
Proof.
  intros P E. unfold fd_step in E. apply bind_Ok in E. destruct E as (b & _ & E). apply Ok_inj in E. subst h.
  cbn [nmul nabs neqb nofZ nneg NumR].
  assert (H : (if Reqb (ep * Rabs temp) 0 then ep else ep * Rabs temp) <> 0).
  { destruct (Reqb (ep * Rabs temp) 0) eqn:Q; [lra|]. apply Reqb_false in Q. exact Q. }
  destruct b; lra.
Qed.
Lemma fd_eps c : 0 < nsqrt NumR (dmax1 NumR c (MACHEP0 NumR)).
Proof.
  cbn [nsqrt NumR]. apply sqrt_lt_R0. pose proof machep_pos. unfold dmax1. cbn [nleb NumR]. destruct (Rleb (MACHEP0 NumR) c) eqn:E; [apply Rleb_true in E|]; lra.
Qed.

(** ---- the columns of blocked parameters ---- *)
Lemma blocked_iff (m : nat) q x f J j l : nth_error q j = Some l ->
  (lpeg NumR q x j && Rltb 0 (slope m f J j) || upeg NumR q x j && Rltb (slope m f J j) 0) = true <-> blocked (Some l) (vn x j) (slope m f J j).
Proof.
  intros El. unfold lpeg, upeg. rewrite El. cbn [neqb NumR]. rewrite orb_true_iff, !andb_true_iff. split.
  - intros [((A & B) & C)|((A & B) & C)]; exists l; (split; [reflexivity|]); [left|right]; apply Reqb_true in B; apply Rltb_true in C; auto.
  - intros (l' & Q & [(A & B & C)|(A & B & C)]); injection Q as <-; [left|right]; apply Reqb_true in B; apply Rltb_true in C; auto.
Qed.
